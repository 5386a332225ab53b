#!/usr/bin/env python3
"""Append the results of mutation runs (tools/mutate.py) to seeded/LOG.jsonl.
usage: mklog.py batch.json [tightened.json]   (tightened: {mutant id: [theorems]})"""
import json,sys,os
man={c['property']:c['theorems'] for c in json.load(open('/verif/MANIFEST.json'))['claims']}
alln={t for l in man.values() for t in l}
log='/verif/seeded/LOG.jsonl'
have={json.loads(l).get('id') for l in open(log)} if os.path.exists(log) else set()
tight=json.load(open(sys.argv[2])) if len(sys.argv)>2 else {}
with open(log,'a') as f:
    for m in json.load(open(sys.argv[1])):
        p='/tmp/mutresults/%s.json'%m['id']
        if m['id'] in have or not os.path.exists(p): continue
        r=json.load(open(p))
        if 'error' in r: print('skip',m['id'],r['error']); continue
        claims=m.get('claims') or []
        failed=[t for t in r['failed'] if t in alln]
        e={'id':m['id'],'definition':m['file']+': '+m['definition'],'edit':m['edit'],'old':m['old'],'new':m['new'],
           'claim':', '.join(claims) or m.get('note',''),'failed':failed,'first_broken_proofs':r['failed_proofs'],
           'tightened':tight.get(m['id'],[])}
        if m.get('note'): e['note']=m['note']
        for t in e['tightened']:
            if t not in failed: print('WARNING',m['id'],t,'not failed')
        if not failed: print('SURVIVOR',m['id'],m['edit'])
        elif claims and not any(t in failed for c in claims for t in man.get(c,[])): print('claims not hit',m['id'],claims,failed[:5])
        f.write(json.dumps(e)+'\n')
