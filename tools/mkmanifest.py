#!/usr/bin/env python3
"""Write MANIFEST.json from the (*@ Cxx tags of theories/Main*.v and tools/notes.json.

notes.json maps a property to [status, note]; the default status is "proved"."""
import re, glob, os, json, sys
root = os.path.join(os.path.dirname(os.path.abspath(__file__)), '..')
notes = json.load(open(os.path.join(root, 'tools', 'notes.json')))
thms = {}
for src in sorted(glob.glob(os.path.join(root, 'rocq/theories/Main*.v'))):
    for m in re.finditer(r'\(\*@(.*?)\*\)\s*(Lemma|Example)\s+(\w+)_proof\b', open(src).read(), flags=re.S):
        com, kind, name = m.groups()
        ids = re.match(r'\s*((?:C\d+[, ]*)*)', com).group(1)
        for i in re.findall(r"C\d+", ids):
            thms.setdefault(i, []).append((name, kind))
claims = []
for l in open(os.path.join(root, 'properties.jsonl')):
    i = json.loads(l)['id']
    st, note = notes.get(i, ['proved', ''])
    ts = [n for n, k in thms.get(i, []) if k == 'Lemma' or 'refuted' in n]
    if not ts:
        print('no theorem for', i); continue
    claims.append({'property': i, 'status': st, 'theorems': ts, 'note': note})
json.dump({'claims': claims}, open(os.path.join(root, 'MANIFEST.json'), 'w'), indent=1)
