#!/usr/bin/env python3
"""Mutation testing of the theorems, in scratch copies outside /verif.

usage: mutate.py base                 make /tmp/mutbase, a compiled copy of /verif/rocq
       mutate.py run mutants.json     run the mutants not yet in /tmp/mutresults
       mutate.py redo mutants.json id...

A mutant is {"id", "file", "old", "new", ...} or has "edits", a list of such
edits: in theories/<file> the text old (which must occur exactly once, or "n"
selects the occurrence) becomes new.  The names that occur in each item of the
sources give a graph.  Only proofs that reach a changed item are run again.  A
proof that fails counts as failed with everything that uses it; the theorems of
the Props files that do not fail still prove for the wrong program."""
import sys, os, re, json, subprocess, shutil, concurrent.futures as cf
BASE = os.environ.get('MUTBASE', '/tmp/mutbase'); RES = '/tmp/mutresults'; ROOT = '/verif/rocq'
W = int(os.environ.get('MUTJ', '4'))
FAST = bool(os.environ.get('MUTFAST'))   # stop at the first theorem that fails

def files(d):
    return [l.strip()[len('theories/'):-2] for l in open(d + '/_CoqProject') if l.strip().endswith('.v')]

def coqc(d, f, extra=()):
    try:
        p = subprocess.run(['coqc', '-q', '-w', '-all', *extra, '-Q', 'theories', 'Verif', 'theories/%s.v' % f], cwd=d,
                           capture_output=True, text=True, timeout=600)
        return p.returncode, p.stdout + p.stderr
    except subprocess.TimeoutExpired:
        return 124, 'TIMEOUT'

def deps(d):
    out = subprocess.run(['coqdep', '-Q', 'theories', 'Verif'] + ['theories/%s.v' % f for f in files(d)], cwd=d,
                         capture_output=True, text=True).stdout.replace('\\\n', ' ')
    D = {}
    for l in out.split('\n'):
        if ':' not in l: continue
        a, b = l.split(':', 1)
        m = re.match(r'theories/(\w+)\.vo\b', a)
        if m: D[m.group(1)] = [x for x in re.findall(r'theories/(\w+)\.vo\b', b) if x != m.group(1)]
    return D

def topo(D, todo):
    out, done = [], set()
    def go(f):
        if f in done: return
        done.add(f)
        for x in D[f]: go(x)
        if f in todo: out.append(f)
    for f in sorted(D): go(f)
    return out

def base():
    shutil.rmtree(BASE, ignore_errors=True)
    shutil.copytree(ROOT, BASE, ignore=shutil.ignore_patterns('*.vo', '*.vok', '*.vos', '*.glob', '*.aux', 'Makefile*'))
    D = deps(BASE); using = {}
    def job(f):
        rc, out = coqc(BASE, f, ['-set', 'Suggest Proof Using'])
        for m in re.finditer(r'The proof of (\w+)\s+should start with one of the following commands:\s+Proof using([^.]*)\.', out):
            using[f + '.' + m.group(1)] = m.group(2).strip()
        if rc: print('BASE FAILS', f, out[-500:])
    done, running, pend = set(), {}, set(D)
    with cf.ThreadPoolExecutor(W) as ex:
        while pend or running:
            for f in sorted(pend):
                if all(x in done for x in D[f]): running[ex.submit(job, f)] = f; pend.discard(f)
            dn, _ = cf.wait(running, return_when=cf.FIRST_COMPLETED)
            for r in dn: done.add(running.pop(r))
    json.dump(using, open(BASE + '/using.json', 'w'), indent=0)
    print('base ready', len(using))

HEAD = re.compile(r'^\s*(?:Local\s+|Global\s+|#\[\w+\]\s*)?(Lemma|Theorem|Example|Corollary|Fact|Remark|Goal|Definition|Fixpoint|Inductive|Record|Instance|Ltac|Notation)\b\s*("|[\w\']+)?')
PRF = ('Lemma', 'Theorem', 'Example', 'Corollary', 'Fact', 'Remark')
WORD = re.compile(r"[A-Za-z_][\w']*")

class Item:
    __slots__ = ('file', 'kind', 'name', 'a', 'b', 'text', 'toks')

def uncomment(t):
    while True:
        n = re.sub(r'\(\*(?:(?!\(\*|\*\)).)*\*\)', ' ', t, flags=re.S)
        if n == t: return t
        t = n

def parse(f, src):
    lines = src.split('\n'); items = []; cur = None; stack = [set()]
    for i, l in enumerate(lines):
        m = HEAD.match(l)
        if m:
            cur = Item(); cur.file, cur.kind, cur.name, cur.a = f, m.group(1), m.group(2) or '', i
            cur.toks = set().union(*stack); items.append(cur)
        s = re.match(r'\s*(Section|End|Variables?|Context|Hypothes[ie]s|Let)\b', l)
        if s:
            if s.group(1) == 'Section': stack.append(set())
            elif s.group(1) == 'End' and len(stack) > 1: stack.pop()
            elif s.group(1) != 'End':
                k = i; t = ''
                while k < len(lines):
                    t += lines[k] + '\n'
                    if re.search(r'\.\s*$', uncomment(lines[k])): break
                    k += 1
                stack[-1] |= set(WORD.findall(uncomment(t)))
    for j, it in enumerate(items):
        it.b = items[j + 1].a if j + 1 < len(items) else len(lines)
        it.text = '\n'.join(lines[it.a:it.b])
        it.toks = it.toks | set(WORD.findall(uncomment(it.text)))
    return items

def graph(d, D):
    """items by file; name -> keys; uses: key -> set of keys"""
    clo = {}
    def closure(f):
        if f not in clo:
            clo[f] = {f}
            for x in D[f]: clo[f] |= closure(x)
        return clo[f]
    I = {f: parse(f, open(d + '/theories/%s.v' % f).read()) for f in D}
    where = {}
    for f in I:
        for it in I[f]:
            ns = [it.name] if it.name != '"' else []
            if it.kind in ('Record', 'Inductive'):
                t = uncomment(it.text)
                ns += re.findall(r'[{;]\s*(\w+)\s*:', t) + re.findall(r':=\s*(\w+)', t) + re.findall(r'\|\s*(\w+)', t)
            for n in ns: where.setdefault(n, set()).add((f, it.a))
    uses = {}
    for f in I:
        c = closure(f)
        for it in I[f]:
            uses[(f, it.a)] = {k for t in it.toks for k in where.get(t, ()) if k[0] in c and (k[0] != f or k[1] < it.a)}
    return I, uses

def reach(users, start):
    seen, st = set(start), list(start)
    while st:
        for y in users.get(st.pop(), ()):
            if y not in seen: seen.add(y); st.append(y)
    return seen

def admit(it, using):
    m = re.search(r'\bProof\b[^.]*\.', it.text)
    if not m: return None
    q = re.search(r'\b(Qed|Defined)\.', it.text[m.start():])
    if not q or q.group(1) == 'Defined': return None
    u = using.get(it.file + '.' + it.name)
    pu = 'Proof.' if u is None else ('Proof using %s.' % u if u else 'Proof using.')
    n = it.text[m.start():m.start() + q.end()].count('\n')
    return it.text[:m.start()] + pu + ' Admitted.' + '\n' * n + it.text[m.start() + q.end():]

def run1(m, D, using):
    d = '/tmp/mut_' + m['id']
    shutil.rmtree(d, ignore_errors=True)
    os.makedirs(d + '/theories')
    try: return run2(m, D, using, d)
    finally: shutil.rmtree(d, ignore_errors=True)

def run2(m, D, using, d):
    for f in D: shutil.copy(BASE + '/theories/%s.v' % f, d + '/theories/')
    old = {}
    for e in m.get('edits', [m]):
        f = e['file']; p = d + '/theories/%s.v' % f
        s = open(p).read(); n = e.get('n'); c = s.count(e['old'])
        old.setdefault(f, {it.name: it.text for it in parse(f, s)})
        if n is None and c != 1 or c == 0: return {'id': m['id'], 'error': 'old occurs %d times' % c}
        if n is None: s = s.replace(e['old'], e['new'])
        else:
            k = -1
            for _ in range(n): k = s.index(e['old'], k + 1)
            s = s[:k] + e['new'] + s[k + len(e['old']):]
        open(p, 'w').write(s)
    aff = set(old)
    while True:
        more = {f for f in D if f not in aff and any(x in aff for x in D[f])}
        if not more: break
        aff |= more
    for f in D:
        if f not in aff: os.symlink(BASE + '/theories/%s.vo' % f, d + '/theories/%s.vo' % f)
    I, uses = graph(d, D)
    users = {}
    for k, v in uses.items():
        for x in v: users.setdefault(x, set()).add(k)
    changed = [(f, it.a) for f in old for it in I[f] if old[f].get(it.name) != it.text]
    touched = reach(users, changed)
    bad, first, problems = set(), [], {}
    for f in topo(D, aff):
        src = open(d + '/theories/%s.v' % f).read().split('\n')
        while True:
            L = list(src)
            for it in I[f]:
                k = (f, it.a)
                if it.kind in PRF and (k not in touched or k in bad):
                    t = admit(it, using)
                    if t is not None: L[it.a:it.b] = t.split('\n')
            open(d + '/theories/%s.v' % f, 'w').write('\n'.join(L))
            rc, out = coqc(d, f)
            if rc == 0: break
            mm = re.search(r'File "\./theories/(\w+)\.v", line (\d+), characters', out)
            it = None
            if mm:
                ln = int(mm.group(2)) - 1
                it = next((i for i in I[f] if i.a <= ln < i.b), None)
            err = out[mm.end():][:300] if mm else out[-300:]
            if it is None or it.kind not in PRF or (f, it.a) in bad or admit(it, using) is None:
                problems[f] = err; break
            pl = it.a + it.text[:re.search(r'\bProof\b', it.text).start()].count('\n')
            if ln < pl: problems[f] = 'statement of %s: %s' % (it.name, err); break
            first.append('%s.%s' % (f, it.name))
            bad |= {k for k in reach(users, [(f, it.a)])}
            if FAST and any(k[0].startswith('Props') for k in bad): break
        if FAST and any(k[0].startswith('Props') for k in bad): break
        if f in problems: break
    failed, good, other = [], [], []
    for f in sorted(D):
        if f.startswith('Props'):
            for it in I[f]:
                if it.kind in ('Theorem', 'Example'):
                    k = (f, it.a)
                    (failed if k in bad else good if k in touched else other).append(it.name)
    return {'id': m['id'], 'failed_proofs': first, 'problems': problems,
            'failed': failed, 'still_proved': good, 'not_reached': len(other)}

if sys.argv[1] == 'base': base()
else:
    ms = json.load(open(sys.argv[2])); D = deps(BASE); using = json.load(open(BASE + '/using.json'))
    os.makedirs(RES, exist_ok=True)
    if sys.argv[1] == 'redo': ms = [m for m in ms if m['id'] in sys.argv[3:] or len(sys.argv) == 3]
    def one(m):
        out = RES + '/%s.json' % m['id']
        if sys.argv[1] == 'run' and os.path.exists(out): return
        try: r = run1(m, D, using)
        except Exception as e: r = {'id': m['id'], 'error': repr(e)}
        json.dump(r, open(out, 'w'), indent=1)
        print(m['id'], r.get('error') or '%d failed, %d still, problems %s' % (len(r['failed']), len(r['still_proved']), list(r['problems'])), flush=True)
    with cf.ThreadPoolExecutor(W) as ex: list(ex.map(one, ms))
