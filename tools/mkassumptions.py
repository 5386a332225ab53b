#!/usr/bin/env python3
"""Write ASSUMPTIONS.md: what Print Assumptions lists for each theorem of the manifest.
Run after a build, in /verif."""
import re, glob, json, os, subprocess, collections
here = os.path.join(os.path.dirname(os.path.abspath(__file__)), '..')
rocq = os.path.join(here, 'rocq')
groups = collections.defaultdict(list)
for f in sorted(glob.glob(rocq + '/theories/Props*.v')):
    mod = os.path.basename(f)[:-2]
    names = re.findall(r'^(?:Theorem|Example) (\w+)', open(f).read(), flags=re.M)
    src = 'Require Verif.%s.\n' % mod
    for n in names:
        src += 'Goal True. idtac "@@ %s". Abort.\nPrint Assumptions Verif.%s.%s.\n' % (n, mod, n)
    open('/tmp/assum.v', 'w').write(src)
    out = subprocess.run(['coqc', '-Q', 'theories', 'Verif', '-o', '/tmp/assum.vo', '/tmp/assum.v'], cwd=rocq, capture_output=True, text=True)
    assert out.returncode == 0, out.stderr
    for part in out.stdout.split('@@ ')[1:]:
        n, body = part.split('\n', 1)
        ax = tuple(sorted(set(re.findall(r'^([A-Za-z_][\w.]*) ?:', body, flags=re.M)) | set(re.findall(r'^([A-Z][\w.]*)$', body, flags=re.M))))
        ax = tuple(a for a in ax if a != 'Axioms')
        groups[ax].append((mod, n))
o = ['# Print Assumptions, theorem by theorem', '', 'Generated by `tools/mkassumptions.py` from the compiled development.', '']
for ax, l in sorted(groups.items(), key=lambda x: len(x[0])):
    o.append('## ' + (', '.join('`%s`' % a for a in ax) if ax else 'Closed under the global context (no axioms)'))
    o.append('')
    by = collections.defaultdict(list)
    for m, n in l: by[m].append(n)
    for m in sorted(by): o.append('* %s: %s' % (m, ', '.join(by[m])))
    o.append('')
open(here + '/ASSUMPTIONS.md', 'w').write('\n'.join(o))
