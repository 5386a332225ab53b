#!/usr/bin/env python3
"""Write theories/Props<X>.v from theories/Main<X>.v.

Main<X>.v holds the property lemmas with their proofs, each introduced by a
comment "(*@ Cxx: English text *)" and named <name>_proof.  Props<X>.v repeats
the statements as theorems <name> closed by 'exact <name>_proof', with Print
Assumptions, so that the statements can be read in one place."""
import re, sys, glob, os
here = os.path.join(os.path.dirname(__file__), '..', 'rocq', 'theories')
for src in sorted(glob.glob(os.path.join(here, 'Main*.v'))):
    x = os.path.basename(src)[4:-2]
    text = open(src).read()
    head = text.split('(*@', 1)[0]
    head = re.sub(r'\A\s*\(\*\*.*?\*\)\s*', '', head, flags=re.S)
    lines = [l for l in head.split('\n')
             if re.match(r'\s*(From|Require|Open Scope|Import|Local Open)', l)]
    out = ['(** Property theorems; generated by tools/mkprops.py from Main%s.v. *)' % x]
    out += [l for l in lines if 'Open Scope' not in l]
    out += ['Require Import Verif.Main%s.' % x]
    out += [l for l in lines if 'Open Scope' in l] + ['']
    for m in re.finditer(r'\(\*@(.*?)\*\)\s*(Lemma|Example)\s+(\w+)_proof\b(.*?)\.\nProof\.',
                         text, flags=re.S):
        com, kind, name, stmt = m.groups()
        out.append('(**%s*)' % com)
        out.append('%s %s%s.' % ('Theorem' if kind == 'Lemma' else 'Example', name, stmt))
        out.append('Proof. exact %s_proof. Qed.' % name)
        if kind == 'Lemma':
            out.append('Print Assumptions %s.' % name)
        out.append('')
    dst = os.path.join(here, 'Props%s.v' % x)
    new = '\n'.join(out)
    if not os.path.exists(dst) or open(dst).read() != new:
        open(dst, 'w').write(new)
        print('wrote', dst)
