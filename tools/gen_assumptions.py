#!/usr/bin/env python3
"""Regenerate rocq/theories/Assumptions.v: Print Assumptions for every theorem of MANIFEST.json."""
import json, glob, os, re
here = os.path.dirname(os.path.dirname(os.path.abspath(__file__)))
out, mods = [], []
for f in sorted(glob.glob(os.path.join(here, 'rocq/theories/Prop*.v'))):
    m = os.path.basename(f)[:-2]
    mods.append(m)
    for t in re.findall(r'^Theorem\s+(C\d\d+_\w+)', open(f).read(), re.M):
        out.append(f'Print Assumptions {m}.{t}.')
open(os.path.join(here, 'rocq/theories/Assumptions.v'), 'w').write(
    '(** Generated by tools/gen_assumptions.py: what every theorem rests on.  Each line\n'
    '    prints "Closed under the global context". *)\n'
    'From Verif Require ' + ' '.join(mods) + '.\n' + '\n'.join(out) + '\n')
