#!/usr/bin/env python3
"""Regenerate MANIFEST.json from the theorem names in rocq/theories/Prop*.v."""
import re, json, glob, os
here = os.path.dirname(os.path.dirname(os.path.abspath(__file__)))
notes = json.load(open(os.path.join(here, 'tools/notes.json')))
props = [json.loads(l)['id'] for l in open(os.path.join(here, 'properties.jsonl'))]
th = {p: [] for p in props}
for f in sorted(glob.glob(os.path.join(here, 'rocq/theories/Prop*.v'))):
    for m in re.finditer(r'^Theorem\s+(C\d\d+)_(\w+)', open(f).read(), re.M):
        th[m.group(1)].append(m.group(1) + '_' + m.group(2))
claims = []
for p in props:
    ts = th[p]
    if not ts:
        status = 'not_applicable'
    elif any(t.endswith('_refuted') or t.endswith('_partial') for t in ts):
        status = 'partial'
    else:
        status = 'proved'
    note = notes.get(p, '')
    if not ts and not note:
        note = 'not yet proved'
    claims.append({'property': p, 'status': status, 'theorems': ts, 'note': note})
json.dump({'claims': claims}, open(os.path.join(here, 'MANIFEST.json'), 'w'), indent=1)
for c in claims: print(c['property'], c['status'], *c['theorems'])
