#!/usr/bin/env python3
"""Regenerate MANIFEST.json from the Theorem names in rocq/theories/Prop_*.v and notes.json."""
import json, re, glob, os
root = os.path.dirname(os.path.dirname(os.path.abspath(__file__)))
th = {}
for f in sorted(glob.glob(root + '/rocq/theories/Prop_*.v')):
    for m in re.finditer(r'^Theorem (C(\d+)_\w*)', open(f).read(), re.M):
        th.setdefault('C' + m.group(2), []).append(m.group(1))
notes = json.load(open(root + '/tools/notes.json'))
claims = []
for line in open(root + '/properties.jsonl'):
    d = json.loads(line)
    i = d['id']
    names = th.get(i, [])
    st, note = notes.get(i, ['partial', 'not yet modelled'])
    if not names and st == 'proved':
        raise SystemExit(i + ' proved without theorem')
    claims.append({'property': i, 'status': st, 'theorems': names, 'note': note})
json.dump({'claims': claims}, open(root + '/MANIFEST.json', 'w'), indent=1)
print(len(claims), sum(bool(c['theorems']) for c in claims), 'with theorems')
