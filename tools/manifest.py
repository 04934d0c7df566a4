#!/usr/bin/env python3
"""Regenerate MANIFEST.json: every Theorem named Cnn_... in rocq/theories/*Props.v is attached to
property Cnn; statuses and notes come from tools/status.json."""
import json, re, glob, os
root = os.path.dirname(os.path.dirname(os.path.abspath(__file__)))
thms = {}
for f in sorted(glob.glob(root + '/rocq/theories/*Props.v')):
    for m in re.finditer(r'^Theorem (C(\d\d\d?)_\w+)', open(f).read(), re.M):
        thms.setdefault('C' + m.group(2), []).append(m.group(1))
status = json.load(open(root + '/tools/status.json'))
claims = []
for line in open(root + '/properties.jsonl'):
    i = json.loads(line)['id']
    t = thms.get(i, [])
    st, note = status.get(i, [None, ''])
    if st is None:
        st = 'proved' if t else 'partial'
    if not t:
        st, note = 'partial', 'not yet modelled'
    claims.append({'property': i, 'status': st, 'theorems': t, 'note': note})
json.dump({'claims': claims}, open(root + '/MANIFEST.json', 'w'), indent=1)
for c in claims: print(c['property'], c['status'], len(c['theorems']))
