#!/usr/bin/env python3
"""Regenerate MANIFEST.json: theorems are collected from rocq/theories/P*.v by their Cxx_ prefix."""
import json, re, glob, os
root = os.path.dirname(os.path.dirname(os.path.abspath(__file__)))
props = [json.loads(l) for l in open(root + '/properties.jsonl')]
thms = {}
for f in sorted(glob.glob(root + '/rocq/theories/P[A-Z]*.v')):
    for m in re.finditer(r'^Theorem (C\d+)_(\w+)', open(f).read(), re.M):
        thms.setdefault(m.group(1), []).append(m.group(1) + '_' + m.group(2))
notes = json.load(open(root + '/tools/notes.json'))
claims = []
for p in props:
    i = p['id']
    ts = thms.get(i, [])
    n = notes.get(i, {})
    status = n.get('status', 'proved' if ts else 'partial')
    claims.append({'property': i, 'status': status, 'theorems': ts, 'note': n.get('note', '' if ts else 'not yet modelled')})
json.dump({'claims': claims}, open(root + '/MANIFEST.json', 'w'), indent=1)
print(sum(1 for c in claims if c['theorems']), 'of', len(claims), 'have theorems')
for i in thms:
    if i not in [p['id'] for p in props]: print('unknown', i)
