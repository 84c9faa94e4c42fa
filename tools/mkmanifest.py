#!/usr/bin/env python3
"""Rebuild MANIFEST.json from the theorem names in rocq/theories/Props and tools/status.json.

status.json maps a property id to [status, note]; a property with no theorem is listed
only when status.json says not_applicable."""
import json, re, glob, os
root = os.path.dirname(os.path.dirname(os.path.abspath(__file__)))
thms = {}
for f in sorted(glob.glob(root + '/rocq/theories/Props/*.v')):
    for m in re.finditer(r'^(?:Theorem|Lemma|Corollary)\s+(C\d\d+)_(\w+)', open(f).read(), re.M):
        thms.setdefault(m.group(1), []).append(m.group(1) + '_' + m.group(2))
st = json.load(open(root + '/tools/status.json'))
claims = []
for line in open(root + '/properties.jsonl'):
    p = json.loads(line)['id']
    s, note = st.get(p, [None, ''])
    if p in thms:
        if s is None:
            s = 'partial' if any(t.endswith('_partial') for t in thms[p]) else 'proved'
        claims.append(dict(property=p, status=s, theorems=thms[p], note=note))
    elif s == 'not_applicable':
        claims.append(dict(property=p, status=s, theorems=[], note=note))
json.dump({'claims': claims}, open(root + '/MANIFEST.json', 'w'), indent=1)
print(len(claims), 'claims', sum(len(c['theorems']) for c in claims), 'theorems')
