#!/usr/bin/env python3
"""Rebuild MANIFEST.json from the theorem names in rocq/theories/P_*.v.

A theorem C07_xxx belongs to property C07.  notes.json holds the free-text note of each
property and, where needed, an explicit status; the default status is "proved", or
"partial" when one of the property's theorems ends in _partial.
"""
import glob, json, os, re
root = os.path.dirname(os.path.dirname(os.path.abspath(__file__)))
notes = json.load(open(os.path.join(root, 'tools', 'notes.json')))
props = [json.loads(l)['id'] for l in open(os.path.join(root, 'properties.jsonl'))]
thms = {}
for f in sorted(glob.glob(os.path.join(root, 'rocq/theories/P_*.v'))):
    for n in re.findall(r'^Theorem\s+(C\d+_\w+)', open(f).read(), re.M):
        thms.setdefault(n.split('_')[0], []).append(n)
unknown = set(thms) - set(props)
assert not unknown, unknown
claims = []
for p in props:
    n = notes.get(p, {})
    if isinstance(n, str):
        n = {'note': n}
    t = thms.get(p, [])
    if not t and 'status' not in n:
        continue
    st = n.get('status', 'partial' if any(x.endswith('_partial') for x in t) else 'proved')
    claims.append({'property': p, 'status': st, 'theorems': t, 'note': n.get('note', '')})
json.dump({'claims': claims}, open(os.path.join(root, 'MANIFEST.json'), 'w'), indent=1)
print(len(claims), 'claims', sum(len(c['theorems']) for c in claims), 'theorems; missing:',
      [p for p in props if p not in {c['property'] for c in claims}])
