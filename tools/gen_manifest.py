#!/usr/bin/env python3
"""Rebuild MANIFEST.json from the theorem names in rocq/theories/Props_*.v.
A theorem cNN_... belongs to property CNN. Statuses and notes come from
tools/claims.json (default status: proved; partial if any theorem is *_partial)."""
import glob, json, os, re
root = os.path.dirname(os.path.dirname(os.path.abspath(__file__)))
notes = json.load(open(os.path.join(root, 'tools', 'claims.json')))
ids = [json.loads(l)['id'] for l in open(os.path.join(root, 'properties.jsonl'))]
thms = {i: [] for i in ids}
for f in sorted(glob.glob(os.path.join(root, 'rocq', 'theories', 'Props_*.v'))):
    for m in re.finditer(r'^Theorem\s+(c(\d+)_\w+)', open(f).read(), re.M):
        thms.setdefault('C' + m.group(2), []).append(m.group(1))
claims = []
for i in ids:
    t = thms[i]
    n = notes.get(i, {})
    if not t and 'status' not in n:
        continue
    st = n.get('status') or ('partial' if any(x.endswith('_partial') for x in t) else 'proved')
    claims.append({'property': i, 'status': st, 'theorems': t, 'note': n.get('note', '')})
for i in thms:
    if i not in ids:
        print('theorems without property:', i, thms[i])
json.dump({'claims': claims}, open(os.path.join(root, 'MANIFEST.json'), 'w'), indent=1)
print(len(claims), 'claims', sum(len(c['theorems']) for c in claims), 'theorems; missing', [i for i in ids if i not in [c['property'] for c in claims]])
