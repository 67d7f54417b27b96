#!/usr/bin/env python3
"""Write /verif/MANIFEST.json from tools/status.json and the theorem names
(Cnn_*) found in rocq/theories/*Properties.v."""
import json, re, glob, os
root = os.path.dirname(os.path.dirname(os.path.abspath(__file__)))
status = json.load(open(root + '/tools/status.json'))
props = [json.loads(l)['id'] for l in open(root + '/properties.jsonl') if l.strip()]
names = {}
for f in sorted(glob.glob(root + '/rocq/theories/*Properties*.v')):
    for m in re.finditer(r'^Theorem\s+((C\d\d+)_\w+)', open(f).read(), re.M):
        names.setdefault(m.group(2), []).append(m.group(1))
claims = []
for p in props:
    if p in status:
        st, note = status[p]
        th = names.get(p, [])
        assert st == 'not_applicable' or th, p
        claims.append({"property": p, "status": st, "theorems": th, "note": note})
json.dump({"claims": claims}, open(root + '/MANIFEST.json', 'w'), indent=1)
print(len(claims), "claims;", "missing:", [p for p in props if p not in status])
