#!/usr/bin/env python3
"""Writes MANIFEST.json from the claim table below; checks that the theorem names exist."""
import json, re, glob, os
root = os.path.dirname(os.path.dirname(os.path.abspath(__file__)))
C = {}
def claim(p, status, thms, note=""):
    C[p] = dict(property=p, status=status, theorems=thms.split(), note=note)
exec(open(os.path.join(root, 'tools', 'claims.py')).read())
names = set()
for f in glob.glob(os.path.join(root, 'rocq/theories/*.v')):
    names |= set(re.findall(r'^\s*(?:Theorem|Lemma|Corollary)\s+(\w+)', open(f).read(), re.M))
props = [json.loads(l)['id'] for l in open(os.path.join(root, 'properties.jsonl'))]
for c in C.values():
    assert c['property'] in props, c
    for t in c['theorems']:
        assert t in names, (c['property'], t)
missing = [p for p in props if p not in C]
json.dump({"claims": [C[p] for p in props if p in C]}, open(os.path.join(root, 'MANIFEST.json'), 'w'), indent=1)
print(len(C), 'claims; missing', missing)
used = {t for c in C.values() for t in c['theorems']}
print('unclaimed C-theorems:', sorted(n for n in names if re.match(r'C\d\d', n) and n not in used))
