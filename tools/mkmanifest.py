#!/usr/bin/env python3
"""Generates MANIFEST.json from the table below; checks that every theorem
exists in rocq/theories and that every property has an entry."""
import json, re, glob, os
root = os.path.dirname(os.path.dirname(os.path.abspath(__file__)))
claims = json.load(open(os.path.join(root, 'tools', 'claims.json')))
props = [json.loads(l)['id'] for l in open(os.path.join(root, 'properties.jsonl'))]
src = ''.join(open(f).read() for f in glob.glob(os.path.join(root, 'rocq/theories/*.v')))
names = set(re.findall(r'^(?:Theorem|Lemma)\s+([A-Za-z0-9_\']+)', src, re.M))
out = []
for p in props:
    c = claims.get(p)
    if c is None:
        print('no claim for', p)
        continue
    for t in c['theorems']:
        if t not in names:
            print('missing theorem', p, t)
    out.append({'property': p, **c})
for p in claims:
    if p not in props:
        print('claim for unknown property', p)
json.dump({'claims': out}, open(os.path.join(root, 'MANIFEST.json'), 'w'), indent=1)
ths = [t for c in out for t in c['theorems']]
dup = {t for t in ths if ths.count(t) > 1}
if dup: print('dup', dup)
