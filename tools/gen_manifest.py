#!/usr/bin/env python3
# Regenerates MANIFEST.json from the theorems in rocq/theories/Properties_*.v.
import json, re, glob, os
os.chdir(os.path.join(os.path.dirname(__file__), '..'))
thms = {}
for f in sorted(glob.glob('rocq/theories/Properties_*.v')):
    s = open(f).read()
    for m in re.finditer(r'^Theorem ((C\d+)_\w+)', s, re.M):
        thms.setdefault(m.group(2), []).append(m.group(1))
        assert 'Print Assumptions %s.' % m.group(1) in s, m.group(1)
ids = [json.loads(l)['id'] for l in open('properties.jsonl')]
exec(open('tools/notes.py').read())
for k in thms: assert k in ids, k
claims = []
for i in ids:
    t = thms.get(i, [])
    if not t: print('no theorem for', i); continue
    st = 'partial' if any(x.endswith('_partial') or x.endswith('_refuted') for x in t) else 'proved'
    if st == 'partial': assert i in NOTES, i
    claims.append(dict(property=i, status=st, theorems=t, note=NOTES.get(i, '')))
json.dump(dict(claims=claims), open('MANIFEST.json', 'w'), indent=1)
