#!/usr/bin/env python3
"""Rebuild MANIFEST.json: theorems are collected from Thm_*.v by their Cnn_ prefix,
status and note come from tools/status.json."""
import json, re, glob, os
here = os.path.dirname(os.path.abspath(__file__)); root = os.path.dirname(here)
thms = {}
for f in sorted(glob.glob(root + '/rocq/theories/Thm_*.v')):
    for m in re.finditer(r'^Theorem\s+((C\d+)_\w+)', open(f).read(), re.M):
        thms.setdefault(m.group(2), []).append(m.group(1))
status = json.load(open(here + '/status.json'))
claims = []
for l in open(root + '/properties.jsonl'):
    p = json.loads(l)['id']
    st = status.get(p)
    if not st and p not in thms: continue
    st = st or ['partial', '']
    claims.append({"property": p, "status": st[0], "theorems": thms.get(p, []), "note": st[1]})
json.dump({"claims": claims}, open(root + '/MANIFEST.json', 'w'), indent=1)
print(len(claims), sum(len(c['theorems']) for c in claims))
