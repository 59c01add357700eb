#!/usr/bin/env python3
"""finding.py ID TEXT: set the finding of a property (the statement is kept).
   status.py-like helpers: finding.py --status ID STATUS NOTE; finding.py --add JSON"""
import json, sys, os
root = os.path.dirname(os.path.dirname(os.path.abspath(__file__)))
P = root + '/properties.jsonl'; S = root + '/tools/status.json'
def load(): return [json.loads(l) for l in open(P)]
def save(ps):
    with open(P, 'w') as f:
        for p in ps: f.write(json.dumps(p) + '\n')
if sys.argv[1] == '--status':
    s = json.load(open(S)); s[sys.argv[2]] = [sys.argv[3], sys.argv[4]]
    json.dump(dict(sorted(s.items())), open(S, 'w'), indent=0)
elif sys.argv[1] == '--add':
    ps = load(); q = json.loads(sys.argv[2]); ps = [p for p in ps if p['id'] != q['id']] + [q]; save(ps)
else:
    ps = load()
    for p in ps:
        if p['id'] == sys.argv[1]: p['finding'] = sys.argv[2]
    save(ps)
