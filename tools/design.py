#!/usr/bin/env python3
"""Write DESIGN.md from tools/design_head.md, the plan lines in tools/plan.json,
the manifest and the output of tools/assumptions.py (argument)."""
import json, os, sys
here = os.path.dirname(os.path.abspath(__file__))
read = lambda *p: open(os.path.join(here, *p)).read()
head = read("design_head.md")
plan = json.loads(read("plan.json"))
claims = {c["property"]: c for c in json.loads(read("..", "MANIFEST.json"))["claims"]}
rows = ["| id | property | model and method | theorems |", "|---|---|---|---|"]
for line in read("..", "properties.jsonl").splitlines():
    p = json.loads(line)
    i = int(p["id"][1:])
    how = next(t for a, b, t in plan if a <= i <= b)
    rows.append("| %s | %s | %s | %s |" % (p["id"], p["title"].replace("|", "\\|"), how.replace("|", "\\|"), ", ".join(claims[p["id"]]["theorems"])))
out = head.replace("@PLAN@", "\n".join(rows)).replace("@ASSUMPTIONS@", open(sys.argv[1]).read().strip())
open(os.path.join(here, "..", "DESIGN.md"), "w").write(out)
