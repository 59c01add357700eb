#!/usr/bin/env python3
"""Collect what Print Assumptions lists for each property theorem.

Compiles every Thm_*.v again (its dependencies must be built) and prints a
Markdown list that groups the theorems by the axioms they rest on."""
import glob, os, re, subprocess, sys, tempfile
here = os.path.join(os.path.dirname(os.path.abspath(__file__)), "..", "rocq")
groups = {}
for path in sorted(glob.glob(os.path.join(here, "theories", "Thm_*.v"))):
    names = re.findall(r"^Print Assumptions (\w+)\.", open(path).read(), re.M)
    with tempfile.TemporaryDirectory() as tmp:
        out = subprocess.run(["coqc", "-Q", "theories", "Verif", "-o", os.path.join(tmp, os.path.basename(path) + "o"), path],
                             cwd=here, capture_output=True, text=True)
    if out.returncode:
        sys.exit(path + "\n" + out.stderr)
    parts = re.split(r"^(Closed under the global context|Axioms:)$", out.stdout, flags=re.M)[1:]
    heads, bodies = parts[0::2], parts[1::2]
    if len(heads) != len(names):
        sys.exit("%s: %d theorems, %d answers" % (path, len(names), len(heads)))
    for name, head, body in zip(names, heads, bodies):
        axioms = () if head.startswith("Closed") else tuple(sorted(re.findall(r"^([\w.]+)(?: :|$)", body, re.M)))
        groups.setdefault(axioms, []).append(name)
for axioms in sorted(groups, key=lambda a: (len(a), a)):
    print("\n**%s** (%d theorems)\n" % (", ".join("`%s`" % a for a in axioms) or "no axioms", len(groups[axioms])))
    print(", ".join(sorted(groups[axioms], key=lambda n: (int(n[1:].split("_")[0]), n))))
