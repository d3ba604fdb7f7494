#!/usr/bin/env python3
"""Writes MANIFEST.json from the table below; checks that every theorem name exists."""
import json, re, glob, os
root = os.path.dirname(os.path.dirname(os.path.abspath(__file__)))
C = {}
def claim(pid, status, theorems, note=""):
    C[pid] = {"property": pid, "status": status, "theorems": theorems, "note": note}
exec(open(os.path.join(root, "tools", "claims.py")).read())
names = set()
for f in glob.glob(os.path.join(root, "rocq/theories/*.v")):
    names |= set(re.findall(r"^(?:Theorem|Lemma|Corollary)\s+(\w+)", open(f).read(), re.M))
for c in C.values():
    for t in c["theorems"]:
        assert t in names, t
json.dump({"claims": [C[k] for k in sorted(C)]}, open(os.path.join(root, "MANIFEST.json"), "w"), indent=1)
props = [json.loads(l)["id"] for l in open(os.path.join(root, "properties.jsonl"))]
print("missing:", [p for p in props if p not in C])
