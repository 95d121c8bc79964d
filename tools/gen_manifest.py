#!/usr/bin/env python3
"""Writes MANIFEST.json. One entry per property; theorem names are checked to exist."""
import json, os, re, glob
ROOT = os.path.dirname(os.path.dirname(os.path.abspath(__file__)))
C = {}
def c(pid, status, theorems, note=""):
    C[pid] = {"property": pid, "status": status, "theorems": theorems.split(), "note": note}

exec(open(os.path.join(ROOT, "tools", "claims.py")).read())

names = set()
for f in glob.glob(os.path.join(ROOT, "rocq/theories/*.v")):
    for m in re.finditer(r"^\s*(?:Theorem|Lemma|Corollary|Proposition|Fact|Remark)\s+([A-Za-z0-9_']+)", open(f).read(), re.M):
        names.add(m.group(1))
for e in C.values():
    for t in e["theorems"]:
        assert t in names, (e["property"], t)
props = [json.loads(l)["id"] for l in open(os.path.join(ROOT, "properties.jsonl"))]
for p in C: assert p in props, p
json.dump({"claims": [C[p] for p in props if p in C]}, open(os.path.join(ROOT, "MANIFEST.json"), "w"), indent=1)
print(len(C), "claims;", "missing:", [p for p in props if p not in C])
