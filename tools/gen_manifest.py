#!/usr/bin/env python3
"""Writes MANIFEST.json: every theorem named Cnn_... in rocq/theories/*Props.v, grouped by property,
with the status and note from STATUS."""
import json, os, re, glob
root = os.path.join(os.path.dirname(os.path.abspath(__file__)), "..")
STATUS = json.load(open(os.path.join(root, "tools", "status.json")))
th = {}
for f in sorted(glob.glob(os.path.join(root, "rocq/theories/*Props*.v"))):
    for m in re.finditer(r"^Theorem\s+((C\d\d+)\w*)", open(f).read(), re.M):
        th.setdefault(m.group(2), []).append(m.group(1))
claims = []
for l in open(os.path.join(root, "properties.jsonl")):
    i = json.loads(l)["id"]
    st, note = STATUS.get(i, ["partial", ""])
    if i in th:
        claims.append(dict(property=i, status=st, theorems=th[i], note=note))
    elif st == "not_applicable":
        claims.append(dict(property=i, status=st, theorems=[], note=note))
json.dump(dict(claims=claims), open(os.path.join(root, "MANIFEST.json"), "w"), indent=1)
print(len(claims), "claims,", sum(len(c["theorems"]) for c in claims), "theorems")
