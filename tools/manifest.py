#!/usr/bin/env python3
"""Regenerates MANIFEST.json from the theorem names in rocq/theories/**/Props*.v
and the status/notes in tools/notes.json."""
import json, re, glob, os
root = os.path.dirname(os.path.dirname(os.path.abspath(__file__)))
notes = json.load(open(os.path.join(root, "tools/notes.json")))
ths = {}
for f in sorted(glob.glob(os.path.join(root, "rocq/theories/**/Props*.v"), recursive=True)):
    for m in re.finditer(r"^Theorem (C\d+)_(\w+)", open(f).read(), re.M):
        ths.setdefault(m.group(1), []).append(m.group(1) + "_" + m.group(2))
claims = []
for line in open(os.path.join(root, "properties.jsonl")):
    i = json.loads(line)["id"]
    n = notes.get(i, {})
    t = ths.get(i, []) + n.get("also", [])
    if not t and n.get("status") != "not_applicable":
        continue
    claims.append({"property": i, "status": n.get("status", "proved"), "theorems": t, "note": n.get("note", "")})
json.dump({"claims": claims}, open(os.path.join(root, "MANIFEST.json"), "w"), indent=1)
print(len(claims), "claims", sum(len(c["theorems"]) for c in claims), "theorems")
