#!/usr/bin/env python3
"""Regenerate MANIFEST.json from the theorem names in rocq/theories/Properties_*.v.

A theorem named Cnn_... belongs to property Cnn.  STATUS overrides the default status
(proved) and NOTES gives the note of a property.
"""
import glob, json, os, re

root = os.path.dirname(os.path.dirname(os.path.abspath(__file__)))
exec(open(os.path.join(root, "tools", "status.py")).read())

names = {}
for f in sorted(glob.glob(os.path.join(root, "rocq/theories/Properties_*.v"))):
    for m in re.finditer(r"^\s*(?:Theorem|Lemma|Corollary)\s+(C\d\d)(\w*)", open(f).read(), re.M):
        names.setdefault(m.group(1), []).append(m.group(1) + m.group(2))

claims = []
for line in open(os.path.join(root, "properties.jsonl")):
    pid = json.loads(line)["id"]
    ths = names.get(pid, [])
    if not ths and pid not in STATUS:
        continue
    st = STATUS.get(pid, "proved")
    claims.append({"property": pid, "status": st, "theorems": ths, "note": NOTES.get(pid, "")})
json.dump({"claims": claims}, open(os.path.join(root, "MANIFEST.json"), "w"), indent=1)
print(len(claims), "claims,", sum(len(c["theorems"]) for c in claims), "theorems")
