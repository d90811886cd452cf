#!/usr/bin/env python3
"""Put DESIGN.md together: head, table of properties, list of findings, tail."""
import json, os, re, glob
root = os.path.dirname(os.path.dirname(os.path.abspath(__file__)))
T = os.path.join(root, "tools")
exec(open(os.path.join(T, "design_how.py")).read())
man = {c["property"]: c for c in json.load(open(os.path.join(root, "MANIFEST.json")))["claims"]}
out = [open(os.path.join(T, "design_head.md")).read()]
out.append("## Properties: what is modelled and how it is proved\n")
for line in open(os.path.join(root, "properties.jsonl")):
    d = json.loads(line)
    c = man[d["id"]]
    what, how = HOW[d["id"]]
    out.append("### %s %s (%s)\n" % (d["id"], d["title"], c["status"]))
    out.append("Modelled: %s. Proof: %s." % (what, how))
    pos = [t for t in c["theorems"] if not t.endswith("_refuted")]
    neg = [t for t in c["theorems"] if t.endswith("_refuted")]
    if pos:
        out.append("Theorems: %s." % ", ".join("`%s`" % t for t in pos))
    if neg:
        out.append("Refuted expectations: %s." % ", ".join("`%s`" % t for t in neg))
    if c["note"]:
        out.append("Note: " + c["note"])
    out.append("")
# findings: the comment above each refuted theorem
out.append("## Findings (refuted theorems, with the comment above each)\n")
for f in sorted(glob.glob(os.path.join(root, "rocq/theories/Properties_*.v"))):
    s = open(f).read()
    for m in re.finditer(r"(?:\(\*\*((?:(?!\*\)).)*)\*\)\s*)?Theorem (C\d\d\w*_refuted)", s, re.S):
        com = re.sub(r"\s+", " ", (m.group(1) or "")).strip()
        out.append("* `%s`%s" % (m.group(2), (" – " + com) if com else ""))
out.append("")
out.append(open(os.path.join(T, "design_tail.md")).read())
open(os.path.join(root, "DESIGN.md"), "w").write("\n".join(out))
