#!/usr/bin/env python3
"""Write MANIFEST.json. Theorem names are collected from theories/P_*.v by their
Cnn_ prefix; statuses and notes are given here."""
import json, re, glob, os
root = os.path.dirname(os.path.dirname(os.path.abspath(__file__)))
props = [json.loads(l) for l in open(os.path.join(root, "properties.jsonl")) if l.strip()]
thms = {}
for f in sorted(glob.glob(os.path.join(root, "rocq/theories/P_*.v"))):
    for m in re.finditer(r"^\s*Theorem\s+(C\d+)_(\w+)", open(f).read(), re.M):
        thms.setdefault(m.group(1), []).append(m.group(1) + "_" + m.group(2))
notes = json.load(open(os.path.join(root, "tools/notes.json")))
claims = []
for p in props:
    i = p["id"]
    t = thms.get(i, [])
    n = notes.get(i, {})
    status = n.get("status", "proved" if t else "partial")
    if not t and status == "proved":
        status = "partial"
    claims.append({"property": i, "status": status, "theorems": t,
                   "note": n.get("note", "" if t else "not yet modelled")})
json.dump({"claims": claims}, open(os.path.join(root, "MANIFEST.json"), "w"), indent=1, ensure_ascii=False)
print({s: sum(c["status"] == s for c in claims) for s in ("proved", "partial", "not_applicable")},
      "no theorem:", [c["property"] for c in claims if not c["theorems"]])
