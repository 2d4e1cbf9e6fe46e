#!/usr/bin/env python3
"""Writes MANIFEST.json from the property theorems in rocq/theories/Prop*.v.

A theorem named Cnn_... belongs to property Cnn.  A property is "partial" when
one of its theorems ends in _partial or _refuted, or when listed in PARTIAL.
Notes are in tools/notes.json."""
import json, re, glob, os
root = os.path.dirname(os.path.dirname(os.path.abspath(__file__)))
thms = {}
for f in sorted(glob.glob(root + "/rocq/theories/Prop*.v")):
    for m in re.finditer(r"^(?:Theorem|Corollary)\s+((C\d+)_\w+)", open(f).read(), re.M):
        thms.setdefault(m.group(2), []).append(m.group(1))
notes = json.load(open(root + "/tools/notes.json"))
props = [json.loads(l)["id"] for l in open(root + "/properties.jsonl")]
claims = []
for p in props:
    ts = thms.get(p, [])
    n = notes.get(p, {})
    if not ts:
        status = n.get("status", "partial")
    elif any(t.endswith("_partial") or t.endswith("_refuted") for t in ts) or n.get("status") == "partial":
        status = "partial"
    else:
        status = "proved"
    claims.append({"property": p, "status": status, "theorems": ts, "note": n.get("note", "" if ts else "not yet proved")})
json.dump({"claims": claims}, open(root + "/MANIFEST.json", "w"), indent=1, ensure_ascii=False)
print({s: sum(c["status"] == s for c in claims) for s in ("proved", "partial", "not_applicable")},
      "no theorem:", [c["property"] for c in claims if not c["theorems"]])
