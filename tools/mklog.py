#!/usr/bin/env python3
"""Turns the results of mutate.py into lines of seeded/LOG.jsonl.
Usage: mklog.py OUT.jsonl [TIGHTENED.json]   (appends; skips ids already logged)"""
import json, os, sys
root = os.path.dirname(os.path.dirname(os.path.abspath(__file__)))
log = root + "/seeded/LOG.jsonl"
seen = {json.loads(l)["id"] for l in open(log)} if os.path.exists(log) else set()
tight = json.load(open(sys.argv[2])) if len(sys.argv) > 2 else {}
with open(log, "a") as f:
    for l in open(sys.argv[1]):
        d = json.loads(l)
        if d["id"] in seen or d.get("error") or d.get("stopped"):
            continue
        m = d["mutant"]
        f.write(json.dumps({"id": d["id"], "definition": m["file"] + ":" + m.get("def", ""),
                            "edit": {"from": m["old"], "to": m["new"]}, "claim": m["claim"],
                            "theorems_failed": d["failed"], "tightened": tight.get(d["id"], [])}, ensure_ascii=False) + "\n")
