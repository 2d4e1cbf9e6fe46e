#!/usr/bin/env python3
"""Prints, for every theorem of MANIFEST.json, the axioms Print Assumptions reports, grouped.
Needs a built rocq/; writes only under the scratch directory given.   Usage: assumptions.py SCRATCH > table.md"""
import json, os, re, subprocess, sys
root = os.path.dirname(os.path.dirname(os.path.abspath(__file__)))
th = root + "/rocq/theories"
man = json.load(open(root + "/MANIFEST.json"))["claims"]
where = {}
for f in sorted(os.listdir(th)):
    if f.endswith(".v"):
        for m in re.finditer(r"^(?:Theorem|Lemma|Corollary)\s+(C\d\d+_\w+)", open(th + "/" + f).read(), re.M):
            where[m.group(1)] = f[:-2]
names = [t for c in man for t in c["theorems"]]
mods = sorted({where[t] for t in names})
src = "".join("From Verif Require %s.\n" % m for m in mods)
for t in names:
    src += "Print Assumptions %s.%s.\n" % (where[t], t)
os.makedirs(sys.argv[1], exist_ok=True)
open(sys.argv[1] + "/As.v", "w").write(src)
out = subprocess.run(["coqc", "-Q", th, "Verif", "As.v"], cwd=sys.argv[1], capture_output=True, text=True)
if out.returncode:
    sys.exit(out.stderr)
res, i = {}, -1
for l in out.stdout.splitlines():
    if l.startswith(("Axioms:", "Closed under")):
        i += 1; res[names[i]] = []
    elif re.match(r"^[A-Za-z_][\w.']* *(:|$)", l):
        res[names[i]].append(l.split()[0].rstrip(":"))
groups = {}
for t in names:
    groups.setdefault(tuple(sorted(set(res[t]))), []).append(t)
for g in sorted(groups, key=len):
    print("* " + (", ".join("`%s`" % a for a in g) if g else "no axioms (closed under the global context)") + " - %d theorems: " % len(groups[g]) + ", ".join(groups[g]) + ".")
