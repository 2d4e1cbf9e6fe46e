#!/usr/bin/env python3
"""Seeded-bug harness.

Usage: mutate.py MUTANTS.json OUT.jsonl [SCRATCH]

MUTANTS.json is a list of {id, file, def, old, new, claim, expect} and
optionally [targets], the property modules to check (all when absent; then
[failed] lists only the theorems of those modules and their ancestors).  For every
mutant a scratch copy of the built development is edited (the text [old] in
theories/[file] becomes [new]) and rebuilt.  A proof that no longer goes through
is replaced by Admitted in the scratch copy, and the build goes on, so that at
the end Print Assumptions tells which property theorems (Theorem Cnn_...)
depend on a proof that broke.  The scratch copy is thrown away.
"""
import json, os, re, shutil, subprocess, sys, time

SRC = "/verif/rocq"
muts, out = json.load(open(sys.argv[1])), sys.argv[2]
scratch = sys.argv[3] if len(sys.argv) > 3 else "/tmp/mut"
files = [l.strip() for l in open(SRC + "/_CoqProject") if l.strip().endswith(".v")]
mods = [os.path.basename(f)[:-2] for f in files]
START = re.compile(r"^\s*(?:Local |Global |#\[[^\]]*\]\s*)?(Lemma|Theorem|Corollary|Fact|Remark|Example|Instance|Definition|Fixpoint|Program Definition)\s+([\w']+)", re.M)

def deps(text):
    d = set()
    for m in re.finditer(r"From Verif Require (?:Import|Export)\s+([^.]*)\.", text):
        d |= set(m.group(1).split())
    return d

def admit(path, line):
    """Replace by Admitted the proof around [line] (1-based); the name, or None."""
    text = open(path).read()
    lines = text.split("\n")
    pos = sum(len(x) + 1 for x in lines[:line - 1])
    best = None
    for m in START.finditer(text):
        if m.start() <= pos + len(lines[line - 1]):
            best = m
        else:
            break
    if best is None:
        return None
    i = best.start()
    m = re.compile(r"\b(Qed|Defined)\.|\bAdmitted\.").search(text, i)
    p = re.compile(r"\bProof\b[^.]*\.").search(text, i)
    if m is None or p is None or p.start() > m.start() or m.group(0) == "Admitted.":
        return None
    new = text[:p.start()] + "Proof. Admitted." + text[m.end():]
    open(path, "w").write(new)
    return best.group(2)

def drop(path, line):
    """Remove the statement around [line] when it cannot even be stated."""
    text = open(path).read()
    lines = text.split("\n")
    pos = sum(len(x) + 1 for x in lines[:line - 1])
    best = None
    for m in START.finditer(text):
        if m.start() <= pos + len(lines[line - 1]):
            best = m
        else:
            break
    if best is None:
        return None
    m = re.compile(r"\b(Qed|Defined|Admitted)\.").search(text, best.start())
    if m is None:
        return None
    open(path, "w").write(text[:best.start()] + text[m.end():])
    return best.group(2)

def run(mut, base, w):
    shutil.rmtree(w, ignore_errors=True)
    shutil.copytree(base, w)
    th = w + "/theories/"
    path = th + mut["file"]
    text = open(path).read()
    if text.count(mut["old"]) < 1:
        return {"error": "old text not found"}
    nth = mut.get("nth", 0)
    if text.count(mut["old"]) > 1 and "nth" not in mut:
        return {"error": "old text not unique"}
    parts = text.split(mut["old"])
    text = mut["old"].join(parts[:nth + 1]) + mut["new"] + mut["old"].join(parts[nth + 1:])
    open(path, "w").write(text)
    changed, broken, failed = set(), [], set()
    need = None
    if mut.get("targets"):
        need, todo = set(), list(mut["targets"])
        while todo:
            x = todo.pop()
            if x not in need:
                need.add(x)
                todo += deps(open(th + x + ".v").read())
    stop = None
    for mod in mods:
        p = th + mod + ".v"
        src = open(p).read()
        if mod + ".v" != mut["file"] and not (deps(src) & changed):
            continue
        if need is not None and mod not in need:
            continue
        if os.environ.get("SKIP") and re.match(os.environ["SKIP"], mod):
            continue
        changed.add(mod)
        for _ in range(80):
            r = subprocess.run(["timeout", "1500", "coqc", "-Q", ".", "Verif", mod + ".v"], cwd=th,
                               capture_output=True, text=True)
            if r.returncode == 0:
                break
            errs = re.findall(r'File "[^"]*", line (\d+), characters [^\n]*:\n(?=Error|\s*Error|[^\n]*\nError|In environment)', r.stderr)
            ln = re.findall(r'File "[^"]*", line (\d+), characters', r.stderr)
            if not ln:
                stop = mod + ": " + r.stderr[-200:]
                break
            line = int(ln[-1])
            name = admit(p, line)
            if name is None:
                name = drop(p, line)
            if name is None:
                # a Print Assumptions of a dropped theorem
                L = open(p).read().split("\n")
                if "Print Assumptions" in L[line - 1]:
                    L[line - 1] = ""
                    open(p, "w").write("\n".join(L))
                    continue
                stop = "%s:%d: %s" % (mod, line, r.stderr[-300:])
                break
            if name not in broken:
                broken.append(name)
        if stop:
            break
        if mod.startswith("Prop"):
            cmds = re.findall(r"^Print Assumptions ([\w']+)\.", open(p).read(), re.M)
            blocks, cur = [], None
            for l in r.stdout.split("\n"):
                if l.startswith("Closed under"):
                    blocks.append([])
                elif l.startswith("Axioms:"):
                    cur = []
                    blocks.append(cur)
                elif cur is not None and re.match(r"^[\w'.]+( :|$)", l):
                    cur.append(l.split(" ")[0])
            for c, b in zip(cmds, blocks):
                if any(a.split(".")[-1] in broken for a in b) or c in broken:
                    failed.add(c)
    return {"broken_proofs": broken, "failed": sorted(failed | {b for b in broken if re.match(r"C\d\d", b)}),
            "stopped": stop}

base = scratch + "/base"
if not os.environ.get("KEEP_BASE") or not os.path.exists(base):
    shutil.rmtree(base, ignore_errors=True)
    shutil.copytree(SRC, base)
done = set()
if os.path.exists(out):
    done = {json.loads(l)["id"] for l in open(out)}
for m in muts:
    if m["id"] in done:
        continue
    t = time.time()
    r = run(m, base, scratch + "/w")
    r.update(id=m["id"], mutant=m, secs=int(time.time() - t))
    with open(out, "a") as f:
        f.write(json.dumps(r) + "\n")
    print(m["id"], r.get("error") or r.get("stopped") or "", r.get("failed"), flush=True)
