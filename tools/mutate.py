#!/usr/bin/env python3
"""Apply edits to definitions of the model in scratch copies and report which theorems no longer prove.

usage: mutate.py BATCH.py [--log] [-j N]
BATCH.py defines MUT = [(file, definition, old, new, claim broken), ...].

Each edit is applied to a copy of a built tree (MUT_SRC, default /tmp/base).  Dependent files are recompiled
one after the other; a lemma whose proof fails is admitted in the copy and compilation goes on, so that at the
end Print Assumptions tells exactly which theorems rest on a failed lemma.
"""
import json, os, re, shutil, subprocess, sys
from concurrent.futures import ThreadPoolExecutor
from threading import Lock
V = os.path.join(os.path.dirname(os.path.abspath(__file__)), "..")
SRC = os.environ.get("MUT_SRC", "/tmp/base")
LIMIT = os.environ.get("MUT_LIMIT", "240")
lock = Lock()

def deps():
    fs = [l.strip().split("/")[-1] for l in open(SRC + "/_CoqProject") if l.strip().endswith(".v")]
    d = {}
    for f in fs:
        t = open(f"{SRC}/theories/{f}").read()
        names = set()
        for m in re.finditer(r"From Verif Require Import ([^.]*)\.", t):
            names |= {x + ".v" for x in m.group(1).split()}
        d[f] = names
    order = []
    def visit(f):
        if f in order: return
        for g in sorted(d.get(f, [])): visit(g)
        order.append(f)
    for f in fs: visit(f)
    return d, order

KIND = r"^[ \t]*(?:Lemma|Theorem|Example|Corollary|Fact|Remark)\s+([\w']+)"
def admit(text, line):
    """Replace the proof around the line by Admitted; return (text, name)."""
    pos = sum(len(l) + 1 for l in text.split("\n")[:line - 1])
    end = text.find("\n", pos); end = len(text) if end < 0 else end
    ms = [m for m in re.finditer(KIND, text, re.M) if m.start() <= end]
    ms = [m for m in ms if m.start() <= end]
    if not ms: return text, None
    m = ms[-1]
    p = re.compile(r"\bProof\b").search(text, m.start())
    q = re.compile(r"\b(Qed|Defined)\.").search(text, m.start())
    if not p or not q or not (p.start() <= end and q.end() >= pos): return text, None
    return text[:p.start()] + "Admitted." + text[q.end():], m.group(1)

def one(k, mut, D, ORD):
    file, defn, old, new, claim = mut
    dst = f"/tmp/mutw/{k}"
    shutil.rmtree(dst, True); os.makedirs("/tmp/mutw", exist_ok=True)
    subprocess.run(["cp", "-a", SRC, dst], check=True)
    f = f"{dst}/theories/{file}"; s = open(f).read()
    if s.count(old) != 1:
        print("BAD EDIT", defn, s.count(old), flush=True); shutil.rmtree(dst); return None
    open(f, "w").write(s.replace(old, new))
    dirty, failed, affected, broken, dead = {file}, [], [], None, set()
    for g in ORD:
        if g != file and not (D[g] & dirty): continue
        dirty.add(g)
        if D[g] & dead: dead.add(g); continue
        stuck = None
        path = f"{dst}/theories/{g}"
        for attempt in range(200):
            try:
                r = subprocess.run(["bash", "-c", f"ulimit -v 4500000; exec timeout {LIMIT} coqc -Q theories Verif theories/{g}"], cwd=dst, capture_output=True, text=True)
            except Exception as e:
                r = None
            if r.returncode == 0: break
            m = re.search(r'File "\./theories/' + re.escape(g) + r'", line (\d+), characters', r.stderr)
            if m:
                line = int(m.group(1))
            else:
                # no error position: the time or memory limit was hit; take the sentence after the last one that went through
                src = open(path, "rb").read()
                r2 = subprocess.run(["bash", "-c", f"ulimit -v 4500000; exec timeout {LIMIT} coqc -time -Q theories Verif theories/{g}"], cwd=dst, capture_output=True, text=True)
                ends = re.findall(r"^Chars (\d+) - (\d+)", r2.stdout, re.M)
                at = int(ends[-1][1]) if ends else 0
                while at < len(src) and src[at:at + 1].isspace(): at += 1
                line = src[:at].count(b"\n") + 1
            t, name = admit(open(path).read(), line)
            if name is None:
                stuck = f"{g}:{line} {r.stderr[-300:]}"; break
            failed.append(f"{g[:-2]}.{name}"); open(path, "w").write(t)
        if stuck:
            # no error position: the time or memory limit was hit; files that need this one are skipped
            broken = broken or stuck; dead.add(g)
            if g == file: break
            continue
        if g.startswith("T_"):
            names = re.findall(r"^Print Assumptions ([\w']+)\.", open(path).read(), re.M)
            blocks = re.split(r"(?=Closed under the global context|^Axioms:)", r.stdout, flags=re.M)
            blocks = [b for b in blocks if b.startswith("Closed") or b.startswith("Axioms:")]
            bad = {x.split(".")[1] for x in failed}
            for n, b in zip(names, blocks):
                ax = set(re.findall(r"^([\w'.]+)(?: :|$)", b[7:], re.M)) if b.startswith("Axioms") else set()
                if {a.split(".")[-1] for a in ax} & bad: affected.append(n)
            affected += [x.split(".")[1] for x in failed if x.startswith(g[:-2] + ".")]
    res = "KILLED" if affected else ("BROKEN" if broken else "SURVIVED")
    affected = sorted(set(affected))
    with lock:
        print(res, defn, "|", claim, "|", " ".join(affected) or broken or "", flush=True)
        if LOG and res != "BROKEN":
            rec = {"definition": f"{file}: {defn}", "edit": f"{old.strip()}  ==>  {new.strip()}", "claim_broken": claim,
                   "theorems_failed": affected, "first_failed_lemmas": failed[:6], "theorems_tightened": []}
            if dead: rec["files_over_the_limit"] = sorted(dead)
            with open(os.path.join(V, "seeded", "LOG.jsonl"), "a") as h: h.write(json.dumps(rec) + "\n")
    shutil.rmtree(dst, True)
    return res

if __name__ == "__main__":
    LOG = "--log" in sys.argv
    J = int(sys.argv[sys.argv.index("-j") + 1]) if "-j" in sys.argv else 3
    ns = {}; exec(open(sys.argv[1]).read(), ns)
    D, ORD = deps()
    with ThreadPoolExecutor(J) as ex:
        rs = list(ex.map(lambda x: one(f"{os.getpid()}_{x[0]}", x[1], D, ORD), enumerate(ns["MUT"])))
    print({r: rs.count(r) for r in set(rs)})
