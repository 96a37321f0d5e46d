#!/usr/bin/env python3
"""Write ASSUMPTIONS.md: what Print Assumptions lists for each theorem.

Needs the compiled development in rocq/theories (or in the directory given).
Each T_*.v is compiled again in a scratch directory and its output is read."""
import glob, os, re, subprocess, sys, tempfile
from concurrent.futures import ThreadPoolExecutor

here = os.path.dirname(os.path.abspath(__file__))
src = sys.argv[1] if len(sys.argv) > 1 else os.path.join(here, "..", "rocq", "theories")


def run(f):
    with tempfile.TemporaryDirectory() as d:
        t = os.path.join(d, os.path.basename(f))
        text = open(f).read()
        open(t, "w").write(text)
        out = subprocess.run(["coqc", "-Q", src, "Verif", t], capture_output=True, text=True)
        assert out.returncode == 0, (f, out.stderr[-500:])
    names = re.findall(r"^Print Assumptions (\S+)\.", text, re.M)
    parts, cur = [], None
    for line in out.stdout.splitlines():
        if line.startswith("Closed under the global context"):
            parts.append([])
        elif line.startswith("Axioms:"):
            parts.append([])
        elif parts and re.match(r"^[A-Za-z_][\w.']*( :|$)", line):
            parts[-1].append(line.split(" ")[0])
    assert len(parts) == len(names), (f, len(parts), len(names))
    return os.path.basename(f), list(zip(names, parts))


files = sorted(glob.glob(os.path.join(src, "T_*.v")))
with ThreadPoolExecutor(3) as ex:
    res = list(ex.map(run, files))
sets = {}
for _, l in res:
    for _, a in l:
        sets.setdefault(tuple(sorted(a)), None)
order = sorted(sets, key=lambda s: (len(s), s))
label = {s: "A%d" % i for i, s in enumerate(order)}
with open(os.path.join(here, "..", "ASSUMPTIONS.md"), "w") as o:
    o.write("# What Print Assumptions lists for each theorem\n\nGenerated by `tools/mkassume.py`.\n\n")
    for s in order:
        o.write("* **%s**: %s\n" % (label[s], ", ".join("`%s`" % x for x in s) or "closed under the global context"))
    o.write("\n| file | set | theorems |\n|---|---|---|\n")
    for f, l in res:
        for s in order:
            ns = [n for n, a in l if tuple(sorted(a)) == s]
            if ns:
                o.write("| %s | %s | %s |\n" % (f, label[s], " ".join(ns)))
print(len(sum([l for _, l in res], [])), "theorems;", len(order), "sets")
