#!/usr/bin/env python3
"""Write MANIFEST.json: one claim per property in properties.jsonl.

Theorem names are collected from rocq/theories/T_*.v by their Cnn_ prefix; status and note come
from tools/claims.tsv (property <tab> status <tab> note)."""
import json, re, glob, os
root = os.path.dirname(os.path.dirname(os.path.abspath(__file__)))
props = [json.loads(l)["id"] for l in open(root + "/properties.jsonl")]
thms = {}
for f in sorted(glob.glob(root + "/rocq/theories/T_*.v")):
    for m in re.finditer(r"^Theorem (C\d+)(_\w+)", open(f).read(), re.M):
        thms.setdefault(m.group(1), []).append(m.group(1) + m.group(2))
notes = {}
for l in open(root + "/tools/claims.tsv"):
    l = l.rstrip("\n")
    if l:
        p, s, n = (l.rstrip("\n").split("\t") + [""])[:3]
        notes[p] = (s, n)
claims = []
for p in props:
    if p in notes:
        s, n = notes[p]
        assert (p in thms) == (s != "not_applicable"), p
        claims.append({"property": p, "status": s, "theorems": thms.get(p, []), "note": n})
for p in thms:
    assert p in notes, "no claim line for " + p
json.dump({"claims": claims}, open(root + "/MANIFEST.json", "w"), indent=1)
open(root + "/MANIFEST.json", "a").write("\n")
print(len(claims), "claims of", len(props), "; missing:", [p for p in props if p not in notes])
