#!/usr/bin/env python3
"""Single source for properties.jsonl and MANIFEST.json.

Each entry: (id, title, statement, quantifier, why, anchors, status, theorems, note)
status None = not yet in the manifest."""
import json, os, sys
R = os.path.dirname(os.path.dirname(os.path.abspath(__file__)))
P = []
def p(id, title, statement, quantifier, why, anchors, status=None, theorems=(), note=""):
    P.append(dict(id=id, title=title, statement=statement, quantifier=quantifier,
                  why_tests_cant=why, anchors=list(anchors), _s=status, _t=list(theorems), _n=note))
CL = {}
def claim(id, status, theorems, note=""):
    CL[id] = (status, list(theorems.split()) if isinstance(theorems, str) else list(theorems), note)
here = os.path.dirname(os.path.abspath(__file__))
for f in sorted(os.listdir(here)):
    if f.startswith("c_") and f.endswith(".py"):
        exec(open(os.path.join(here, f)).read())
for e in P:
    if e["id"] in CL: e["_s"], e["_t"], e["_n"] = CL[e["id"]]
P.sort(key=lambda e: int(e["id"][1:]))
assert len({e["id"] for e in P}) == len(P)
with open(os.path.join(R, "properties.jsonl"), "w") as f:
    for e in P:
        f.write(json.dumps({k: v for k, v in e.items() if not k.startswith("_")}) + "\n")
with open(os.path.join(R, "MANIFEST.json"), "w") as f:
    json.dump({"claims": [dict(property=e["id"], status=e["_s"], theorems=e["_t"], note=e["_n"])
                          for e in P if e["_s"]]}, f, indent=1)
# consistency: every theorem named exists in theories
src = ""
td = os.path.join(R, "rocq", "theories")
for f in os.listdir(td):
    if f.endswith(".v"): src += open(os.path.join(td, f)).read()
import re
names = set(re.findall(r"(?:Theorem|Lemma|Corollary)\s+([A-Za-z0-9_']+)", src))
for e in P:
    for t in e["_t"]:
        if t not in names: print("MISSING", e["id"], t)
print(len(P), "properties,", sum(1 for e in P if e["_s"]), "claimed")
