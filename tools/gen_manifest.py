#!/usr/bin/env python3
"""Writes MANIFEST.json from the table below; properties not listed are partial
with no theorem yet."""
import json, os, re
ROOT = os.path.dirname(os.path.dirname(os.path.abspath(__file__)))
T = {}
def claim(pid, status, theorems, note=""):
    T[pid] = dict(property=pid, status=status, theorems=theorems.split(), note=note)
def case(pid, names):
    """Concrete cases meeting the hypotheses (Examples_*.v), appended to the note."""
    n = T[pid]["note"].rstrip()
    T[pid]["note"] = (n + (" " if n.endswith(".") or not n else ". ") + "Cases meeting the hypotheses: " + names + ".").strip()
    for e in names.replace(",", " ").split():
        assert e in examples, e
examples = set()
for f in os.listdir(os.path.join(ROOT, "rocq/theories")):
    if f.endswith(".v"):
        examples |= set(re.findall(r"^\s*(?:Example|Theorem|Lemma)\s+([\w']+)", open(os.path.join(ROOT, "rocq/theories", f)).read(), re.M))
exec(open(os.path.join(ROOT, "tools", "claims.py")).read())
ids = [json.loads(l)["id"] for l in open(os.path.join(ROOT, "properties.jsonl"))]
names = set()
for f in os.listdir(os.path.join(ROOT, "rocq/theories")):
    if f.endswith(".v"):
        names |= set(re.findall(r"^\s*(?:Theorem|Lemma|Corollary)\s+([\w']+)", open(os.path.join(ROOT, "rocq/theories", f)).read(), re.M))
out = []
for i in ids:
    c = T.get(i)
    if c is None:
        print("no claim for", i); continue
    for t in c["theorems"]:
        if t not in names: print("unknown theorem", t, "in", i)
    out.append(c)
for i in T:
    if i not in ids: print("unknown property", i)
json.dump({"claims": out}, open(os.path.join(ROOT, "MANIFEST.json"), "w"), indent=1)
open(os.path.join(ROOT, "MANIFEST.json"), "a").write("\n")
