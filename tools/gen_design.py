#!/usr/bin/env python3
"""Regenerates /verif/DESIGN.md from the texts below and MANIFEST.json (theorem names and status)."""
import json, os, re, glob
here=os.path.dirname(os.path.abspath(__file__))
man={c["property"]:c for c in json.load(open(os.path.join(here,"../MANIFEST.json")))["claims"]}
where={}
for f in sorted(glob.glob(os.path.join(here,"../rocq/theories/*.v"))):
    for t in re.findall(r"^ *(?:Theorem|Lemma|Example|Corollary) (\w+)",open(f).read(),re.M): where.setdefault(t,os.path.basename(f))
props=[json.loads(l) for l in open(os.path.join(here,"../properties.jsonl"))]
head=open(os.path.join(here,"design_head.md")).read()
rows=dict(re.findall(r"^(C\d\d): (.*)$",open(os.path.join(here,"design_rows.md")).read(),re.M))
tail=open(os.path.join(here,"design_tail.md")).read()
out=[head]
out.append("| id | property | what is modelled, how it is proved | status | theorems |\n|----|----|----|----|----|")
for p in props:
    i=p["id"]; m=man.get(i)
    st=m["status"] if m else "no claim"
    th="; ".join(f"`{t}` ({where[t]})" for t in m["theorems"]) if m else ""
    out.append(f"| {i} | {p['title']} | {rows[i]} | {st} | {th} |")
out.append(tail)
open(os.path.join(here,"../DESIGN.md"),"w").write("\n".join(out))
