"""Regenerates MANIFEST.json. Theorem names are collected from rocq/theories/*Props.v by prefix Cxx_; status/notes are here."""
import json, re, glob, os
here = os.path.dirname(os.path.abspath(__file__))
STATUS = {}   # id -> (status, note)
exec(open(os.path.join(here, "status.py")).read())
thms = {}
for f in sorted(glob.glob(os.path.join(here, "../rocq/theories/*Props.v"))):
    for m in re.finditer(r"^\s*(?:Theorem|Corollary) (C(\d+)_\w*)", open(f).read(), re.M):
        thms.setdefault("C" + m.group(2), []).append(m.group(1))
props = [json.loads(l)["id"] for l in open(os.path.join(here, "../properties.jsonl"))]
claims = []
for p in props:
    st, note = STATUS.get(p, ("not_applicable" if False else None, ""))
    if p in thms and st:
        claims.append({"property": p, "status": st, "theorems": thms[p], "note": note})
    else:
        print("no claim yet:", p, p in thms, st)
json.dump({"claims": claims}, open(os.path.join(here, "../MANIFEST.json"), "w"), indent=1)
