#!/usr/bin/env python3
# Regenerates ../MANIFEST.json: theorems are collected by their Cnn_ prefix from the *Props.v files;
# status and notes come from the table below.
import json, os, re, glob
here = os.path.dirname(os.path.abspath(__file__))
ids = [json.loads(l)["id"] for l in open(os.path.join(here, "../properties.jsonl"))]
thms = {}
for f in sorted(glob.glob(os.path.join(here, "../rocq/theories/*Props.v"))):
    for m in re.finditer(r"^(?:Theorem|Corollary)\s+((C\d\d+)_\w+)", open(f).read(), re.M):
        thms.setdefault(m.group(2), []).append(m.group(1))
NOTES = {}
STATUS = {}
def n(i, note, status=None):
    NOTES[i] = note
    if status: STATUS[i] = status
exec(open(os.path.join(here, "notes.py")).read())
claims = []
for i in ids:
    t = thms.get(i, [])
    if not t and i not in STATUS: continue
    st = STATUS.get(i) or ("partial" if any(x.endswith("_partial") for x in t) else "proved")
    claims.append({"property": i, "status": st, "theorems": t, "note": NOTES.get(i, "")})
json.dump({"claims": claims}, open(os.path.join(here, "../MANIFEST.json"), "w"), indent=1)
print({s: sum(c["status"] == s for c in claims) for s in ("proved", "partial", "not_applicable")},
      "missing:", [i for i in ids if i not in {c["property"] for c in claims}])
