#!/usr/bin/env python3
"""Writes /verif/MANIFEST.json: theorem names are collected from rocq/theories/Props by their Cnn_ prefix."""
import json, os, re, glob
root = os.path.dirname(os.path.dirname(os.path.abspath(__file__)))
thms = {}
for f in sorted(glob.glob(root + "/rocq/theories/Props/*.v")):
    for m in re.finditer(r"^Theorem\s+((C\d\d)_\w+)", open(f).read(), re.M):
        thms.setdefault(m.group(2), []).append(m.group(1))
exec(open(root + "/tools/manifest_notes.py").read())
claims = []
for l in open(root + "/properties.jsonl"):
    i = json.loads(l)["id"]
    if i not in thms:
        if i in NOTES:
            st, note = NOTES[i]
            claims.append(dict(property=i, status=st, theorems=[], note=note))
        continue
    st, note = NOTES.get(i, ("proved", ""))
    claims.append(dict(property=i, status=st, theorems=thms[i], note=note))
json.dump({"claims": claims}, open(root + "/MANIFEST.json", "w"), indent=1)
print(len(claims), "claims,", sum(len(c["theorems"]) for c in claims), "theorems")
