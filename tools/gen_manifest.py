#!/usr/bin/env python3
"""Write MANIFEST.json from the table below; check that every theorem name exists in rocq/theories/Props."""
import json, os, re, sys
here = os.path.dirname(os.path.abspath(__file__))
root = os.path.dirname(here)
claims = []
def c(prop, status, theorems, note):
    claims.append({"property": prop, "status": status, "theorems": theorems, "note": note})

exec(open(os.path.join(here, "claims.py")).read())

names = set()
for d, _, fs in os.walk(os.path.join(root, "rocq/theories/Props")):
    for f in fs:
        if f.endswith(".v"):
            names |= set(re.findall(r"^(?:Theorem|Lemma)\s+(\w+)", open(os.path.join(d, f)).read(), re.M))
used = {t for k in claims for t in k["theorems"]}
missing = sorted(used - names)
if missing:
    sys.exit("not found in Props: %s" % missing)
if names - used:
    print("theorems not in the manifest:", sorted(names - used))
json.dump({"claims": claims}, open(os.path.join(root, "MANIFEST.json"), "w"), indent=1)
print(len(claims), "claims")
