#!/usr/bin/env python3
"""Writes MANIFEST.json: the theorems are those named Cnn_* in Props*.v, status
and note per property come from status.json next to this script."""
import glob, json, os, re
here = os.path.dirname(os.path.abspath(__file__))
root = os.path.dirname(here)
ths = {}
for f in sorted(glob.glob(root + "/rocq/theories/Props*.v")):
    for m in re.finditer(r"(?m)^Theorem ((C\d\d+)_\w+)", open(f).read()):
        ths.setdefault(m[2], []).append(m[1])
st = json.load(open(here + "/status.json"))
claims = []
for l in open(root + "/properties.jsonl"):
    p = json.loads(l)["id"]
    if p not in ths:
        continue
    status, note = st.get(p, ["proved", ""])
    claims.append({"property": p, "status": status, "theorems": ths[p], "note": note})
json.dump({"claims": claims}, open(root + "/MANIFEST.json", "w"), indent=1, ensure_ascii=False)
open(root + "/MANIFEST.json", "a").write("\n")
print(len(claims), "claims")
