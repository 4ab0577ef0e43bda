"""Collect the theorems named Cnn_* from rocq/theories/P_*.v into MANIFEST.json.

Run from /verif.  A property with a _refuted or _partial theorem is "partial", one with only full theorems
"proved".  NOTES holds the remarks.
"""
import glob, json, re
import sys
sys.path.insert(0, "tools")
from manifest_notes import NOTES, NOT_APPLICABLE

props = [json.loads(l)["id"] for l in open("properties.jsonl")]
thms = {}
for f in sorted(glob.glob("rocq/theories/P_*.v")):
    for m in re.finditer(r"^\s*Theorem\s+((C\d\d+)_\w+)", open(f).read(), re.M):
        thms.setdefault(m.group(2), []).append(m.group(1))
claims = []
for i in props:
    ts = thms.pop(i, [])
    if ts:
        st = "partial" if any(re.search(r"_(partial|refuted)$", t) for t in ts) else "proved"
        claims.append({"property": i, "status": st, "theorems": ts, "note": NOTES.get(i, "")})
    elif i in NOT_APPLICABLE:
        claims.append({"property": i, "status": "not_applicable", "theorems": [], "note": NOT_APPLICABLE[i]})
    else:
        print("no theorem yet:", i)
assert not thms, thms
json.dump({"claims": claims}, open("MANIFEST.json", "w"), indent=1)
print({s: sum(c["status"] == s for c in claims) for s in ("proved", "partial", "not_applicable")})
