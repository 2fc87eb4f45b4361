#!/usr/bin/env python3
"""Write MANIFEST.json: the theorems named Cnn_* in rocq/theories/Prop*.v, with status and note per property."""
import glob, json, os, re
ROOT = os.path.dirname(os.path.dirname(os.path.abspath(__file__)))
NOTES = json.load(open(os.path.join(ROOT, "tools", "notes.json")))
found = {}
for f in sorted(glob.glob(os.path.join(ROOT, "rocq/theories/Prop*.v"))):
    for name in re.findall(r"^Theorem (C\d\d_\w+)", open(f).read(), re.M):
        found.setdefault(name[:3], []).append(name)
claims = []
for c in sorted(found):
    n = NOTES.get(c, "")
    partial = any(t.endswith("_partial") for t in found[c])
    claims.append({"property": c, "status": "partial" if partial else "proved", "theorems": found[c], "note": n})
with open(os.path.join(ROOT, "MANIFEST.json"), "w") as out:
    out.write('{"claims": [\n' + ",\n".join(json.dumps(c) for c in claims) + "\n]}\n")
print(len(claims), "claims")
