#!/usr/bin/env python3
"""Regenerate MANIFEST.json and rocq/_CoqProject from the theory files.

A property is `proved` when none of its theorems is named *_partial or *_refuted,
otherwise `partial`.  Notes come from tools/notes.json.
"""
import json, os, re, glob
root = os.path.dirname(os.path.dirname(os.path.abspath(__file__)))
th = os.path.join(root, "rocq", "theories")
props = [json.loads(l) for l in open(os.path.join(root, "properties.jsonl")) if l.strip()]
notes = json.load(open(os.path.join(root, "tools", "notes.json")))
found = {}
for f in sorted(glob.glob(os.path.join(th, "Prop*.v"))):
    for m in re.finditer(r"^Theorem\s+(C\d\d+)_(\w+)", open(f).read(), re.M):
        found.setdefault(m.group(1), []).append(m.group(1) + "_" + m.group(2))
claims = []
for p in props:
    names = found.get(p["id"], [])
    if not names:
        continue
    bad = any(n.endswith("_partial") or n.endswith("_refuted") for n in names)
    claims.append({"property": p["id"], "status": "partial" if bad else "proved",
                   "theorems": names, "note": notes.get(p["id"], "")})
with open(os.path.join(root, "MANIFEST.json"), "w") as o:
    o.write('{"claims": [\n' + ",\n".join("  " + json.dumps(c) for c in claims) + "\n]}\n")
files = sorted(os.path.basename(f) for f in glob.glob(os.path.join(th, "*.v")))
with open(os.path.join(root, "rocq", "_CoqProject"), "w") as o:
    o.write("-Q theories Verif\n" + "".join("theories/%s\n" % f for f in files))
missing = [p["id"] for p in props if p["id"] not in found]
print(len(claims), "claims; without theorem:", " ".join(missing))
