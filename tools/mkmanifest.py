#!/usr/bin/env python3
"""Regenerate MANIFEST.json from theorem names in theories/P_*.v and tools/notes.json."""
import glob, json, os, re
root = "/verif"
props = [json.loads(l)["id"] for l in open(f"{root}/properties.jsonl") if l.strip()]
notes = json.load(open(f"{root}/tools/notes.json"))
thms = {}
for f in sorted(glob.glob(f"{root}/rocq/theories/P_*.v")):
    for name in re.findall(r"^Theorem ([\w']+)", open(f).read(), re.M):
        thms.setdefault(name.split("_")[0], []).append(name)
claims = []
for p in props:
    t = thms.pop(p, [])
    n = notes.get(p, {})
    if not t and "status" not in n:
        continue
    status = n.get("status") or ("partial" if any(x.endswith("_partial") for x in t) else "proved")
    claims.append({"property": p, "status": status, "theorems": t, "note": n.get("note", "")})
assert not thms, thms
with open(f"{root}/MANIFEST.json", "w") as f:
    f.write('{"claims": [\n' + ",\n".join(" " + json.dumps(c) for c in claims) + "\n]}\n")
print(len(claims), "claims")
