#!/usr/bin/env python3
"""Print a table: property, theorem, file, what Print Assumptions lists for it.  Run after a build; compiles copies of P_*.v."""
import glob, json, os, re, subprocess, tempfile
root = "/verif"
titles = {}
for l in open(f"{root}/properties.jsonl"):
    if l.strip():
        p = json.loads(l)
        titles[p["id"]] = p["title"]
rows = {}
for f in sorted(glob.glob(f"{root}/rocq/theories/P_*.v")):
    names = re.findall(r"^Print Assumptions ([\w']+)\.", open(f).read(), re.M)
    with tempfile.TemporaryDirectory() as d:
        r = subprocess.run(["coqc", "-Q", f"{root}/rocq/theories", "Verif", "-o", f"{d}/{os.path.basename(f)}o", f], capture_output=True, text=True)
        assert r.returncode == 0, r.stderr
    out = [x.strip() for x in re.findall(r"^(Closed under the global context|Axioms:\n(?:.+\n)+)", r.stdout, re.M)]
    assert len(out) == len(names), (f, len(out), len(names))
    for n, o in zip(names, out):
        rows.setdefault(n.split("_")[0], []).append((n, os.path.basename(f), o))
print("| property | theorem | file | Print Assumptions |\n|---|---|---|---|")
for p in titles:
    for i, (n, f, o) in enumerate(rows.get(p, [])):
        print(f"| {p + ' ' + titles[p] if i == 0 else ''} | `{n}` | `{f}` | {o} |")
