#!/usr/bin/env python3
"""Mutation testing of the model.

usage: mutate.py MUTATIONS.json [--log]

MUTATIONS.json: list of {"file", "definition", "old", "new", "edit", "claim"}.
Each edit is applied to a scratch copy of /verif/rocq.  Proofs that no longer check are
replaced by Admitted in the copy, one after another, so the remaining ones are still checked.
A theorem is counted as failed if its own proof or Example fails, or if
Print Assumptions shows that it depends on a failed lemma.

QUICK=1: the build is stopped as soon as a failed lemma is referenced, directly or through other
lemmas, by a property theorem.
"""
import json, os, re, shutil, subprocess, sys

QUICK = os.environ.get("QUICK") == "1"
SRC = os.environ.get("VERIF_SRC", "/verif/rocq")
DST = os.environ.get("VERIF_DST", "/tmp/mutate/rocq")
START = re.compile(r"^\s*(?:#\[[^\]]*\]\s*)?(?:Local\s+|Global\s+)?(Lemma|Theorem|Example|Corollary|Fact|Remark|Instance|Definition|Fixpoint)\s+([\w']+)", re.M)


def enclosing(text, line):
    pos = 0
    for _ in range(line - 1):
        pos = text.index("\n", pos) + 1
    best = None
    for m in START.finditer(text):
        if m.start() <= pos + 200 and text.count("\n", 0, m.start()) + 1 <= line:
            best = m
    return best


def admit(path, line):
    text = open(path).read()
    m = enclosing(text, line)
    if m is None:
        return None
    kind, name = m.group(1), m.group(2)
    if kind in ("Definition", "Fixpoint"):
        return None
    rest = text[m.start():]
    p = re.search(r"\bProof\b.*?\b(Qed|Defined)\.", rest, re.S)
    if not p:
        return None
    stmt_line = text.count("\n", 0, m.start() + p.start()) + 1
    if stmt_line > line:   # error in the statement
        return None
    rest = rest[:p.start()] + "Admitted." + rest[p.end():]
    open(path, "w").write(text[:m.start()] + rest)
    return name


def make(files=None):
    r = subprocess.run(["timeout", "1500", "make", "-k", "-j4"], cwd=DST, capture_output=True, text=True)
    return r.stdout + r.stderr


def assumptions(path):
    """theorem -> closed?  from the output of coqc on a property file"""
    r = subprocess.run(["timeout", "900", "coqc", "-q", "-Q", "theories", "Verif", path], cwd=DST, capture_output=True, text=True)
    names = re.findall(r"^Print Assumptions ([\w']+)\.", open(os.path.join(DST, path)).read(), re.M)
    blocks, cur = [], None
    for ln in r.stdout.splitlines():
        if ln.startswith("Closed under"):
            blocks.append("")
            cur = None
        elif ln.startswith("Axioms:"):
            blocks.append("")
            cur = len(blocks) - 1
        elif cur is not None:
            blocks[cur] += ln + "\n"
    return list(zip(names, blocks))


def users():
    """property theorem -> (file, name) of everything mentioned in its statement and proof, transitively;
    a name may be from the same file or from imported ones"""
    imports, defs, props = {}, {}, {}
    for f in sorted(os.listdir(os.path.join(SRC, "theories"))):
        if not f.endswith(".v"):
            continue
        text = open(os.path.join(SRC, "theories", f)).read()
        imports[f] = {w + ".v" for g in re.findall(r"From Verif Require (?:Import|Export)([^.]*)\.", text) for w in g.split()}
        ms = list(START.finditer(text))
        for m, n in zip(ms, ms[1:] + [None]):
            body = text[m.end():n.start() if n else len(text)]
            defs.setdefault(f, {}).setdefault(m.group(2), set()).update(re.findall(r"[A-Za-z_][\w']*", body))
            if f.startswith("P_") and m.group(1) == "Theorem":
                props[m.group(2)] = f
    res = {}
    for p, f in props.items():
        seen, todo = {(f, p)}, [(f, p)]
        while todo:
            g, name = todo.pop()
            for r in defs[g][name]:
                for h in {g} | imports[g]:
                    if r in defs.get(h, {}) and (h, r) not in seen:
                        seen.add((h, r))
                        todo.append((h, r))
        res[p] = seen
    return res


def quick(mut, props):
    if os.path.exists(DST):
        shutil.rmtree(DST)
    shutil.copytree(SRC, DST, copy_function=shutil.copy2)
    path = os.path.join(DST, "theories", mut["file"])
    text = open(path).read()
    assert text.count(mut["old"]) == 1, (mut["file"], mut["old"], text.count(mut["old"]))
    open(path, "w").write(text.replace(mut["old"], mut["new"]))
    failed, structural, places = [], [], []
    for _ in range(100):
        r = subprocess.run(["timeout", "1500", "make", "-j2", "COQC=timeout 400 coqc"], cwd=DST, capture_output=True, text=True)
        errs = re.findall(r'File "\./?(theories/[\w.]+)", line (\d+), characters [^\n]*\n(Error[^\n]*(?:\n[^\n]*)?)', r.stdout + r.stderr)
        if not errs:
            if r.returncode:
                return failed, structural + ["timeout"], [], []
            break
        for f, ln, msg in errs:
            name = admit(os.path.join(DST, f), int(ln))
            if name is None:
                return failed, structural + [f"{f}:{ln}: {msg.strip()[:120]}"], [], []
            failed.append(name)
            places.append((os.path.basename(f), name))
        broken = [p for p in props if any(n in props[p] for n in places)]
        if broken:
            return failed, structural, broken, []
    return failed, structural, [], [n for n in failed if re.match(r"C\d\d+_\w*example", n)]


def run(mut):
    if os.path.exists(DST):
        shutil.rmtree(DST)
    shutil.copytree(SRC, DST, copy_function=shutil.copy2)
    path = os.path.join(DST, "theories", mut["file"])
    text = open(path).read()
    assert text.count(mut["old"]) == 1, (mut["file"], mut["old"], text.count(mut["old"]))
    open(path, "w").write(text.replace(mut["old"], mut["new"]))
    failed, structural = [], []
    for _ in range(200):
        out = make()
        errs = re.findall(r'File "\./?(theories/[\w.]+)", line (\d+), characters [^\n]*\n(Error[^\n]*(?:\n[^\n]*)?)', out)
        if not errs:
            break
        progress = False
        for f, ln, msg in errs:
            name = admit(os.path.join(DST, f), int(ln))
            if name is None:
                s = f"{f}:{ln}: {msg.strip()[:120]}"
                if s not in structural:
                    structural.append(s)
            else:
                failed.append(name)
                progress = True
        if not progress:
            break
    broken = []
    for f in sorted(os.listdir(os.path.join(DST, "theories"))):
        if f.startswith("P_") and f.endswith(".v"):
            src = open(os.path.join(DST, "theories", f)).read()
            if src == open(os.path.join(SRC, "theories", f)).read() and not failed and not structural:
                continue
            for name, blk in assumptions(os.path.join("theories", f)):
                if blk.strip():
                    broken.append(name)
    examples = [n for n in failed if re.match(r"C\d\d+_\w*example", n)]
    return failed, structural, broken, examples


def main():
    muts = json.load(open(sys.argv[1]))
    log = "--log" in sys.argv
    props = users() if QUICK else {}
    for mut in muts:
        failed, structural, broken, examples = quick(mut, props) if QUICK else run(mut)
        rec = {"definition": mut["definition"], "file": mut["file"], "edit": mut["edit"], "claim": mut["claim"],
               "failed": broken + examples, "failed_lemmas": failed, "structural_errors": structural,
               "caught": bool(broken), "tightened": mut.get("tightened", [])}
        print(json.dumps(rec), flush=True)
        if log:
            with open("/verif/seeded/LOG.jsonl", "a") as f:
                f.write(json.dumps(rec) + "\n")


main()
