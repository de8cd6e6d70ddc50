#!/usr/bin/env python3
"""Seeded-bug runs: apply each edit of a mutation list to a scratch copy of the
development, rebuild with make -k, and log which files and lemmas stop proving.

usage: mutate.py LIST.json SCRATCH_DIR LOG.jsonl [jobs]
(TARGETS in the environment restricts the make targets)
LIST.json: [{"file", "definition", "old", "new", "claim", "tightened"?}, ...]"""
import json, os, re, shutil, subprocess, sys
lst, scratch, log = sys.argv[1:4]
jobs = sys.argv[4] if len(sys.argv) > 4 else "2"
root = os.path.dirname(os.path.dirname(os.path.abspath(__file__)))
src = os.path.join(root, "rocq")
def lemma_at(path, line):
    name = None
    for i, l in enumerate(open(path), 1):
        m = re.match(r"\s*(?:Global\s+|Local\s+)?(?:Lemma|Theorem|Example|Corollary|Instance|Definition|Fixpoint)\s+(\S+)", l)
        if m: name = m.group(1)
        if i >= line: break
    return name
base = scratch + ".base"
shutil.rmtree(base, ignore_errors=True)
subprocess.run(["cp", "-a", src, base], check=True)
src = base
def sync():
    shutil.rmtree(scratch, ignore_errors=True)
    subprocess.run(["cp", "-a", base, scratch], check=True)
for mu in json.load(open(lst)):
    sync()
    p = os.path.join(scratch, "theories", mu["file"])
    s = open(p).read()
    if s.count(mu["old"]) < 1:
        print("NOT FOUND", mu["definition"], mu["old"][:60]); continue
    nth = mu.get("nth", 0)
    pos = -1
    for _ in range(nth + 1): pos = s.index(mu["old"], pos + 1)
    s = s[:pos] + mu["new"] + s[pos + len(mu["old"]):]
    open(p, "w").write(s)
    subprocess.run(["coq_makefile", "-f", "_CoqProject", "-o", "Makefile"], cwd=scratch, stdout=subprocess.DEVNULL)
    try:
        r = subprocess.run(["make", "-k", "-j" + jobs] + os.environ.get("TARGETS", "").split(), cwd=scratch, capture_output=True, text=True, timeout=1500)
        out = r.stdout + r.stderr
    except subprocess.TimeoutExpired as e:
        out = (e.stdout or b"").decode() + (e.stderr or b"").decode() + "\nTIMEOUT"
    failed = []
    for f, ln in re.findall(r'File "\./(theories/\S+?\.v)", line (\d+)[^\n]*\nError', out):
        failed.append(os.path.basename(f)[:-2] + "." + str(lemma_at(os.path.join(scratch, f), int(ln))))
    unbuilt = [os.path.basename(l.strip())[:-2] for l in open(os.path.join(src, "_CoqProject")) if l.strip().endswith(".v")
               and not (os.path.exists(os.path.join(scratch, l.strip() + "o")) and
                        os.path.getmtime(os.path.join(scratch, l.strip() + "o")) >= os.path.getmtime(os.path.join(scratch, l.strip())))]
    # a stale .vo of a dependent of a failed file counts as not built
    notmade = sorted(set(re.findall(r"Target 'theories/(\S+?)\.vo' not remade", out)) | set(unbuilt) - set(x.split(".")[0] for x in failed))
    entry = {"definition": mu["definition"], "file": mu["file"], "edit": mu["old"] + "  ==>  " + mu["new"], "breaks": mu["claim"],
             "failed_theorems": failed, "files_not_rebuilt": [x for x in notmade if x.startswith("Claims")], "tightened": mu.get("tightened", [])}
    if "TIMEOUT" in out: entry["note"] = "build timed out"
    if not failed: entry["survived"] = True
    with open(log, "a") as f: f.write(json.dumps(entry, ensure_ascii=False) + "\n")
    print(mu["definition"], "->", failed or "SURVIVED", flush=True)
