#!/usr/bin/env python3
"""Group the theorems of MANIFEST.json by the axioms Print Assumptions lists.

Usage: tools/axioms.py [scratch directory]; needs a built rocq/theories.
Prints one markdown bullet per group.
"""
import json, os, re, subprocess, sys, collections
root = os.path.dirname(os.path.dirname(os.path.abspath(__file__)))
scratch = sys.argv[1] if len(sys.argv) > 1 else "/tmp"
names = sorted({t for c in json.load(open(f"{root}/MANIFEST.json"))["claims"] for t in c["theorems"]})
theories = f"{root}/rocq/theories"
where = {}
for f in sorted(os.listdir(theories)):
    if f.startswith("Claims") and f.endswith(".v"):
        for m in re.finditer(r"^\s*(?:Theorem|Lemma|Corollary|Example)\s+([\w']+)", open(f"{theories}/{f}").read(), re.M):
            where.setdefault(m.group(1), f[:-2])
files = collections.defaultdict(list)
for n in names:
    files[where[n]].append(n)
groups = collections.defaultdict(list)
for f, ns in files.items():
    src = f"From Verif Require {f}.\n" + "".join(f"Print Assumptions Verif.{f}.{n}.\n" for n in ns)
    open(f"{scratch}/ax.v", "w").write(src)
    out = subprocess.run(["coqc", "-w", "-all", "-Q", theories, "Verif", "ax.v"], cwd=scratch,
                         capture_output=True, text=True).stdout
    parts = re.split(r"(?m)^(Closed under the global context|Axioms:)\n?", out)[1:]
    bodies = list(zip(parts[::2], parts[1::2]))
    assert len(bodies) == len(ns), (f, len(bodies), len(ns))
    for n, (kind, body) in zip(ns, bodies):
        ax = () if kind.startswith("Closed") else tuple(sorted(set(re.findall(r"(?m)^([A-Za-z_][\w'.]*)\s*(?::|$)", body))))
        groups[ax].append(n)
for ax, ns in sorted(groups.items(), key=lambda g: len(g[0])):
    print("* " + (", ".join(f"`{a}`" for a in ax) or "no axioms") + f" ({len(ns)} theorems): " + ", ".join(ns) + ".")
