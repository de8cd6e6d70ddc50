"""Merge claim lines read from stdin into tools/claims.txt and regenerate MANIFEST.json."""
import os, subprocess, sys
here = os.path.dirname(os.path.abspath(__file__))
path = os.path.join(here, "claims.txt")
lines = open(path).read().rstrip("\n").split("\n")
head = [l for l in lines if not l.startswith("C")]
claims = {l.split("|")[0].strip(): l for l in lines if l.startswith("C")}
for l in sys.stdin.read().split("\n"):
    if l.strip():
        claims[l.split("|")[0].strip()] = l
body = [claims[k] for k in sorted(claims, key=lambda k: int(k[1:]))]
open(path, "w").write("\n".join(head + body) + "\n")
subprocess.check_call([sys.executable, os.path.join(here, "manifest.py")])
