#!/usr/bin/env python3
"""Regenerate MANIFEST.json from tools/claims.txt (id | status | theorems | note)."""
import json, os
root = os.path.dirname(os.path.dirname(os.path.abspath(__file__)))
claims = []
for line in open(os.path.join(root, "tools", "claims.txt")):
    line = line.strip()
    if not line or line.startswith("#"):
        continue
    pid, status, thms, note = [x.strip() for x in line.split("|", 3)]
    claims.append({"property": pid, "status": status, "theorems": thms.replace(",", " ").split(), "note": note})
with open(os.path.join(root, "MANIFEST.json"), "w") as f:
    f.write('{"claims": [\n')
    f.write(",\n".join("  " + json.dumps(c, ensure_ascii=False) for c in claims))
    f.write("\n]}\n")
