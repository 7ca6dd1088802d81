#!/usr/bin/env python3
"""Write MANIFEST.json: theorem names are collected from rocq/theories/P_*.v by their Cnn_ prefix;
status and notes come from tools/notes.json ({"Cnn": {"status": ..., "note": ...}})."""
import glob, json, os, re
root = os.path.dirname(os.path.dirname(os.path.abspath(__file__)))
props = [json.loads(l)["id"] for l in open(f"{root}/properties.jsonl")]
notes = json.load(open(f"{root}/tools/notes.json"))
thms = {}
for f in sorted(glob.glob(f"{root}/rocq/theories/P_*.v")):
    for m in re.finditer(r"^Theorem (C\d\d+)(_\w+)", open(f).read(), re.M):
        thms.setdefault(m[1], []).append(m[1] + m[2])
claims = []
for p in props:
    if p not in thms:
        print("no theorem for", p)
        continue
    n = notes.get(p, {})
    weak = any(t.endswith("_partial") or t.endswith("_refuted") for t in thms[p])
    status = n.get("status", "partial" if weak else "proved")
    if weak and status == "partial" and "note" not in n:
        print("missing note for", p)
    claims.append({"property": p, "status": status, "theorems": thms[p], "note": n.get("note", "")})
json.dump({"claims": claims}, open(f"{root}/MANIFEST.json", "w"), indent=1)
print(len(claims), "claims")
