"""Regenerate rocq/_CoqProject's file list and MANIFEST.json from the sources."""
import glob
import json
import os
import re

ROOT = os.path.dirname(os.path.dirname(os.path.abspath(__file__)))
TH = os.path.join(ROOT, "rocq", "theories")

files = sorted(
    os.path.relpath(p, os.path.join(ROOT, "rocq"))
    for p in glob.glob(os.path.join(TH, "**", "*.v"), recursive=True)
)
proj = os.path.join(ROOT, "rocq", "_CoqProject")
flags = [l for l in open(proj).read().splitlines() if l.startswith("-")]
open(proj, "w").write("\n".join(flags + files) + "\n")

status = json.load(open(os.path.join(ROOT, "tools", "status.json")))
claims = []
for line in open(os.path.join(ROOT, "properties.jsonl")):
    pid = json.loads(line)["id"]
    thms = []
    for p in sorted(glob.glob(os.path.join(TH, "Props", pid + "*.v"))):
        thms += re.findall(r"^\s*Theorem (\w+)", open(p).read(), flags=re.M)
    if not thms and pid not in status:
        continue
    st = status.get(pid, {})
    s = st.get("status", "proved" if thms else "not_applicable")
    claims.append(
        {"property": pid, "status": s, "theorems": thms, "note": st.get("note", "")}
    )
json.dump(
    {"claims": claims}, open(os.path.join(ROOT, "MANIFEST.json"), "w"), indent=1
)
print(len(files), "files,", len(claims), "claims")
