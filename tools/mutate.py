"""Run seeded mutations in a scratch copy and append the outcome to seeded/LOG.jsonl.

usage: mutate.py FILE.json   with a list of
  {"file": "Model/X.v", "definition": "...", "old": "...", "new": "...", "claim": "C01",
   "why": "...", "props": ["C01", ...]}
Only the listed Props files (and what they need) are rebuilt.
"""
import json
import os
import re
import shutil
import subprocess
import sys
import tempfile

ROOT = os.path.dirname(os.path.dirname(os.path.abspath(__file__)))


def failing_sentence(path, line):
    txt = open(path).read().splitlines()
    for i in range(min(line, len(txt)) - 1, -1, -1):
        m = re.match(r"\s*(Theorem|Lemma|Example|Corollary|Definition|Fixpoint|Fact)\s+(\w+)", txt[i])
        if m:
            return m.group(1), m.group(2)
    return "", "?"


def run(m):
    tmp = tempfile.mkdtemp(prefix="mut")
    dst = os.path.join(tmp, "rocq")
    shutil.copytree(os.environ.get("MUT_BASE", os.path.join(ROOT, "rocq")), dst)
    f = os.path.join(dst, "theories", m["file"])
    s = open(f).read()
    if s.count(m["old"]) < 1:
        shutil.rmtree(tmp)
        return {"error": "pattern not found", **m}
    s = s.replace(m["old"], m["new"], 1)
    open(f, "w").write(s)
    targets = ["theories/Props/%s.vo" % p for p in m["props"]]
    r = subprocess.run(["make", "-k", "-j2"] + targets, cwd=dst, capture_output=True, text=True, timeout=3000)
    err = r.stderr
    broken = []
    model_error = False
    for mm in re.finditer(r'File "\./?(theories/[\w/]+\.v)", line (\d+)', err):
        kind, name = failing_sentence(os.path.join(dst, mm.group(1)), int(mm.group(2)))
        rel = mm.group(1).replace("theories/", "")
        if rel.startswith("Model/"):
            model_error = True
        broken.append("%s: %s" % (rel, name))
    dead = []
    for p in m["props"]:
        vo = os.path.join(dst, "theories/Props/%s.vo" % p)
        src = vo[:-1]
        ok = subprocess.run(["make", "-q", "theories/Props/%s.vo" % p], cwd=dst, capture_output=True).returncode == 0
        if not ok:
            dead += re.findall(r"^\s*Theorem (\w+)", open(src).read(), flags=re.M)
    shutil.rmtree(tmp)
    return {
        "definition": "%s: %s" % (m["file"], m["definition"]),
        "edit": "%s  =>  %s" % (" ".join(m["old"].split()), " ".join(m["new"].split())),
        "claim": m["claim"],
        "why": m["why"],
        "first_failures": broken,
        "theorems_failed": dead,
        "ill_typed": model_error,
        "theorems_tightened": m.get("tightened", []),
    }


if __name__ == "__main__":
    log = os.path.join(ROOT, "seeded", "LOG.jsonl")
    for m in json.load(open(sys.argv[1])):
        out = run(m)
        if "error" in out:
            print("SKIP", out["error"], m["definition"], flush=True)
            continue
        tag = "ILLTYPED" if out["ill_typed"] else ("killed" if out["theorems_failed"] else "SURVIVED")
        print(tag, out["definition"], "|", out["edit"][:80], "|", out["first_failures"], flush=True)
        if not out["ill_typed"]:
            open(log, "a").write(json.dumps(out) + "\n")
