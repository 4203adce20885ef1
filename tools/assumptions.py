"""assumptions.py: ask Coq for the axioms behind every theorem of the manifest, grouped by property.
Run after a build; prints the table used in DESIGN.md."""
import json, os, re, subprocess, sys, tempfile
V = os.path.dirname(os.path.dirname(os.path.abspath(__file__)))
R = os.path.join(V, "rocq")
out = {}
for c in json.load(open(os.path.join(V, "MANIFEST.json")))["claims"]:
    p = c["property"]
    src = open(os.path.join(R, "theories/Props", p + ".v")).read()
    names = []
    for t in c["theorems"]:
        m = re.search(r"(?:Theorem|Lemma|Corollary|Example)\s+" + t + r"\b", src)
        pre = src[: m.start()]
        mods = []
        for x in re.finditer(r"^\s*(Module|End)\s+(\w+)\.", pre, re.M):
            if x.group(1) == "Module": mods.append(x.group(2))
            elif mods and mods[-1] == x.group(2): mods.pop()
        names.append(".".join(["Verif.Props." + p] + mods + [t]))
    with tempfile.TemporaryDirectory() as d:
        f = os.path.join(d, "a.v")
        open(f, "w").write("From Verif Require Props.%s.\n" % p + "".join("Print Assumptions %s.\n" % n for n in names))
        r = subprocess.run(["coqc", "-Q", "theories", "Verif", f], cwd=R, capture_output=True, text=True)
        if r.returncode: print(p, r.stderr, file=sys.stderr)
        ax = set(re.findall(r"^([A-Za-z_.0-9']+)\s*:", r.stdout, re.M)) | set(re.findall(r"^([A-Za-z_.0-9']+)$", r.stdout, re.M))
        ax -= {"Axioms", "Axioms:"}
        out[p] = sorted(ax)
g = {}
for p, a in out.items(): g.setdefault(tuple(a), []).append(p)
for a, ps in sorted(g.items(), key=lambda x: len(x[0])):
    print("* %s: %s" % (", ".join(ps), ", ".join("`%s`" % x for x in a) if a else "closed under the global context"))
