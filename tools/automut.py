"""automut.py OUT SEED PER_DEF [file-regex]: systematic small edits of every definition of the model.

Each edit is rebuilt in a scratch copy until the first file fails.  Edits that are ill typed are dropped.
One JSON line per edit goes to OUT; edits that nothing rejects are marked "survived" for inspection by hand.
"""
import glob, json, os, random, re, shutil, subprocess, sys, tempfile

ROOT = os.path.dirname(os.path.dirname(os.path.abspath(__file__)))
BASE = os.environ.get("MUT_BASE", os.path.join(ROOT, "rocq"))
OPS = [
    (r"<=\?", "<?", "boundary"), (r"(?<![<=])<\?", "<=?", "boundary"), (r"(?<![<=!])=\?", "<=?", "wrong test"),
    (r"&&", "||", "wrong connective"), (r"\|\|", "&&", "wrong connective"), (r"\bnegb\b", "(fun b : bool => b)", "inverted test"),
    (r" \+ ", " - ", "sign"), (r" - (?=[\w(])", " + ", "sign"), (r" \* ", " + ", "wrong operation"), (r" / ", " * ", "wrong operation"),
    (r"\bfst\b", "snd", "wrong component"), (r"\bsnd\b", "fst", "wrong component"),
    (r"(?<=[ (])0(?=[ );,])", "1", "off by one"), (r"(?<=[ (])1(?=[ );,])", "0", "off by one"), (r"(?<=[ (])2(?=[ );,])", "3", "off by one"),
    (r"\bfirstn\b", "skipn", "wrong slice"), (r"\bskipn\b", "firstn", "wrong slice"), (r"\brev ", "(fun l => l) ", "order"),
    (r"\btrue\b", "false", "wrong flag"), (r"\bfalse\b", "true", "wrong flag"),
    (r"\bif ([^\n]{1,60}?) then\b", r"if negb (\1) then", "inverted branch"),
    (r"\bS (?=\w)", "", "off by one"), (r"\bnopp ", "(fun x => x) ", "sign"), (r"\bre\b", "im", "wrong part"), (r"\bim\b", "re", "wrong part"),
    (r"\bnltb (\w+) (\w+)", r"nltb \2 \1", "swapped arguments"), (r"\bnabs ", "(fun x => x) ", "missing absolute value"),
    (r"\bconj ", "(fun x => x) ", "missing conjugation"), (r"\bfilter \(", "(fun _ l => l) (", "missing filter"),
    (r"\bmin\b", "max", "wrong bound"), (r"\bmax\b", "min", "wrong bound"), (r"\bSome\b ", "(fun _ => None) ", "lost value"),
    (r"ValueError", "KeyError", "wrong exception"), (r"RuntimeError", "ValueError", "wrong exception"),
    (r"\bforallb\b", "existsb", "wrong quantifier"), (r"\bexistsb\b", "forallb", "wrong quantifier"),
    (r"(\b[a-z]\w*) \+\+ ([a-z]\w*)", r"\2 ++ \1", "order"), (r"\(- \(?1\)?\)", "1", "sign"), (r"\bcombine (\w+) (\w+)", r"combine \2 \1", "swapped"),
]


def strip_comments(s):
    out, depth, i = [], 0, 0
    while i < len(s):
        if s.startswith("(*", i): depth += 1; out.append("  "); i += 2; continue
        if s.startswith("*)", i) and depth: depth -= 1; out.append("  "); i += 2; continue
        out.append(s[i] if depth == 0 or s[i] == "\n" else " "); i += 1
    return "".join(out)


def definitions(s):
    c = strip_comments(s)
    for m in re.finditer(r"^\s*(?:Local )?(?:Program )?(Definition|Fixpoint)\s+(\w+)", c, re.M):
        e = re.search(r"\.\s*(?=\n|$)", c[m.end():])
        d = re.search(r":=", c[m.end(): m.end() + e.end()])
        if e and d: yield m.group(2), m.end() + d.end(), m.end() + e.start(), c


def mutants(path, rng, per):
    s = open(path).read()
    for name, a, b, c in definitions(s):
        body, cand = c[a:b], []
        for pat, rep, why in OPS:
            for x in re.finditer(pat, body):
                new = x.expand(rep)
                if new != x.group(0): cand.append((a + x.start(), a + x.end(), new, why))
        rng.shuffle(cand)
        for k in cand[: 3 * per]: yield name, s, k


def graph():
    dep = {}
    for l in open(os.path.join(BASE, ".Makefile.d")):
        m = re.match(r"(theories/\S+)\.vo .*?: (.*)", l)
        if m: dep[m.group(1)] = [x[:-3] for x in m.group(2).split() if x.endswith(".vo") and x.startswith("theories/")]
    return dep


def depends(dep, t, on, memo):
    if t == on: return True
    if t not in memo: memo[t] = any(depends(dep, d, on, memo) for d in dep.get(t, []))
    return memo[t]


def main():
    out, seed, per = sys.argv[1], int(sys.argv[2]), int(sys.argv[3])
    pat = sys.argv[4] if len(sys.argv) > 4 else "."
    rng, dep = random.Random(seed), graph()
    done = set()
    if os.path.exists(out):
        for l in open(out):
            d = json.loads(l); done.add((d["definition"], d["edit"]))
    tmp = tempfile.mkdtemp(prefix="amut"); dst = os.path.join(tmp, "rocq")
    files = sorted(glob.glob(os.path.join(BASE, "theories/Model/*.v")))
    files = [f for f in files if re.search(pat, f)]
    rng.shuffle(files)
    for f in files:
        rel = os.path.relpath(f, os.path.join(BASE, "theories"))
        count = {}
        for name, s, (a, b, new, why) in mutants(f, rng, per):
            if count.get(name, 0) >= per: continue
            l0, l1 = s.rfind("\n", 0, a) + 1, s.find("\n", b)
            edit = "%s  =>  %s" % (s[l0:l1].strip(), (s[l0:a] + new + s[b:l1]).strip())
            key = (rel + ": " + name, edit)
            if key in done: count[name] = count.get(name, 0) + 1; continue
            subprocess.run(["rsync", "-a", "--delete", BASE + "/", dst + "/"], check=False) if shutil.which("rsync") else (shutil.rmtree(dst, ignore_errors=True), subprocess.run(["cp", "-a", BASE, dst]))
            g = os.path.join(dst, "theories", rel)
            open(g, "w").write(s[:a] + new + s[b:])
            r = subprocess.run(["make", "theories/" + rel + "o"], cwd=dst, capture_output=True, text=True)
            if r.returncode: continue
            count[name] = count.get(name, 0) + 1
            try:
                r = subprocess.run(["make", "-j1"], cwd=dst, capture_output=True, text=True, timeout=1500)
                mm = re.search(r'File "\./?(theories/[\w/]+)\.v", line (\d+)[^\n]*\n(?:In environment|Error)', r.stderr)
                rc = r.returncode
            except subprocess.TimeoutExpired:
                subprocess.run(["pkill", "-f", dst]); mm, rc = None, "timeout"
            res = {"definition": key[0], "edit": edit, "why": why}
            if rc == "timeout": res.update(outcome="timeout")
            elif rc == 0: res.update(outcome="survived", first_failures=[], theorems_failed=[])
            else:
                ff = mm.group(1) if mm else "?"
                txt = open(os.path.join(dst, ff + ".v")).read().splitlines() if mm else []
                nm = "?"
                for i in range(min(int(mm.group(2)), len(txt)) - 1, -1, -1) if mm else []:
                    q = re.match(r"\s*(?:Theorem|Lemma|Example|Corollary|Definition|Fixpoint|Fact)\s+(\w+)", txt[i])
                    if q: nm = q.group(1); break
                memo, dead = {}, []
                for p in sorted(dep):
                    if "/Props/" in p and depends(dep, p, ff, memo): dead += re.findall(r"^\s*Theorem (\w+)", open(os.path.join(dst, p + ".v")).read(), re.M)
                res.update(outcome="killed", first_failures=[ff.replace("theories/", "") + ".v: " + nm], theorems_failed=dead)
            open(out, "a").write(json.dumps(res) + "\n")
            print(res["outcome"], key[0], "|", edit[:150], "|", res.get("first_failures"), flush=True)
    shutil.rmtree(tmp)


main()
