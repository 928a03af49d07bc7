#!/usr/bin/env python3
"""Tests the theorems against wrong programs.

usage: mutate.py mutants.json [out.jsonl]

mutants.json: list of {"file", "definition", "old", "new", "edit", "claim", "expect": [property ids]}.
Each mutant is applied to a scratch copy of rocq/theories.  Files are rebuilt in the order of _CoqProject.
A lemma whose proof no longer goes through is admitted in the scratch copy and the build goes on, so that
Print Assumptions shows which property theorems depend on a broken proof.  One JSON line per mutant.
"""
import json, os, re, shutil, subprocess, sys, tempfile
from concurrent.futures import ThreadPoolExecutor

ROOT = os.path.dirname(os.path.dirname(os.path.abspath(__file__)))
TH = os.path.join(ROOT, "rocq", "theories")
ORDER = [l.strip()[len("theories/"):] for l in open(os.path.join(ROOT, "rocq", "_CoqProject")) if l.startswith("theories/")]
HEAD = re.compile(r"^\s*(?:Local\s+|Global\s+|#\[[^\]]*\]\s*)*(Lemma|Theorem|Example|Corollary|Fact|Remark|Definition|Fixpoint|Instance)\s+([\w']+)")

def coqc(d, f, timeout=300):
    cmd = "ulimit -v 6000000; timeout %d coqc -q -Q . Verif %s" % (timeout, f)
    p = subprocess.run(["bash", "-c", cmd], cwd=d, capture_output=True, text=True)
    return p.returncode, p.stdout, p.stderr

def requires(path):
    s = open(path).read()
    r = set()
    for m in re.finditer(r"Require\s+(?:Import|Export)?\s*([^.]*)\.", s):
        r.update(x + ".v" for x in m.group(1).split())
    return r & set(ORDER)

def admit(path, line):
    """Replaces the proof around [line] by Admitted.  Returns the lemma's name."""
    ls = open(path).read().split("\n")
    i = line - 1
    while i >= 0 and not HEAD.match(ls[i]):
        i -= 1
    if i < 0:
        return None
    kind, name = HEAD.match(ls[i]).groups()
    j = i
    while j < len(ls) and "Proof." not in ls[j] and not (j > i and HEAD.match(ls[j])):
        j += 1
    if j >= len(ls) or "Proof." not in ls[j]:
        return None
    k = j
    while k < len(ls) and not re.search(r"\b(Qed|Defined)\.", ls[k]):
        k += 1
    if k >= len(ls):
        return None
    pre = ls[j][:ls[j].index("Proof.")]
    post = re.split(r"\b(?:Qed|Defined)\.", ls[k], 1)[1]
    new = [pre + "Proof. Admitted." + post] + [""] * (k - j)
    ls[j:k + 1] = new
    open(path, "w").write("\n".join(ls))
    return name

def run(m):
    d = tempfile.mkdtemp(prefix="mut", dir="/tmp/scratch")
    try:
        for f in os.listdir(TH):
            if f.endswith((".v", ".vo", ".glob")):
                shutil.copy2(os.path.join(TH, f), d)
        p = os.path.join(d, m["file"])
        s = open(p).read()
        if s.count(m["old"]) < 1:
            return dict(m, error="old text not found")
        k = m.get("nth", 0)
        parts = s.split(m["old"])
        at = len(m["old"].join(parts[:k + 1]))
        heads = [(h.start(), h.group(1)) for h in re.finditer(r"^\s*(?:Definition|Fixpoint|CoFixpoint|Inductive|Record|with)\s+([\w']+)", s, re.M)]
        before = [n for p0, n in heads if p0 <= at]
        within = [n for p0, n in heads if at <= p0 < at + len(m["old"])]
        if m["definition"] not in before[-1:] + within:
            return dict(m, error="the edit is in %s" % (before[-1:] or ["no definition"])[0])
        s = m["old"].join(parts[:k + 1]) + m["new"] + m["old"].join(parts[k + 1:])
        open(p, "w").write(s)
        deps = {f: requires(os.path.join(d, f)) for f in ORDER}
        dirty, broken, tainted = {m["file"]}, [], set()
        for f in ORDER:
            if f not in dirty and not (deps[f] & dirty):
                continue
            dirty.add(f)
            for _ in range(80):
                rc, out, err = coqc(d, f)
                if rc == 0:
                    break
                g = re.findall(r'File "[^"]*", line (\d+)', err)
                if not g:
                    return dict(m, error="no line: " + err[-300:] + " in " + f, broken=broken)
                name = admit(os.path.join(d, f), int(g[-1]))
                if name is None:
                    return dict(m, error="not a proof: %s:%s %s" % (f, g[-1], err[-200:]), broken=broken)
                broken.append(f[:-2] + "." + name)
            else:
                return dict(m, error="too many failures in " + f, broken=broken)
            if f.startswith("Prop"):
                # pair each Print Assumptions with its output
                names = re.findall(r"^Print Assumptions ([\w']+)\.", open(os.path.join(d, f)).read(), re.M)
                chunks = re.split(r"(?m)^(?=Closed under the global context|Axioms:)", out)
                chunks = [c for c in chunks if c.startswith(("Closed", "Axioms:"))]
                for n, c in zip(names, chunks):
                    if c.startswith("Axioms:"):
                        tainted.add(n)
        allp = sorted(tainted)
        res = {k: m[k] for k in ("file", "definition", "edit", "claim", "expect") if k in m}
        res["broken_lemmas"] = broken
        res["failed"] = allp
        hit = {re.match(r"(C\d+)", n).group(1) for n in allp if re.match(r"C\d+", n)}
        res["missed"] = [c for c in m.get("expect", []) if c not in hit]
        return res
    finally:
        shutil.rmtree(d, ignore_errors=True)

if __name__ == "__main__":
    os.makedirs("/tmp/scratch", exist_ok=True)
    ms = json.load(open(sys.argv[1]))
    out = open(sys.argv[2], "a") if len(sys.argv) > 2 else sys.stdout
    with ThreadPoolExecutor(3) as ex:
        for r in ex.map(run, ms):
            out.write(json.dumps(r) + "\n")
            out.flush()
