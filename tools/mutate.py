#!/usr/bin/env python3
"""Seed one bug into a scratch copy of the model and report which theorems fail.

usage: mutate.py mutations.json [name...]
Each mutation: {"name", "file", "definition", "old", "new", "breaks"}, optionally
"targets": the files (without .v) to rebuild instead of all.
The scratch copy lives outside /verif. A proof that no longer goes through is replaced
there by Admitted and recorded; a property theorem counts as failed if it is recorded
itself or if Print Assumptions shows that it depends on a recorded lemma.
A line per attempt is appended to seeded/LOG.jsonl."""
import json, os, re, shutil, subprocess, sys
ROOT = os.path.dirname(os.path.dirname(os.path.abspath(__file__)))
SRC = os.environ.get("MUT_SRC", ROOT + "/rocq")  # a built tree
SCR = os.environ.get("MUT_DIR", "/tmp/mut")

def sync():
    shutil.rmtree(SCR, ignore_errors=True)
    subprocess.run(["cp", "-a", SRC, SCR], check=True)

def build(targets=()):
    subprocess.run("coq_makefile -f _CoqProject -o Makefile", shell=True, cwd=SCR, stdout=subprocess.DEVNULL)
    goals = " ".join(f"theories/{t}.vo" for t in targets)
    p = subprocess.run(f"timeout 1500 make -k -j2 {goals} 2>&1", shell=True, cwd=SCR, capture_output=True, text=True)
    return p.returncode, p.stdout

START = re.compile(r"^\s*(?:Local |Global |#\[[^\]]*\] )?(Lemma|Theorem|Example|Corollary|Fact|Remark|Instance|Definition)\s+([\w']+)", re.M)
END = re.compile(r"\b(Qed|Defined|Admitted|Abort)\.")

def admit(path, line):
    src = open(path).read()
    pos = sum(len(l) + 1 for l in src.split("\n")[:line - 1])
    eol = src.find("\n", pos)
    best = None
    for m in START.finditer(src):
        if m.start() <= eol:
            best = m
    if best is None:
        return None
    p = re.compile(r"(?<![\w.])Proof\b").search(src, best.start())  # not Path_Proof.proper
    p = p.start() if p else -1
    e = END.search(src, p) if p >= 0 else None
    if p < 0 or e is None or e.end() < pos or eol < p:
        return ("BROKEN STATEMENT", best.group(2))
    open(path, "w").write(src[:p] + "Admitted." + src[e.end():])
    return ("ok", best.group(2))

def run(mu):
    sync()
    path = os.path.join(SCR, "theories", mu["file"])
    src = open(path).read()
    assert src.count(mu["old"]) == 1, (mu["name"], "pattern count", src.count(mu["old"]))
    open(path, "w").write(src.replace(mu["old"], mu["new"]))
    failed, out = [], ""
    for _ in range(150):
        rc, out = build(mu.get("targets", ()))
        errs = re.findall(r'File "\./(theories/[\w/]+\.v)", line (\d+), characters [\d-]+:\nError', out)
        if rc == 0 or not errs:
            break
        stop = False
        for f, l in dict(errs).items():
            r = admit(os.path.join(SCR, f), int(l))
            if r is None or r[0] != "ok":
                failed.append(str(r) + " in " + f); stop = True
            else:
                failed.append(r[1])
        if stop:
            break
    # property theorems depending on admitted lemmas
    assum = set()
    listed = open(os.path.join(SCR, "_CoqProject")).read().split()
    pfiles = [f for f in os.listdir(os.path.join(SCR, "theories")) if f.startswith("P_") and f.endswith(".v") and "theories/" + f in listed]
    for f in pfiles:
        src = open(os.path.join(SCR, "theories", f)).read()
        names = re.findall(r"^\s*Theorem\s+([\w']+)", src, re.M)
        if not os.path.exists(os.path.join(SCR, "theories", f[:-2] + ".vo")):
            if failed:
                assum.update(n for n in names)
            continue
        here, orig = (os.path.join(d, f[:-2] + ".vo") for d in (SCR + "/theories", SRC + "/theories"))
        if os.path.exists(orig) and os.path.getmtime(here) == os.path.getmtime(orig):
            continue  # not rebuilt
        q = f"From Verif Require Import {f[:-2]}.\n" + "".join(f'Print Assumptions {n}.\n' for n in names)
        open(SCR + "/q.v", "w").write(q)
        o = subprocess.run(["coqc", "-Q", SCR + "/theories", "Verif", SCR + "/q.v"], capture_output=True, text=True).stdout
        parts = re.split(r"(?=Closed under the global context|Axioms:)", o)[1:]
        for n, part in zip(names, parts):
            if part.startswith("Axioms") :
                assum.add(n)
    thms = sorted(assum | {x for x in failed if re.match(r"C\d+_", x)})
    return failed, thms

def main():
    mus = json.load(open(sys.argv[1]))
    only = set(sys.argv[2:])
    for mu in mus:
        if only and mu["name"] not in only:
            continue
        failed, thms = run(mu)
        rec = {"definition": mu["definition"], "edit": f'{mu["file"]}: `{mu["old"].strip()}` -> `{mu["new"].strip()}`',
               "breaks": mu["breaks"], "theorems_failed": thms,
               "lemmas_failed": [x for x in failed if x not in thms], "theorems_tightened": mu.get("tightened", [])}
        print(mu["name"], "->", len(thms), "theorems:", thms[:8], "| lemmas:", rec["lemmas_failed"][:6], flush=True)
        with open(ROOT + "/seeded/LOG.jsonl", "a") as f:
            f.write(json.dumps(rec, ensure_ascii=False) + "\n")

main()
