"""Seeded-bug testing of the theorems.

usage: mutate.py SPEC.jsonl [start [end]]

Each line of SPEC: {"file": "M_X.v", "definition": ..., "old": ..., "new": ...,
"claim": ..., "n": occurrence (default 1)}.  The model is copied to /tmp/mut, the edit
is applied, every lemma that no longer compiles is admitted there (in the scratch copy
only), and the theorems C.. that fail or depend on a failed lemma are listed.  Unless
FULL=1 is set, the search ends as soon as some theorem C.. is known to fail, so that the
list of failed theorems may be incomplete.
The result is appended to /tmp/mut_results.jsonl.
"""
import glob, json, os, re, shutil, subprocess, sys, time

SRC = os.environ.get("MUTSRC", "/tmp/mutbase")  # built copy of the committed model
DST = os.environ.get("MUT", "/tmp/mut")
DECL = re.compile(r"^(?:#\[[^\]]*\]\s*)?(Theorem|Lemma|Corollary|Example|Fact|Remark|Proposition|Definition|Fixpoint|Inductive|Record|Instance|Ltac|Local Lemma)\s+([\w']+)", re.M)

def run(cmd, timeout=20000):
    return subprocess.run(cmd, shell=True, cwd=DST, stdout=subprocess.PIPE, stderr=subprocess.STDOUT,
                          text=True, timeout=timeout).stdout

# Who uses whom, from the .glob files of the unmodified build: (module, name) -> set of (module, name).
GRAPH, GRAPH_ORDER = {}, []
def load_graph():
    for g in sorted(glob.glob(f"{SRC}/theories/*.glob")):
        mod = os.path.basename(g)[:-5]
        cur, proofs = None, []
        ev = []
        for l in open(g):
            w = l.split()
            m = re.match(r"R(\d+):", l)
            if m and len(w) >= 4:
                ev.append((int(m.group(1)), 1, (w[1].split(".")[-1], w[3])))
            elif w and w[0] in ("prf", "thm", "def", "fix", "rec", "ind") and len(w) >= 4:
                ev.append((int(w[1].split(":")[0]), 0, (mod, w[3])))
                if w[0] in ("prf", "thm") and mod.startswith("Properties_"):
                    GRAPH_ORDER.append((mod, w[3]))
        for _, k, x in sorted(ev):
            if k == 0:
                cur = x; GRAPH.setdefault(cur, set())
            elif cur:
                GRAPH[cur].add(x)

def depends(c, failed):
    fs, seen, todo = set(failed), {c}, [c]
    while todo:
        x = todo.pop()
        if x in fs:
            return True
        for y in GRAPH.get(x, ()):
            if y not in seen and y in GRAPH:
                seen.add(y); todo.append(y)
    return False

def one(spec):
    shutil.rmtree(DST, ignore_errors=True)
    shutil.copytree(SRC, DST, copy_function=shutil.copy2)
    path = f"{DST}/theories/{spec['file']}"
    s = open(path).read()
    assert spec["old"] in s, "pattern not found: " + spec["old"]
    k = spec.get("n", 1)
    i = -1
    for _ in range(k):
        i = s.index(spec["old"], i + 1)
    s = s[:i] + spec["new"] + s[i + len(spec["old"]):]
    open(path, "w").write(s)
    failed, failed_in, broken = [], [], []
    run("coq_makefile -f _CoqProject -o Makefile")
    for it in range(80):
        k_flag = "-k" if os.environ.get("FULL") else ""
        out = run(f'make {k_flag} -j2 COQC="timeout 240 coqc -w none" 2>&1')
        errs = re.findall(r'File "\./theories/(\w+\.v)", line (\d+), characters [^\n]*\n(?:Error|[^\n]*\nError)', out)
        to = re.findall(r"theories/(\w+)\.vo\] Error 124", out)
        if not errs and not to:
            break
        if to and not errs:  # a proof script that runs away: find the lemma and admit it
            for f in to:
                o = run(f"timeout 240 coqc -w none -time -Q theories Verif theories/{f}.v 2>&1")
                last = [int(x) for x in re.findall(r"^Chars \d+ - (\d+)", o, re.M)][-1]
                raw = open(f"{DST}/theories/{f}.v", "rb").read()
                errs.append((f + ".v", str(raw[:last + 1].count(b"\n") + 1)))
                broken.append("timeout in " + f)
        progress = False
        for f, line in {(a, int(b)) for a, b in errs}:
            p = f"{DST}/theories/{f}"
            t = open(p).read()
            pos = sum(len(l) + 1 for l in t.split("\n")[:line - 1])
            decls = [m for m in DECL.finditer(t) if m.start() <= pos + 1]
            m = decls[-1]
            if m.group(1) in ("Definition", "Fixpoint", "Inductive", "Record", "Ltac", "Instance"):
                broken.append(f"{f}:{m.group(2)}"); continue
            pm = re.compile(r"\bProof\b.*?\b(?:Qed|Defined)\.", re.S).search(t, m.start())
            if pos < pm.start() - 0 and t[m.start():pos].count("\n") >= 0 and pos + 1 < pm.start():
                broken.append(f"{f}:{m.group(2)} (statement)"); continue
            failed.append(m.group(2)); failed_in.append((f[:-2], m.group(2)))
            t = t[:pm.start()] + "Admitted." + t[pm.end():]
            open(p, "w").write(t)
            progress = True
        if not progress:
            break
        if not os.environ.get("FULL") and any(re.match(r"C\d\d", c[1]) and depends(c, failed_in) for c in GRAPH_ORDER):
            break
    # dependants
    mods = [os.path.basename(x)[:-2] for x in glob.glob(f"{DST}/theories/Properties_*.v")
            ]
    names = []
    for mdl in sorted(mods):
        t = open(f"{DST}/theories/{mdl}.v").read()
        names += [f"{mdl}.{m.group(2)}" for m in DECL.finditer(t)
                  if m.group(1) in ("Theorem", "Lemma", "Corollary") and re.match(r"C\d\d", m.group(2))]
    missing = [os.path.basename(x)[:-2] for x in glob.glob(f"{DST}/theories/*.v") if not os.path.exists(x + "o")]
    hit = [c[1] for c in GRAPH_ORDER if f"{c[0]}.{c[1]}" in names and depends(c, failed_in)]
    return {"definition": spec["definition"], "edit": f"{spec['file']}: {spec['old']!r} -> {spec['new']!r}"
            + (f" (occurrence {k})" if k > 1 else ""),
            "claim": spec["claim"], "theorems_failed": hit,
            "lemmas_failed": [x for x in failed if x not in hit], "not_compiled": missing, "broken": broken}

if __name__ == "__main__":
    load_graph()
    specs = [json.loads(l) for l in open(sys.argv[1]) if l.strip()]
    a = int(sys.argv[2]) if len(sys.argv) > 2 else 0
    b = int(sys.argv[3]) if len(sys.argv) > 3 else len(specs)
    for sp in specs[a:b]:
        t0 = time.time()
        try:
            r = one(sp)
        except Exception as e:
            r = {"definition": sp["definition"], "edit": sp["old"] + " -> " + sp["new"], "error": repr(e)}
        r["seconds"] = round(time.time() - t0)
        with open("/tmp/mut_results.jsonl", "a") as g:
            g.write(json.dumps(r) + "\n")
        print(json.dumps(r), flush=True)
