"""Write what Print Assumptions lists for each theorem of MANIFEST.json into
section 5 of DESIGN.md.  Needs a built rocq/ directory.  With the argument
--new only theorems that section 5 does not list yet are queried."""
import json
import os
import re
import subprocess
import sys
import tempfile

ROOT = os.path.dirname(os.path.dirname(os.path.abspath(__file__)))
TH = os.path.join(ROOT, "rocq", "theories")

where = {}
for f in sorted(os.listdir(TH)):
    if f.startswith("Properties_") and f.endswith(".v"):
        text = open(os.path.join(TH, f)).read()
        for m in re.finditer(r"^\s*(?:Theorem|Lemma|Corollary)\s+(C\d+_\w+)", text, re.M):
            where.setdefault(m.group(1), f[:-2])

claims = json.load(open(os.path.join(ROOT, "MANIFEST.json")))["claims"]
names = [t for c in claims for t in c["theorems"]]
axioms = {}
if "--new" in sys.argv:
    section = open(os.path.join(ROOT, "DESIGN.md")).read().split("## 5. Print Assumptions")[1]
    for head, body in re.findall(r"^\*\*(.*)\*\*\n\n(C.*)\.$", section, re.M):
        for n in body.split(", "):
            axioms[n] = re.findall(r"`([^`]*)`", head)
missing = [n for n in names if n not in axioms]
for mod in sorted(set(where[n] for n in missing)):
    here = [n for n in missing if where[n] == mod]
    with tempfile.TemporaryDirectory() as d:
        p = os.path.join(d, "q.v")
        with open(p, "w") as g:
            g.write("From Verif Require %s.\n" % mod)
            for n in here:
                g.write('Goal True. idtac "@@ %s". exact I. Qed.\nPrint Assumptions Verif.%s.%s.\n' % (n, mod, n))
        out = subprocess.run(["coqc", "-w", "none", "-Q", TH, "Verif", p], capture_output=True, text=True)
        assert out.returncode == 0, out.stderr
    cur = None
    for line in out.stdout.splitlines():
        if line.startswith("@@ "):
            cur = line[3:].strip()
            axioms[cur] = []
        elif line.startswith("Closed under"):
            pass
        elif line.startswith("Axioms:"):
            pass
        elif re.match(r"^[A-Za-z_][\w.']*( :|$)", line):
            axioms[cur].append(line.split(" :")[0].strip())

groups = {}
for n in names:
    groups.setdefault(tuple(sorted(axioms[n])), []).append(n)
txt = ["## 5. Print Assumptions", "",
       "Generated by `tools/assumptions.py` from the compiled theorems; every theorem of",
       "`MANIFEST.json` appears in exactly one group.", ""]
for ax, ts in sorted(groups.items(), key=lambda x: (len(x[0]), x[0])):
    txt.append("**" + (", ".join("`%s`" % a for a in ax) if ax else "no axioms (closed under the global context)") + "**")
    txt.append("")
    txt.append(", ".join(ts) + ".")
    txt.append("")
p = os.path.join(ROOT, "DESIGN.md")
s = open(p).read()
s = s.split("## 5. Print Assumptions")[0].rstrip() + "\n\n" + "\n".join(txt).rstrip() + "\n"
open(p, "w").write(s)
print({k: len(v) for k, v in groups.items()})
