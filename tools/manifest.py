"""Regenerate MANIFEST.json from the theorem names in rocq/theories/Properties_*.v
and the notes in tools/notes.json."""
import glob, json, re, os
root = os.path.join(os.path.dirname(os.path.abspath(__file__)), "..")
thms = {}
for f in sorted(glob.glob(os.path.join(root, "rocq/theories/Properties_*.v"))):
    for m in re.finditer(r"^(?:Theorem|Lemma|Corollary)\s+((C\d\d\d?)_\w+)", open(f).read(), re.M):
        thms.setdefault(m.group(2), []).append(m.group(1))
notes = json.load(open(os.path.join(root, "tools/notes.json")))
claims = []
for line in open(os.path.join(root, "properties.jsonl")):
    p = json.loads(line)["id"]
    n = notes.get(p, {})
    t = thms.get(p, [])
    if not t:
        status = n.get("status", "partial")
        note = n.get("note", "no theorem yet")
    else:
        bad = any(x.endswith("_refuted") or x.endswith("_partial") for x in t)
        status = n.get("status", "partial" if bad else "proved")
        note = n.get("note", "")
    claims.append({"property": p, "status": status, "theorems": t, "note": note})
with open(os.path.join(root, "MANIFEST.json"), "w") as f:
    f.write('{"claims": [\n' + ",\n".join(json.dumps(c) for c in claims) + "\n]}\n")
from collections import Counter
print(Counter(c["status"] for c in claims), sum(len(c["theorems"]) for c in claims),
      "without theorem:", [c["property"] for c in claims if not c["theorems"]])
