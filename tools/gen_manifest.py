#!/usr/bin/env python3
# Regenerates MANIFEST.json and rocq/_CoqProject from the theorem names Cnn_* in rocq/theories/*Props.v.
import json, re, glob, os
here = os.path.dirname(os.path.abspath(__file__))
root = os.path.dirname(here)
notes = json.load(open(os.path.join(here, "notes.json")))
props = [json.loads(l) for l in open(os.path.join(root, "properties.jsonl"))]
thms = {}
for f in sorted(glob.glob(os.path.join(root, "rocq/theories/*Props.v"))):
    for m in re.finditer(r"^(?:Theorem|Lemma|Corollary)\s+(C(\d\d)_\w+)", open(f).read(), re.M):
        thms.setdefault("C" + m.group(2), []).append(m.group(1))
claims = []
for p in props:
    pid = p["id"]
    n = notes.get(pid, {})
    ts = thms.get(pid, [])
    if not ts:
        st = "not_applicable"
        note = n.get("note", "not modelled yet")
    else:
        weak = [t for t in ts if t.endswith("_partial") or "_refuted" in t]
        st = n.get("status", "partial" if weak else "proved")
        note = n.get("note", "")
    claims.append({"property": pid, "status": st, "theorems": ts, "note": note})
json.dump({"claims": claims}, open(os.path.join(root, "MANIFEST.json"), "w"), indent=1)
unknown = set(thms) - {p["id"] for p in props}
if unknown: print("WARNING: theorems for unknown properties", unknown)
with open(os.path.join(root, "rocq/_CoqProject"), "w") as f:
    f.write("-Q theories Verif\n")
    for v in sorted(glob.glob(os.path.join(root, "rocq/theories/*.v"))):
        f.write("theories/" + os.path.basename(v) + "\n")
for c in claims: print(c["property"], c["status"], len(c["theorems"]))
