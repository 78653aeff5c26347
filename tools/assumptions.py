#!/usr/bin/env python3
"""Writes ASSUMPTIONS.md: what Print Assumptions lists for every theorem of MANIFEST.json.
Needs a built rocq/ directory."""
import json, os, re, subprocess, tempfile
here = os.path.dirname(os.path.abspath(__file__)); R = os.path.join(here, "..", "rocq")
man = json.load(open(os.path.join(here, "..", "MANIFEST.json")))
files = [l.strip() for l in open(R + "/_CoqProject") if l.strip().endswith(".v")]
src = {f: open(os.path.join(R, f)).read() for f in files}
ths = []
for c in man["claims"]:
    for t in c["theorems"]:
        if t not in ths: ths.append(t)
where = {}
for t in ths:
    for f in files:
        if re.search(r"(Theorem|Lemma|Corollary|Example)\s+" + re.escape(t) + r"\b", src[f]): where[t] = os.path.basename(f)[:-2]; break
res = {}
for mod in sorted(set(where.values())):
    mine = [t for t in ths if where[t] == mod]
    with tempfile.TemporaryDirectory() as d:
        open(d + "/q.v", "w").write(f"From Verif Require {mod}.\n" + "".join(f"Print Assumptions Verif.{mod}.{t}.\n" for t in mine))
        o = subprocess.run(["coqc", "-Q", os.path.join(R, "theories"), "Verif", d + "/q.v"], capture_output=True, text=True).stdout
    chunks = re.split(r"^(?=Axioms:|Closed under)", o, flags=re.M)[1:]
    assert len(chunks) == len(mine), (mod, len(chunks), len(mine))
    for t, c in zip(mine, chunks):
        res[t] = [] if c.startswith("Closed") else [m.group(1) for m in re.finditer(r"^([A-Za-z_][\w.']*)\s*:", c, re.M) if m.group(1) != "Axioms"]
groups = {}
for t in ths: groups.setdefault(tuple(sorted(res[t])), []).append(t)
with open(os.path.join(here, "..", "ASSUMPTIONS.md"), "w") as f:
    f.write("# Print Assumptions for every theorem of MANIFEST.json\n\nGenerated by tools/assumptions.py.\n")
    for g, l in sorted(groups.items()):
        f.write("\n## " + (", ".join(f"`{x}`" for x in g) if g else "Closed under the global context (no axioms)") + "\n\n")
        f.write(", ".join(f"`{where[t]}.{t}`" for t in l) + "\n")
print({k: len(v) for k, v in groups.items()})
