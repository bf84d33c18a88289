"""Write ASSUMPTIONS.md: the axioms Print Assumptions lists below every property theorem.

Run after a build, from /verif: python3 tools/assumptions.py
"""
import glob, os, re, subprocess, tempfile

T = os.path.join(os.path.dirname(__file__), "..", "rocq", "theories")
rows = []
for p in sorted(glob.glob(os.path.join(T, "P_*.v"))):
    src = open(p).read()
    names = re.findall(r"^Print Assumptions (\S+)\.", src, re.M)
    with tempfile.TemporaryDirectory() as d:
        out = subprocess.run(["coqc", "-Q", T, "Verif", "-o", os.path.join(d, os.path.basename(p) + "o"), p], capture_output=True, text=True).stdout
    blocks = re.split(r"^(?=Axioms:|Closed under)", out, flags=re.M)[1:]
    assert len(blocks) == len(names), (p, len(blocks), len(names))
    for n, b in zip(names, blocks):
        ax = [] if b.startswith("Closed") else sorted(re.findall(r"^(\S+)(?= :|$)", b.split("\n", 1)[1], re.M))
        rows.append((os.path.basename(p), n, ax))
sets = {}
for f, n, ax in rows:
    sets.setdefault(tuple(ax), []).append(n)
with open(os.path.join(T, "..", "..", "ASSUMPTIONS.md"), "w") as o:
    o.write("# Axioms behind every property theorem\n\nWritten by `tools/assumptions.py` from the output of `Print Assumptions`.\nAll axioms are those of Coq's standard library.\n")
    for ax, ns in sorted(sets.items(), key=lambda x: (len(x[0]), x[0])):
        o.write("\n## " + (", ".join("`%s`" % a for a in ax) or "none (closed under the global context)") + "\n\n")
        o.write(", ".join(sorted(ns)) + "\n")
print(len(rows), "theorems,", len(sets), "sets of axioms")
