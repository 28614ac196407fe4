"""Write ASSUMPTIONS.md: what Print Assumptions reports for each theorem of the
Props_*.v files.  Needs a finished build in rocq/."""
import glob
import os
import re
import subprocess
import tempfile

ROOT = os.path.dirname(os.path.dirname(os.path.abspath(__file__)))
ROCQ = os.path.join(ROOT, "rocq")
groups, missing = {}, []
for f in sorted(glob.glob(os.path.join(ROCQ, "theories/Props_*.v"))):
    src = re.sub(r"\(\*.*?\*\)", "", open(f).read(), flags=re.S)
    names = re.findall(r"Print Assumptions (\w+)\.", src)
    missing += [t for t in re.findall(r"^ *Theorem (\w+)", src, re.M) if t not in names]
    out = subprocess.run(["coqc", "-Q", "theories", "Verif", "-o", os.path.join(tempfile.gettempdir(), os.path.basename(f) + "o"), f], cwd=ROCQ, capture_output=True, text=True)
    assert out.returncode == 0, out.stderr
    blocks = re.split(r"^(?=Closed under the global context|Axioms:)", out.stdout, flags=re.M)[1:]
    assert len(blocks) == len(names), (f, len(blocks), len(names))
    for n, b in zip(names, blocks):
        axioms = () if b.startswith("Closed") else tuple(sorted(set(re.findall(r"^([A-Z][\w.]*\.\w+)(?= *:|$)", b, re.M))))
        groups.setdefault(axioms, []).append((os.path.basename(f), n))
assert not missing, missing
with open(os.path.join(ROOT, "ASSUMPTIONS.md"), "w") as o:
    o.write("# Print Assumptions, per theorem\n\nGenerated by `tools/gen_assumptions.py`. All axioms are the standard library's.\n")
    for axioms, ts in sorted(groups.items(), key=lambda g: len(g[0])):
        o.write("\n## " + (", ".join(f"`{a}`" for a in axioms) if axioms else "Closed under the global context") + f" ({len(ts)} theorems)\n\n")
        for fn in sorted({f for f, _ in ts}):
            o.write(f"* `{fn}`: " + ", ".join(n for f, n in ts if f == fn) + "\n")
print({k: len(v) for k, v in groups.items()})
