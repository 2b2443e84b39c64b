"""Rewrite the "Assumptions per theorem" section of DESIGN.md (needs a built tree)."""
import glob, os, re, subprocess, tempfile
root = os.path.dirname(os.path.dirname(os.path.abspath(__file__)))
files = sorted(glob.glob(os.path.join(root, "rocq/theories/Props*.v")))
names = []
src = ""
for f in files:
    m = os.path.basename(f)[:-2]
    src += f"From Verif Require {m}.\n"
for f in files:
    m = os.path.basename(f)[:-2]
    for t in re.findall(r"^Theorem (C\d\d+_\w+)", open(f).read(), re.M):
        names.append(t)
        src += f'Goal True. idtac "@@ {t}". Abort.\nPrint Assumptions {m}.{t}.\n'
with tempfile.TemporaryDirectory() as d:
    p = os.path.join(d, "assume.v")
    open(p, "w").write(src)
    out = subprocess.run(["coqc", "-Q", os.path.join(root, "rocq/theories"), "Verif", p], capture_output=True, text=True)
    assert out.returncode == 0, out.stderr
table = {}
for part in out.stdout.split("@@ ")[1:]:
    name, rest = part.split("\n", 1)
    ax = sorted(set(re.findall(r"^([A-Za-z_][\w.']*)\s*(?::|$)", rest, re.M)) - {"Axioms", "Closed"})
    table[name.strip()] = [a for a in ax if a not in ("Axioms",)]
groups = {}
for n in sorted(names):
    groups.setdefault(tuple(table[n]), []).append(n)
txt = "## Assumptions per theorem\n\nGenerated by `tools/mkassume.py` from the output of `Print Assumptions`.\n"
for ax, ns in sorted(groups.items(), key=lambda g: (len(g[0]), g[0])):
    txt += "\n**" + (", ".join(f"`{a}`" for a in ax) if ax else "Closed under the global context") + "**:\n" + ", ".join(ns) + ".\n"
p = os.path.join(root, "DESIGN.md")
s = open(p).read()
s = s.split("## Assumptions per theorem")[0].rstrip() + "\n\n" + txt
open(p, "w").write(s)
print({len(k): len(v) for k, v in groups.items()}, [k for k in groups])
