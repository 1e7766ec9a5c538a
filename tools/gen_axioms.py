"""rewrite section 5 of DESIGN.md: the output of Print Assumptions for every theorem (needs a finished build)"""
import glob, os, re, subprocess
from concurrent.futures import ThreadPoolExecutor
root = os.path.dirname(os.path.dirname(os.path.abspath(__file__)))
th = f"{root}/rocq/theories"
groups, missing = {}, []
def assumptions(f):
    return subprocess.run(["coqc", "-Q", ".", "Verif", "-o", "/tmp/" + os.path.basename(f) + "o", f], cwd=th, capture_output=True, text=True, check=True).stdout
files = sorted(glob.glob(f"{th}/Prop_*.v"))
for f, out in zip(files, ThreadPoolExecutor(3).map(assumptions, files)):
    text = open(f).read()
    names = re.findall(r"^\s*Print Assumptions (\w+)\.", text, re.M)
    blocks = re.split(r"^(?=Closed under|Axioms:)", out, flags=re.M)[1:]
    assert len(blocks) == len(names), f
    for n, b in zip(names, blocks):
        ax = tuple(sorted(x for x in re.findall(r"^(\S+)(?: :|$)", b, re.M) if x != "Axioms:" and not x.startswith("Closed")))
        groups.setdefault(ax, []).append(n)
    missing += [t for t in re.findall(r"^Theorem (\w+)", text, re.M) if t not in names]
s = "## 5. Axioms, by Print Assumptions\n\nGenerated by `tools/gen_axioms.py` from the output of `Print Assumptions` beneath each theorem. All axioms are\nfrom Coq's standard library (the classical real numbers of `Reals`, functional extensionality and excluded middle).\n"
for ax, ns in sorted(groups.items(), key=lambda p: len(p[0])):
    s += "\n" + (", ".join(f"`{a}`" for a in ax) if ax else "**No axioms** (closed under the global context)") + f" -- {len(ns)} theorems:\n" + ", ".join(ns) + ".\n"
assert not missing, missing
d = open(f"{root}/DESIGN.md").read()
d = re.sub(r"## 5\. Axioms.*\Z", "", d, flags=re.S).rstrip() + "\n\n" + s
open(f"{root}/DESIGN.md", "w").write(d)
print({len(k): len(v) for k, v in groups.items()})
