"""Rewrite section 5 of DESIGN.md from the output of Print Assumptions."""
import re, subprocess, glob, collections
import os
root = os.path.dirname(os.path.dirname(os.path.abspath(__file__)))
os.chdir(root + "/rocq")
rows = []
for f in sorted(glob.glob("theories/P_*.v")):
    names = re.findall(r"^Print Assumptions (\w+)\.", open(f).read(), re.M)
    out = subprocess.run(["coqc", "-Q", "theories", "Verif", f], capture_output=True, text=True).stdout
    blocks = re.split(r"^(?=Axioms:|Closed under)", out, flags=re.M)[1:]
    assert len(blocks) == len(names), (f, len(blocks), len(names))
    groups = collections.OrderedDict()
    for n, b in zip(names, blocks):
        ax = tuple(a.split(".")[-1] for a in re.findall(r"^([A-Za-z_.]+)", b, re.M) if "." in a)
        groups.setdefault(ax, []).append(n)
    for ax, ns in groups.items():
        rows.append((os.path.basename(f)[:-2], ", ".join(ax) or "none", ", ".join(ns)))
table = "| file | axioms listed | theorems |\n|---|---|---|\n" + "".join("| %s | %s | %s |\n" % r for r in rows)
text = """## 5. Trusted base per theorem

`Print Assumptions` is run after every theorem in the `P_*.v` files. What it
lists (short names; `sig_forall_dec` and `sig_not_dec` are in
`ClassicalDedekindReals`, `functional_extensionality_dep` in
`FunctionalExtensionality`, `classic` in `Classical_Prop`, all of the standard
library; the table is written by `tools/assumptions.py`):

""" + table + "\n"
d = open(root + "/DESIGN.md").read()
i = d.index("## 5. "); j = d.index("## 6. ")
open(root + "/DESIGN.md", "w").write(d[:i] + text + d[j:])
