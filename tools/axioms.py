"""Prints, for every Print Assumptions of the property files, the axioms it lists.  Run in /verif/rocq after a build."""
import glob, os, re, subprocess, collections, tempfile
tmp = tempfile.mkdtemp()
groups = collections.OrderedDict()
for f in sorted(glob.glob("theories/Props/*.v")):
    names = re.findall(r"^Print Assumptions (\w+)\.", open(f).read(), re.M)
    out = subprocess.run(["coqc", "-Q", "theories", "Verif", "-o", os.path.join(tmp, os.path.basename(f) + "o"), f], capture_output=True, text=True).stdout
    blocks = re.split(r"(?m)^(?=Closed under the global context|Axioms:)", out)[1:]
    assert len(blocks) == len(names), (f, len(blocks), len(names))
    for n, b in zip(names, blocks):
        ax = tuple(sorted(re.findall(r"(?m)^([\w.]+)\s*(?::|$)", b.replace("Axioms:", "")))) if b.startswith("Axioms") else ()
        groups.setdefault(ax, []).append(n)
for ax, ns in groups.items():
    print("*", ", ".join("`%s`" % a for a in ax) or "none (closed under the global context)")
    print("  :", ", ".join(ns))
