#!/usr/bin/env python3
"""Write AXIOMS.md: what Print Assumptions lists for each property theorem.
Needs the compiled theories."""
import glob, os, re, subprocess, tempfile
root = os.path.join(os.path.dirname(os.path.abspath(__file__)), "..")
th = os.path.join(root, "rocq", "theories")
rows = []
for f in sorted(glob.glob(th + "/T_*.v")):
    mod = os.path.basename(f)[:-2]
    names = re.findall(r"^Theorem ([A-Za-z0-9_']+)", open(f).read(), re.M)
    with tempfile.TemporaryDirectory() as d:
        g = os.path.join(d, "q.v")
        with open(g, "w") as o:
            o.write("From Verif Require Import %s.\n" % mod)
            for n in names:
                o.write('Goal True. idtac "@@ %s". exact I. Qed.\nPrint Assumptions %s.\n' % (n, n))
        out = subprocess.run(["coqc", "-Q", th, "Verif", g], capture_output=True, text=True, check=True).stdout
    for part in out.split("@@ ")[1:]:
        n, rest = part.split("\n", 1)
        ax = sorted(set(re.findall(r"^([A-Z][A-Za-z0-9_]*\.[A-Za-z0-9_.]+)", rest, re.M)))
        rows.append((n, mod, ax))
short = {"ClassicalDedekindReals.sig_not_dec": "sig_not_dec", "ClassicalDedekindReals.sig_forall_dec": "sig_forall_dec",
         "FunctionalExtensionality.functional_extensionality_dep": "funext", "Classical_Prop.classic": "classic"}
with open(os.path.join(root, "AXIOMS.md"), "w") as o:
    o.write("# Print Assumptions per theorem\n\nsig_not_dec, sig_forall_dec: `Coq.Reals.ClassicalDedekindReals`; funext: "
            "`Coq.Logic.FunctionalExtensionality.functional_extensionality_dep`; classic: `Coq.Logic.Classical_Prop.classic`. "
            "\"none\" means closed under the global context. Generated by tools/axioms.py.\n\n| theorem | file | axioms |\n|---|---|---|\n")
    for n, mod, ax in sorted(rows):
        o.write("| %s | %s | %s |\n" % (n, mod, ", ".join(short.get(a, a) for a in ax) or "none"))
print(len(rows))
