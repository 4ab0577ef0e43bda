"""Write what Print Assumptions lists for each theorem of MANIFEST.json into DESIGN.md (between the two markers).

Run from /verif after building rocq.
"""
import glob, json, os, re, subprocess, tempfile

names = [t for c in json.load(open("MANIFEST.json"))["claims"] for t in c["theorems"]]
home = {}
for f in sorted(glob.glob("rocq/theories/P_*.v")):
    for m in re.finditer(r"^\s*Theorem\s+(C\d\d+_\w+)", open(f).read(), re.M):
        home[m.group(1)] = os.path.basename(f)[:-2]
src = "".join("From Verif Require %s.\n" % m for m in sorted(set(home.values())))
for t in names:
    src += 'Eval compute in (0,0,0). Check %s.%s. Print Assumptions %s.%s.\n' % (home[t], t, home[t], t)
with tempfile.TemporaryDirectory() as d:
    p = os.path.join(d, "assume.v")
    open(p, "w").write("Set Printing Width 100000.\n" + src)
    out = subprocess.run(["coqc", "-Q", "rocq/theories", "Verif", p], capture_output=True, text=True)
assert out.returncode == 0, out.stderr[-2000:]
parts = out.stdout.split("     = (0, 0, 0)\n")[1:]
assert len(parts) == len(names), (len(parts), len(names))
groups = {}
for t, s in zip(names, parts):
    if "Closed under the global context" in s:
        ax = ()
    else:
        ax = tuple(sorted(set(re.findall(r"^([\w.]+) :", s[s.index("Axioms:"):], re.M)) | set(re.findall(r"^([\w.]+)$", s[s.index("Axioms:"):], re.M))))
    groups.setdefault(ax, []).append(t)
text = ""
for ax in sorted(groups, key=len):
    text += "* **%s** (%d theorems): %s.\n" % (", ".join("`%s`" % a for a in ax) or "Closed under the global context", len(groups[ax]), ", ".join(groups[ax]))
d = open("DESIGN.md").read()
a, b = "<!-- assumptions -->\n", "<!-- end assumptions -->\n"
d = d[: d.index(a) + len(a)] + text + d[d.index(b):]
open("DESIGN.md", "w").write(d)
print({ax: len(g) for ax, g in groups.items()})
