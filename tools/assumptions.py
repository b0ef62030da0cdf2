"""Group the theorems of MANIFEST.json by the axioms Print Assumptions lists.

Needs a built rocq/ directory. Writes the table between the markers in DESIGN.md.
"""
import collections, json, os, re, subprocess, tempfile

root = os.path.join(os.path.dirname(os.path.abspath(__file__)), "..")
theories = os.path.join(root, "rocq", "theories")
claims = json.load(open(os.path.join(root, "MANIFEST.json")))["claims"]
theorems = [t for c in claims for t in c["theorems"]]
modules = [l.strip().split("/")[1][:-2] for l in open(os.path.join(root, "rocq", "_CoqProject")) if l.startswith("theories/")]
where = {}
for m in modules:
    text = open(os.path.join(theories, m + ".v")).read()
    for t in re.findall(r"^\s*(?:Theorem|Lemma|Corollary|Example)\s+([\w']+)", text, re.M):
        where.setdefault(t, m)
source = "Require Import String.\n" + "".join(f"From Verif Require {m}.\n" for m in sorted({where[t] for t in theorems}))
for t in theorems:
    source += f'Eval cbv in "MARK {t}"%string.\nPrint Assumptions {where[t]}.{t}.\n'
with tempfile.TemporaryDirectory() as d:
    open(os.path.join(d, "a.v"), "w").write(source)
    out = subprocess.run(["coqc", "-Q", theories, "Verif", "a.v"], cwd=d, capture_output=True, text=True, check=True).stdout
groups = collections.OrderedDict()
for part in out.split("MARK ")[1:]:
    name = re.match(r"[\w']+", part).group(0)
    axioms = sorted(set(re.findall(r"^([A-Z]\w*\.[\w.]+)\s*(?::|$)", part, re.M)))
    groups.setdefault(tuple(axioms), []).append(name)
lines = []
for axioms, names in sorted(groups.items(), key=lambda g: len(g[0])):
    lines.append("* " + (", ".join(f"`{a}`" for a in axioms) if axioms else "Closed under the global context") + ":")
    lines.append("  " + ", ".join(names) + ".")
design = os.path.join(root, "DESIGN.md")
text = open(design).read()
begin, end = "<!-- assumptions -->\n", "<!-- end of assumptions -->"
i, j = text.index(begin) + len(begin), text.index(end)
open(design, "w").write(text[:i] + "\n".join(lines) + "\n" + text[j:])
