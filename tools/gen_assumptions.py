"""Rewrite the table of assumptions in DESIGN.md from Coq's Print Assumptions.

Needs the compiled files in rocq/theories.  Run from /verif.
"""
import json
import re
import subprocess
import tempfile
from pathlib import Path

ROOT = Path(__file__).resolve().parent.parent
TH = ROOT / "rocq" / "theories"
SHORT = {
    "ClassicalDedekindReals.sig_forall_dec": "sig_forall_dec",
    "ClassicalDedekindReals.sig_not_dec": "sig_not_dec",
    "FunctionalExtensionality.functional_extensionality_dep": "functional_extensionality_dep",
    "Classical_Prop.classic": "classic",
}

claims = json.loads((ROOT / "MANIFEST.json").read_text())["claims"]
names = list(dict.fromkeys(t for c in claims for t in c["theorems"]))
files = [
    Path(line.strip()).stem
    for line in (ROOT / "rocq" / "_CoqProject").read_text().split("\n")
    if line.strip().endswith(".v")
]
sources = {f: (TH / f"{f}.v").read_text() for f in files}
where = {}
for t in names:
    for f in files:
        if re.search(r"^\s*(Theorem|Lemma|Example|Corollary)\s+" + re.escape(t) + r"\b", sources[f], re.M):
            where[t] = f
            break
    else:
        raise SystemExit(f"{t} not found")
src = "From Verif Require " + " ".join(sorted(set(where.values()))) + ".\n"
for t in names:
    src += f'Goal True. idtac "@@{t}". exact I. Qed.\nPrint Assumptions {where[t]}.{t}.\n'
with tempfile.TemporaryDirectory() as d:
    Path(d, "pa.v").write_text(src)
    r = subprocess.run(["coqc", "-Q", str(TH), "Verif", "pa.v"], cwd=d, capture_output=True, text=True, check=False)
if r.returncode:
    raise SystemExit(r.stderr)
found, cur = {}, None
for line in r.stdout.split("\n"):
    if line.startswith("@@"):
        cur = line[2:]
        found[cur] = []
    elif cur and line and not line.startswith((" ", "Axioms:", "Closed under")):
        m = re.match(r"^([A-Za-z_.']+)(\s*:.*)?$", line)
        if m:
            found[cur].append(m.group(1))
groups = {}
for t in names:
    groups.setdefault(tuple(sorted(SHORT.get(a, a) for a in found[t])), []).append(t)
table = ""
for axioms, ts in sorted(groups.items(), key=lambda kv: (len(kv[0]), kv[0])):
    table += "- " + (", ".join(f"`{a}`" for a in axioms) or "no axiom (closed under the global context)")
    table += f" ({len(ts)}): " + ", ".join(ts) + "\n"
text = (ROOT / "DESIGN.md").read_text()
begin, end = "<!-- assumptions begin -->\n", "<!-- assumptions end -->"
head, rest = text.split(begin)
tail = rest.split(end)[1]
(ROOT / "DESIGN.md").write_text(head + begin + table + end + tail)
