#!/usr/bin/env python3
"""Assemble DESIGN.md. Run after the theories are compiled: the axioms are those printed by theories/Assumptions.v."""
import glob, json, os, re, subprocess
root = os.path.dirname(os.path.dirname(os.path.abspath(__file__)))
rocq = os.path.join(root, "rocq")
tools = os.path.join(root, "tools")
plan = json.load(open(os.path.join(tools, "plan.json")))
manifest = {c["property"]: c for c in json.load(open(os.path.join(root, "MANIFEST.json")))["claims"]}
props = [json.loads(l) for l in open(os.path.join(root, "properties.jsonl"))]
where, imports = {}, {}
for f in sorted(glob.glob(os.path.join(rocq, "theories", "*.v"))):
    b, s = os.path.basename(f)[:-2], open(f).read()
    imports[b] = [x for l in re.findall(r"From Verif Require Import ([^.]*)\.", s) for x in l.split()]
    if b.startswith("Thm"):
        for m in re.finditer(r"^Theorem (C\d+_\w+)", s, re.M):
            where[m.group(1)] = b
out = [open(os.path.join(tools, "design_head.md")).read(), "\n## Properties\n\n",
       "For each property: what is modelled and how it is proved, the models and the file with the theorems, the status and the theorems. ",
       "The statements are in `properties.jsonl`.\n\n"]
for p in props:
    i = p["id"]
    c = manifest[i]
    files = sorted({where[t] for t in c["theorems"]})
    models = sorted({m for f in files for m in imports[f] if m.endswith("Model")})
    specs = sorted({m for f in files for m in imports[f] if m.endswith("Spec")})
    out.append(f"* **{i}** {p['title']}. {plan.get(i, '')}\n")
    out.append(f"  Models: {', '.join(models)}; specification: {', '.join(specs) or 'in the statements'}; theorems in {', '.join(files)}.\n")
    out.append(f"  Status: {c['status']}. {c['note']}\n")
    out.append(f"  Theorems: {', '.join('`' + t + '`' for t in c['theorems'])}.\n")
r = subprocess.run(["coqc", "-Q", "theories", "Verif", "theories/Assumptions.v"], cwd=rocq, capture_output=True, text=True, check=True).stdout
names = re.findall(r"^Print Assumptions (\w+)\.", open(os.path.join(rocq, "theories", "Assumptions.v")).read(), re.M)
blocks = re.split(r"^(?=Closed under the global context|Axioms:)", r, flags=re.M)[1:]
assert len(blocks) == len(names), (len(blocks), len(names))
groups = {}
for n, b in zip(names, blocks):
    ax = tuple(sorted(re.findall(r"^([\w.]+)(?=$|\s*:)", b, re.M)))
    ax = tuple(a for a in ax if a != "Axioms")
    groups.setdefault(ax, []).append(n)
out.append("\n## Assumptions per theorem\n\nOutput of `Print Assumptions` for each of the %d theorems, grouped by the axioms listed.\n\n" % len(names))
for ax in sorted(groups, key=len):
    out.append("* " + ("Closed under the global context" if not ax else ", ".join(f"`{a}`" for a in ax)) + f" ({len(groups[ax])} theorems):\n  " + ", ".join(groups[ax]) + ".\n")
open(os.path.join(root, "DESIGN.md"), "w").write("".join(out))
print({ax: len(v) for ax, v in groups.items()})
