#!/usr/bin/env python3
"""Writes ASSUMPTIONS.md: what Print Assumptions lists for each theorem in MANIFEST.json.
Run in /verif after building rocq/."""
import json, os, re, subprocess, tempfile
root = os.path.dirname(os.path.dirname(os.path.abspath(__file__)))
th = os.path.join(root, 'rocq', 'theories')
where = {}
for f in sorted(os.listdir(th)):
    if f.endswith('.v'):
        for m in re.finditer(r'^\s*(?:Theorem|Lemma|Corollary|Proposition|Fact|Remark)\s+(\w+)', open(os.path.join(th, f)).read(), re.M):
            where.setdefault(m.group(1), []).append(f[:-2])
claims = json.load(open(os.path.join(root, 'MANIFEST.json')))['claims']
rows = []
for c in sorted(claims, key=lambda c: int(c['property'][1:])):
    for t in c['theorems']:
        cand = where[t]
        props = [x for x in cand if 'Props' in x] or cand
        rows.append((c['property'], t, props[0]))
mods = sorted({m for _, _, m in rows})
with tempfile.TemporaryDirectory() as d:
    p = os.path.join(d, 'a.v')
    with open(p, 'w') as o:
        for m in mods:
            o.write(f'Require Verif.{m}.\n')
        for i, (_, t, m) in enumerate(rows):
            o.write(f'Goal {i} = {i}. idtac "@@{i}". Abort.\nPrint Assumptions Verif.{m}.{t}.\n')
    out = subprocess.run(['coqc', '-Q', th, 'Verif', p], capture_output=True, text=True)
    assert out.returncode == 0, out.stderr[-2000:]
parts = re.split(r'@@(\d+)\n', out.stdout)
axs = {}
for i in range(1, len(parts), 2):
    axs[int(parts[i])] = sorted(set(re.findall(r'^([A-Za-z_][\w.]*)\s*(?::|$)', parts[i + 1], re.M)) - {'Axioms', 'Closed'})
with open(os.path.join(root, 'ASSUMPTIONS.md'), 'w') as o:
    o.write('# What `Print Assumptions` lists for each theorem of MANIFEST.json\n\nGenerated by `tools/assumptions.py`. "closed" means: no axioms.\n\n| property | theorem | module | axioms |\n|---|---|---|---|\n')
    for i, (c, t, m) in enumerate(rows):
        o.write(f'| {c} | {t} | {m} | {", ".join(axs[i]) or "closed"} |\n')
print(sorted({a for v in axs.values() for a in v}))
