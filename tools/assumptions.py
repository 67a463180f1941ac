#!/usr/bin/env python3
"""Print, for every theorem of MANIFEST.json, the axioms Print Assumptions lists (needs a built tree)."""
import json, os, re, subprocess, tempfile
root = '/verif/rocq/theories'
man = json.load(open('/verif/MANIFEST.json'))
names = [t for c in man['claims'] for t in c['theorems']]
where = {}
for f in sorted(os.listdir(root)):
    if f.startswith('Props') and f.endswith('.v'):
        for n in re.findall(r'^Theorem\s+(\w+)', open(f'{root}/{f}').read(), re.M): where[n] = f[:-2]
out = {}
for mod in sorted(set(where.values())):
    ns = [n for n in names if where.get(n) == mod]
    src = f'From Verif Require Import {mod}.\n' + ''.join(f'Print Assumptions {n}.\n' for n in ns)
    d = tempfile.mkdtemp(); open(d + '/q.v', 'w').write(src)
    r = subprocess.run(['coqc', '-Q', root, 'Verif', '-w', 'none', d + '/q.v'], stdout=subprocess.PIPE, stderr=subprocess.STDOUT, text=True).stdout
    parts = re.split(r'^(?=Closed under the global context|Axioms:)', r, flags=re.M)[1:]
    assert len(parts) == len(ns), (mod, len(parts), len(ns), r[:500])
    for n, p in zip(ns, parts):
        out[n] = tuple(re.findall(r'^([A-Za-z_][\w.]*)\s*$|^([A-Za-z_][\w.]*)\s*:', p.split('\n', 1)[1], re.M)) if p.startswith('Axioms') else ()
        out[n] = tuple(sorted({a or b for a, b in out[n]}))
missing = [n for n in names if n not in out]
print('missing', missing)
groups = {}
for n in names: groups.setdefault(out.get(n), []).append(n)
for ax, ns in groups.items():
    print(len(ns), 'theorems:', ', '.join(ax) if ax else 'closed under the global context')
    if ax: print('   ', ' '.join(ns))
