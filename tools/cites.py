#!/usr/bin/env python3
"""List definitions of the model files that have no comment of their own, or whose comment cites no file and line."""
import os, re
T = '/verif/rocq/theories'
KIND = re.compile(r'^\s*(?:Definition|Fixpoint|Record|Inductive|Variant)\s+([A-Za-z0-9_\']+)')
for f in sorted(os.listdir(T)):
    if not (f.endswith('Model.v') or f in ('Lifecycle.v', 'SMap.v', 'HwTypes.v')): continue
    lines = open(f'{T}/{f}').read().split('\n')
    for n, l in enumerate(lines):
        m = KIND.match(l)
        if not m: continue
        if n == 0 or not lines[n-1].rstrip().endswith('*)'): print(f, n+1, m.group(1), 'NO COMMENT'); continue
        k = n-1
        while '(**' not in lines[k] and k > 0: k -= 1
        c = ' '.join(lines[k:n])
        if not re.search(r'\w+\.(h|cpp|py|xml|srv|msg)|[a-z_]+:\d+|:\d+|\b\d+-\d+\b', c): print(f, n+1, m.group(1), 'NO CITE:', c[:110])
