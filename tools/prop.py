"""Helpers to edit properties.jsonl and MANIFEST.json."""
import json
P = '/verif/properties.jsonl'
M = '/verif/MANIFEST.json'
def load():
    return [json.loads(l) for l in open(P) if l.strip()]
def save(ps):
    open(P, 'w').write(''.join(json.dumps(p) + '\n' for p in sorted(ps, key=lambda p: int(p['id'][1:]))))
def setp(id, **kw):
    ps = load()
    old = [p for p in ps if p['id'] == id]
    if old:
        old[0].update(kw)
    else:
        d = dict(id=id, title='', statement='', quantifier='', why_tests_cant='', anchors=[])
        d.update(kw)
        ps.append(d)
    save(ps)
def claim(id, status, theorems, note=''):
    try:
        m = json.load(open(M))
    except FileNotFoundError:
        m = {'claims': []}
    m['claims'] = [c for c in m['claims'] if c['property'] != id]
    m['claims'].append({'property': id, 'status': status, 'theorems': theorems, 'note': note})
    m['claims'].sort(key=lambda c: int(c['property'][1:]))
    json.dump(m, open(M, 'w'), indent=1)
