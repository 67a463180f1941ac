#!/usr/bin/env python3
"""Run wrong programs against the theorems, in a scratch copy.

usage: seed.py MUTANTS.json OUT.jsonl [name...]
MUTANTS.json: list of {"name", "file", "def", "old", "new", "breaks": ["C05", ...], "why"}.
For each mutant: copy the compiled tree, make the edit, rebuild.  A proof that fails is cut out in the
scratch copy (the lemma is assumed there) so that the other failures show too; then every theorem of
Props*.v that uses a failed lemma, directly or through other lemmas, counts as failed.
"""
import bisect, json, os, re, shutil, subprocess, sys, time
SRC = '/verif/rocq'
TMP = os.environ.get('SEED_DIR', '/tmp/seed')
BASE = TMP + '/base'
WORK = TMP + '/work'
HEAD = re.compile(r'^\s*(?:Local\s+|Global\s+|#\[[^\]]*\]\s*)?(Lemma|Theorem|Corollary|Example|Fact|Remark|Proposition|Definition|Fixpoint|Instance)\s+([A-Za-z0-9_\']+)', re.M)

def sh(cmd, cwd, timeout=3000):
    return subprocess.run(cmd, shell=True, cwd=cwd, stdout=subprocess.PIPE, stderr=subprocess.STDOUT, text=True, timeout=timeout).stdout

def prepare():
    os.makedirs(BASE, exist_ok=True)
    sh(f'mkdir -p {BASE}/theories; cp -a {SRC}/_CoqProject {BASE}/; cp -au {SRC}/theories/. {BASE}/theories/', '/')
    out = sh('coq_makefile -f _CoqProject -o Makefile && make -j4 2>&1 | tail -3', BASE)
    print('base:', out[-300:], flush=True)

def items(text):
    """[(kind, name, start, end)] of the named items; end = start of the next one"""
    ms = list(HEAD.finditer(text))
    return [(m.group(1), m.group(2), m.start(), (ms[i+1].start() if i+1 < len(ms) else len(text))) for i, m in enumerate(ms)]

def cut(path, line):
    """assume the lemma containing this line; returns its name or None"""
    text = open(path).read()
    pos = sum(len(l)+1 for l in text.split('\n')[:line-1]) + 0
    best = None
    for kind, name, a, b in items(text):
        if a <= pos + 400 and a <= pos:
            best = (kind, name, a, b)
        # the error line may be the head line itself
        elif text.count('\n', 0, a) + 1 == line:
            best = (kind, name, a, b)
    if not best: return None
    kind, name, a, b = best
    body = text[a:b]
    m = re.search(r'\bProof\b.*?\b(Qed|Defined)\.', body, re.S)
    if not m: return None
    if body.find('Admitted.') >= 0 and body.find('Admitted.') < m.start(): return None
    new = text[:a] + body[:m.start()] + 'Proof. Admitted.' + ' ' + '\n' * body[m.start():m.end()].count('\n') + body[m.end():] + text[b:]
    open(path, 'w').write(new)
    return name

def refs(root):
    """(file, proof) -> set of (file, name) it refers to, from the .glob files coqc writes"""
    g = {}
    for f in sorted(os.listdir(root)):
        if not f.endswith('.glob'): continue
        mod, tops, rs = f[:-5], [], []
        for l in open(f'{root}/{f}'):
            d = re.match(r'(prf|def|ind|rec|inst|class) (\d+):\d+ \S+ (\S+)$', l)
            r = re.match(r'R(\d+):\d+ Verif\.(\S+) \S+ (\S+) (\w+)$', l)
            if d: tops.append((int(d.group(2)), d.group(1), d.group(3)))
            elif r and r.group(4) != 'lib': rs.append((int(r.group(1)), (r.group(2), r.group(3))))
        tops.sort()
        pos = [t[0] for t in tops]
        for _, k, n in tops:
            if k in ('prf', 'inst'): g.setdefault((mod, n), set())
        for at, x in rs:
            i = bisect.bisect_right(pos, at) - 1
            # only proofs propagate (a definition is not assumed)
            if i >= 0 and tops[i][1] in ('prf', 'inst'): g[(mod, tops[i][2])].add(x)
    return g

def run(m, graph, props):
    if os.path.exists(WORK): shutil.rmtree(WORK)
    sh(f'cp -a {BASE} {WORK}', '/')
    p = f'{WORK}/theories/{m["file"]}'
    s = open(p).read()
    edits = m.get('edits') or [[m['old'], m['new']]]
    for o, n in edits:
        if s.count(o) < 1: return {'error': 'old text not found: ' + o}
        if s.count(o) > 1 and not m.get('first'): return {'error': f'old text found {s.count(o)} times: ' + o}
        s = s.replace(o, n, 1)
    open(p, 'w').write(s)
    failed, stuck, t0 = [], [], time.time()
    for rnd in range(60):
        out = sh('make -k -j4 2>&1', WORK)
        errs = re.findall(r'File "\./theories/(\w+\.v)", line (\d+), characters [^\n]*\n((?:Error|[^\n]*\n?)?[^\n]*)', out)
        errs = []
        lines = out.split('\n')
        for i, l in enumerate(lines):
            mm = re.match(r'File "\./theories/(\w+\.v)", line (\d+), characters', l)
            if mm and i+1 < len(lines) and 'rror' in lines[i+1]: errs.append((mm.group(1), int(mm.group(2)), lines[i+1]))
        if not errs: break
        progress = False
        for f, ln, msg in errs:
            n = cut(f'{WORK}/theories/{f}', ln)
            if n: failed.append((f[:-2], n)); progress = True
            else: stuck.append(f'{f}:{ln}')
        if not progress: break
    # affected property theorems
    bad = set(failed)
    changed = True
    aff = set(bad)
    while changed:
        changed = False
        for n, r in graph.items():
            if n not in aff and r & aff: aff.add(n); changed = True
    built = {f[:-3] for f in os.listdir(f'{WORK}/theories') if f.endswith('.vo')}
    return {'failed': [n for _, n in failed], 'stuck': stuck, 'props': sorted(n for f, n in props if (f, n) in aff), 'direct': sorted(n for f, n in set(failed) & props), 'seconds': round(time.time()-t0)}

def main():
    muts = json.load(open(sys.argv[1])); outp = sys.argv[2]; sel = sys.argv[3:]
    prepare()
    root = f'{BASE}/theories'
    graph = refs(root)
    props = {(f, n) for f, n in graph if re.match(r'C\d\d+_', n)}
    for m in muts:
        if sel and m['name'] not in sel: continue
        r = run(m, graph, props)
        broken = m['breaks']
        miss = [c for c in broken if not any(t.startswith(c + '_') for t in r.get('props', []))]
        res = dict(m); res.update(r); res['missed'] = miss
        with open(outp, 'a') as f: f.write(json.dumps(res) + '\n')
        print(m['name'], 'ERROR ' + r['error'] if 'error' in r else f"failed={len(r['failed'])} stuck={r['stuck']} props={len(r['props'])} missed={miss} {r['seconds']}s", flush=True)
main()
