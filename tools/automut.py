#!/usr/bin/env python3
"""Find edits of the model that no proof notices.

usage: automut.py OUT.jsonl [-n MAX_PER_DEFINITION] [-s SEED] FILE.v[:def,def...] ...
Small edits (conditions negated, and/or, true/false, neighbouring branches exchanged, operands
exchanged, numbers off by one, an update dropped) are made to the definitions of the given model
files in a scratch copy, one at a time, and the copy is rebuilt up to the first failing proof.  An
edit that nothing notices is either harmless or a gap in the theorems, to be judged by hand.
"""
import json, os, random, re, shutil, subprocess, sys, time
SRC = '/verif/rocq'; BASE = '/tmp/auto/base'; WORK = '/tmp/auto/work'
HEAD = re.compile(r'^(Definition|Fixpoint)\s+([A-Za-z0-9_\']+)', re.M)
STOP = re.compile(r'^(Definition|Fixpoint|Record|Inductive|Lemma|Theorem|Section|End|Arguments|Notation|\(\*\*|Context|From|Local|Implicit|Example|Ltac|Instance|Variant|Coercion|Scheme)', re.M)

def sh(cmd, cwd, timeout=3000):
    r = subprocess.run(cmd, shell=True, cwd=cwd, stdout=subprocess.PIPE, stderr=subprocess.STDOUT, text=True, timeout=timeout)
    return r.returncode, r.stdout

def defs(text):
    for m in HEAD.finditer(text):
        n = STOP.search(text, m.end())
        end = n.start() if n else len(text)
        body = text.find(':=', m.end(), end)
        if body >= 0: yield m.group(2), body + 2, end

PAIRS = [(r'\btrue\b', 'false'), (r'\bfalse\b', 'true'), (r'&&', '||'), (r'\|\|', '&&'), (r'\bnegb ', ''),
         (r'\bfst\b', 'snd'), (r'\bsnd\b', 'fst'), (r'\bfmax\b', 'fmin'), (r'\bfmin\b', 'fmax'),
         (r'\badd\b', 'sub'), (r'\bsub\b', 'add'), (r'<=\?', '<?'), (r'<\?', '<=?'), (r'=\?', '<=?'),
         (r'\bexistsb\b', 'forallb'), (r'\bforallb\b', 'existsb'), (r'(?<=[ (\[])0(?=[ )\];])', '1'), (r'(?<=[ (\[])1(?=[ )\];])', '0'),
         (r'(?<=[ (\[])2(?=[ )\];])', '1'), (r'\bS ', ''), (r'\brev ', ''), (r' \+ ', ' - '), (r' - ', ' + '), (r' \* ', ' + ')]

def mutants(body):
    """(offset, old, new)"""
    for pat, new in PAIRS:
        for m in re.finditer(pat, body): yield m.start(), m.group(0), new
    for m in re.finditer(r'\bif\s+((?:(?!\bthen\b|\bif\b|\bmatch\b).)+?)\s+then\b', body, re.S):
        yield m.start(), m.group(0), 'if negb (' + m.group(1) + ') then'
        yield m.start(), m.group(0), 'if true then'
        yield m.start(), m.group(0), 'if false then'
    for m in re.finditer(r'(?<![\w.])([a-z_][\w\'.]*|\((?:[^()]|\([^()]*\))*\)|\[[^\[\]]*\]) \+\+ ([a-z_][\w\'.]*|\((?:[^()]|\([^()]*\))*\)|\[[^\[\]]*\])', body):
        yield m.start(), m.group(0), m.group(2) + ' ++ ' + m.group(1)
        yield m.start(), m.group(0), m.group(1)
        yield m.start(), m.group(0), m.group(2)
    # exchange the results of neighbouring branches
    br = list(re.finditer(r'\|([^|=]*?)=>([^|]*?)(?=\||\bend\b)', body, re.S))
    for a, b in zip(br, br[1:]):
        if a.end() == b.start() and 'match' not in a.group(2) and 'match' not in b.group(2) and a.group(2).strip() != b.group(2).strip():
            yield a.start(), body[a.start():b.end()], '|' + a.group(1) + '=>' + b.group(2).rstrip() + '\n  |' + b.group(1) + '=>' + a.group(2).rstrip() + '\n  '
    for a in br:
        for b in br:
            if a is not b and 'match' not in a.group(2) and 'match' not in b.group(2) and a.group(2).strip() != b.group(2).strip() and abs(br.index(a)-br.index(b)) == 1:
                yield a.start(), a.group(0), '|' + a.group(1) + '=>' + b.group(2).rstrip() + '\n  '
    # two simple arguments of an application exchanged
    for m in re.finditer(r'\(([a-z_][\w\']*) ((?:[a-z_][\w\']* )*?)([a-z_][\w\']*) ([a-z_][\w\']*)\)', body):
        if m.group(3) != m.group(4):
            yield m.start(), m.group(0), '(' + m.group(1) + ' ' + m.group(2) + m.group(4) + ' ' + m.group(3) + ')'
    # an update dropped: (f .. x) -> x
    for m in re.finditer(r'\((?:set|with|upd|add|push|sset|sdel|emit|log)_?\w*((?: (?:[\w\'.]+|\((?:[^()]|\([^()]*\))*\)))+)\)', body):
        args = re.findall(r'[\w\'.]+|\((?:[^()]|\([^()]*\))*\)', m.group(1))
        for x in (args[0], args[-1]): yield m.start(), m.group(0), x

def main():
    out = sys.argv[1]; args = sys.argv[2:]; maxn = 8; seed = 1; files = []
    while args:
        a = args.pop(0)
        if a == '-n': maxn = int(args.pop(0))
        elif a == '-s': seed = int(args.pop(0))
        else: files.append(a)
    os.makedirs(BASE, exist_ok=True)
    # the last commit, keeping the time stamps of unchanged files
    sh(f'rm -rf {BASE}.new && mkdir -p {BASE}.new && git -C /verif archive HEAD rocq | tar x -C {BASE}.new', '/')
    os.makedirs(BASE + '/theories', exist_ok=True)
    for dirpath, _, names in os.walk(BASE + '.new/rocq'):
        for n in names:
            src = os.path.join(dirpath, n); dst = os.path.join(BASE, os.path.relpath(src, BASE + '.new/rocq'))
            os.makedirs(os.path.dirname(dst), exist_ok=True)
            if not os.path.exists(dst) or open(src, 'rb').read() != open(dst, 'rb').read(): shutil.copyfile(src, dst)
    rc, o = sh('coq_makefile -f _CoqProject -o Makefile && make -j4 2>&1', BASE)
    print(o[-300:], flush=True)
    if rc: sys.exit('the unchanged copy does not build')
    done = set()
    if os.path.exists(out):
        for l in open(out):
            d = json.loads(l); done.add((d['file'], d['def'], d['at'], d['new']))
    rnd = random.Random(seed)
    for spec in files:
        f, _, only = spec.partition(':'); only = set(only.split(',')) if only else None
        text = open(f'{BASE}/theories/{f}').read()
        for name, a, b in list(defs(text)):
            if only and name not in only: continue
            body = text[a:b]
            ms = []
            for m in mutants(body):
                if m not in ms: ms.append(m)
            rnd.shuffle(ms)
            n = 0
            for at, old, new in ms:
                if n >= maxn: break
                if (f, name, at, new) in done: n += 1; continue
                t0 = time.time()
                mutated = text[:a] + body[:at] + new + body[at+len(old):] + text[b:]
                if os.path.exists(WORK): shutil.rmtree(WORK)
                sh(f'cp -a {BASE} {WORK}', '/')
                open(f'{WORK}/theories/{f}', 'w').write(mutated)
                rc, o = sh(f'timeout 120 coqc -Q theories Verif theories/{f}', WORK)
                if rc: continue
                n += 1
                rc, o = sh('timeout 2400 make -j3 2>&1', WORK)
                err = re.search(r'File "\./theories/(\w+)\.v", line (\d+)', '\n'.join(l for i, l in enumerate(o.split('\n')) if i+1 < len(o.split('\n')) and 'rror' in o.split('\n')[i+1]))
                where = None
                if err:
                    t = open(f'{WORK}/theories/{err.group(1)}.v').read().split('\n')
                    for k in range(int(err.group(2))-1, -1, -1):
                        mm = re.match(r'\s*(Lemma|Theorem|Example|Corollary|Definition|Fact|Fixpoint)\s+([\w\']+)', t[k])
                        if mm: where = err.group(1) + '.' + mm.group(2); break
                rec = dict(file=f, **{'def': name}, at=at, old=old, new=new, survived=(rc == 0), first_failure=where, seconds=round(time.time()-t0))
                with open(out, 'a') as fh: fh.write(json.dumps(rec) + '\n')
                print('SURVIVED' if rc == 0 else 'caught', f, name, repr(old[:70]), '->', repr(new[:70]), where, rec['seconds'], flush=True)
main()
