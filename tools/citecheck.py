import os,re,subprocess
T='/verif/rocq/theories'
allf={}
for d,_,fs in os.walk('/repo'):
    if '/.git' in d: continue
    for f in fs: allf.setdefault(f,[]).append(os.path.join(d,f))
def resolve(p):
    b=os.path.basename(p); c=allf.get(b,[])
    c2=[x for x in c if x.endswith('/'+p)]
    return c2 or c
import sys
for f in sorted(os.listdir(T)):
    if not (f.endswith('Model.v') or f in('Lifecycle.v','SMap.v','HwTypes.v')): continue
    s=open(f'{T}/{f}').read()
    for m in re.finditer(r'\(\*\*.*?\*\)',s,re.S):
        c=m.group(0); ln=s[:m.start()].count('\n')+1
        syms=re.findall(r'\[([A-Za-z_:<>~]+)\]',c)
        for q in re.finditer(r'([\w/]+(?:\.(?:h|cpp|py|srv|msg|xml))|controller_group|spawner|unspawner|scripts/controller_manager):(\d+)(?:-(\d+))?(?:[ ]*(?:\[([^\]]*)\]|\(([^)]*)\)))?',c):
            fs=resolve(q.group(1))
            lo=int(q.group(2)); hi=int(q.group(3) or lo); sym=q.group(4)
            if not fs: print(f,ln,'NOFILE',q.group(0)); continue
            ok=False; info=[]
            for x in fs:
                L=open(x).read().split('\n')
                if hi>len(L): info.append('short'); continue
                seg='\n'.join(L[lo-1:hi])
                a,b=L[lo-1].strip(),L[hi-1].strip()
                good=bool(a) and bool(b)
                if sym:
                    key=re.split(r'::|<|\.',re.sub(r'^(struct|class|enum class|enum) ','',sym))[-1].strip('> ')
                    if key not in seg: good=False; info.append('nosym '+key)
                info.append(f'{a[:50]!r} .. {b[:50]!r}')
                ok|=good
            if not ok or '-v' in sys.argv: print(f,ln,q.group(0).replace('\n',' '),info)
