import json,re,os,subprocess
man=json.load(open('/verif/MANIFEST.json')); props={}
for l in open('/verif/properties.jsonl'):
    d=json.loads(l); props[d['id']]=d
root='/verif/rocq/theories'
where={}
for f in sorted(os.listdir(root)):
    if f.startswith('Props') and f.endswith('.v'):
        for n in re.findall(r'^Theorem\s+(\w+)', open(f'{root}/{f}').read(), re.M): where[n]=f
ax=subprocess.run(['python3','/verif/tools/assumptions.py'],stdout=subprocess.PIPE,text=True).stdout
m=re.search(r'^(\d+) theorems: Classical.*\n\s+(.*)$',ax,re.M)
four=list(dict.fromkeys(m.group(2).split()))
text=open('/verif/tools/design_head.md').read()
rows=[]
for c in man['claims']:
    fs=sorted({where[t] for t in c['theorems'] if t in where})
    rows.append(f"| {c['property']} | {props[c['property']]['title']} | {', '.join(fs)} | {c['status']} | {', '.join('`'+t+'`' for t in dict.fromkeys(c['theorems']))} |")
table="| id | property | file | status | theorems |\n|---|---|---|---|---|\n"+'\n'.join(rows)
axs=("Every other theorem named in MANIFEST.json is *closed under the global context* (no axiom at all).  These "
 f"{len(four)} theorems are about IEEE 754 doubles through Flocq and the standard library's reals; `Print Assumptions` lists for each of them exactly these four axioms of the Coq standard library:\n\n"
 "* `ClassicalDedekindReals.sig_forall_dec`\n* `ClassicalDedekindReals.sig_not_dec`\n* `Classical_Prop.classic`\n* `FunctionalExtensionality.functional_extensionality_dep`\n\n"
 "The theorems: "+', '.join('`'+t+'`' for t in four)+".")
text=text.replace('@@TABLE@@',table).replace('@@AXIOMS@@',axs)
open('/verif/DESIGN.md','w').write(text)
