import json,re,subprocess,glob,os
man=json.load(open('/verif/MANIFEST.json'))
names=[]
for c in man['claims']:
    for t in c['theorems']:
        if t not in names: names.append(t)
mods=[os.path.basename(f)[:-2] for f in glob.glob('/verif/rocq/theories/*.v')]
where={}
for f in glob.glob('/verif/rocq/theories/*.v'):
    for m in re.finditer(r'^\s*(?:Theorem|Lemma|Corollary)\s+(\w+)',open(f).read(),re.M): where.setdefault(m.group(1),os.path.basename(f)[:-2])
used=sorted({where[n] for n in names})
src='From Coq Require Import String.\n'+''.join(f'From Verif Require {m}.\n' for m in used)
for n in names: src+=f'Goal True. idtac "@@ {n}". Abort.\nPrint Assumptions {where[n]}.{n}.\n'
open('pa.v','w').write(src)
r=subprocess.run('coqc -Q /verif/rocq/theories Verif pa.v',shell=True,capture_output=True,text=True)
out=r.stdout; print(r.stderr[-500:] if r.returncode else 'ok')
res={}
for part in out.split('@@ ')[1:]:
    n=part.split()[0]; ax=sorted(set(re.findall(r'^([A-Za-z_][\w.]*)\s*$|^([A-Za-z_][\w.]*)\s*:',part.split('\n',1)[1],re.M)))
    ax=sorted({a or b for a,b in ax}-{'Axioms'})
    res[n]=ax
json.dump(dict(res=res,where=where),open('pa.json','w'))
from collections import Counter
print(Counter(tuple(v) for v in res.values()))
