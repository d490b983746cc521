#!/usr/bin/env python3
"""register a new property: addprop.py <json file with id,title,statement,quantifier,why,anchors,theorems,note,method,files>"""
import json,sys,os,re,subprocess
os.chdir(os.path.join(os.path.dirname(os.path.abspath(__file__)),'..'))
d=json.load(open(sys.argv[1]))
f='tools/gen_properties.py';s=open(f).read()
s=s.replace('if __name__ == "__main__":','p(%s, %s,\n  %s,\n  %s, %s,\n  %s)\nif __name__ == "__main__":'%tuple(json.dumps(d[k],ensure_ascii=False) for k in('id','title','statement','quantifier','why','anchors')),1)
open(f,'w').write(s)
f='tools/claims.py';s=open(f).read()
i=s.rindex("\nclaim(");j=s.index("\n",i+1)
s=s[:j+1]+"claim(%r,'proved',%r,%r)\n"%(d['id'],d['theorems'],d.get('note',''))+s[j+1:]
open(f,'w').write(s)
f='tools/gen_design.py';s=open(f).read()
prev='C%02d'%(int(d['id'][1:])-1)
m=re.search(r"'%s': (?:'[^']*'|\"[^\"]*\"),"%prev,s)
s=s[:m.end()]+" %r: %r,"%(d['id'],d['method'])+s[m.end():]
open(f,'w').write(s)
f='rocq/_CoqProject';s=open(f).read()
for x in d.get('files',[]):
    if 'theories/%s\n'%x not in s: s=s.rstrip('\n')+'\ntheories/%s\n'%x
open(f,'w').write(s)
for t in('gen_properties','gen_manifest','gen_design'): subprocess.run(['python3','tools/%s.py'%t],check=True)
