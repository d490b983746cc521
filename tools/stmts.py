#!/usr/bin/env python3
"""print the statements of the claimed theorems: stmts.py [C01 ...]"""
import re,sys,glob,os
ids=sys.argv[1:]
for f in sorted(glob.glob(os.path.join(os.path.dirname(__file__),'../rocq/theories/*.v'))):
    t=open(f).read()
    for m in re.finditer(r'((?:\(\*\*(?:(?!\*\)).)*\*\)\s*)?)^\s*(Theorem|Corollary|Lemma|Example) (C\d\d\w*)(.*?)^\s*Proof',t,re.S|re.M):
        if not ids or m.group(3)[:3] in ids: print(f"[{os.path.basename(f)}]",m.group(1)+m.group(2),m.group(3)+m.group(4))
