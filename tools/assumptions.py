#!/usr/bin/env python3
"""Compile every *Theorems.v of a built copy and record what Print Assumptions lists.
usage: assumptions.py BUILT_COPY OUT.json [Component...]"""
import re,sys,glob,os,json,subprocess
os.makedirs('/tmp/asm_out',exist_ok=True)
src,out=sys.argv[1],sys.argv[2]
res=json.load(open(out)) if os.path.exists(out) else {}
for f in sorted(glob.glob(src+'/theories/*Theorems*.v')):
    n=os.path.basename(f)[:-2]
    if len(sys.argv)>3 and n not in sys.argv[3:]: continue
    names=re.findall(r'Print Assumptions\s+([\w.\']+?)\.\s',open(f).read()+'\n')
    p=subprocess.run(['coqc','-Q','theories','Verif','-o','/tmp/asm_out/%s.vo'%n,'theories/%s.v'%n],cwd=src,capture_output=True,text=True)
    blocks=[];cur=None
    for l in p.stdout.split('\n'):
        if l.startswith('Closed under the global context'): blocks.append([]);cur=None
        elif l.startswith('Axioms:'): cur=[];blocks.append(cur)
        elif cur is not None and re.match(r'^[A-Za-z_][\w.\']*( :|$)',l): cur.append(l.split(' ')[0])
    if p.returncode or len(blocks)!=len(names): print('PROBLEM',n,p.returncode,len(blocks),len(names),p.stderr[-300:])
    for a,b in zip(names,blocks): res[a]=[n,b]
json.dump(res,open(out,'w'),indent=0,sort_keys=True)
