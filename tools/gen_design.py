#!/usr/bin/env python3
"""Rebuild sections 3 and 5 of DESIGN.md from properties.jsonl, MANIFEST.json, tools/methods.json and the
recorded output of Print Assumptions (tools/assumptions.json)."""
import json,re,os
V='/verif/'
P=[json.loads(l) for l in open(V+'properties.jsonl')]
M={c['property']:c for c in json.load(open(V+'MANIFEST.json'))['claims']}
A=json.load(open(V+'tools/assumptions.json'))
W=json.load(open(V+'tools/methods.json'))
SH={'ClassicalDedekindReals.sig_not_dec':'N','ClassicalDedekindReals.sig_forall_dec':'F','FunctionalExtensionality.functional_extensionality_dep':'E','Classical_Prop.classic':'C'}
def ax(t):
    if t not in A: return '?'
    s=''.join(sorted(SH.get(x,x) for x in A[t][1]))
    return s or '-'
t=open(V+'DESIGN.md').read()
def put(t,tag,body):
    b='<!-- %s begin -->'%tag;e='<!-- %s end -->'%tag
    i=t.index(b)+len(b);j=t.index(e)
    return t[:i]+'\n'+body+'\n'+t[j:]
rows=['| Id | Property | What is modelled | How it is proved | Status |','|----|----|----|----|----|']
for p in P:
    m=M[p['id']];w=W.get(p['id'],['','']);
    comp=sorted({A[x][0].replace('Theorems','') for x in m['theorems'] if x in A})
    rows.append('| %s | %s | %s (`%s`) | %s | %s |'%(p['id'],p['title'].replace('|','/'),w[0],', '.join(comp),w[1],m['status']))
t=put(t,'plan','\n'.join(rows))
rows=[]
for p in P:
    m=M[p['id']]
    rows.append('* %s: '%p['id']+', '.join('`%s` %s'%(x,ax(x)) for x in m['theorems']))
t=put(t,'axioms','\n'.join(rows))
open(V+'DESIGN.md','w').write(t)
miss=[x for p in P for x in M[p['id']]['theorems'] if x not in A]
print('theorems without record:',len(miss),miss[:10])
print('properties without method:',[p['id'] for p in P if p['id'] not in W])
