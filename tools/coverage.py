#!/usr/bin/env python3
"""List the Go functions of /repo that no comment of the model cites."""
import re,glob,os
cited={}
for f in glob.glob('/verif/rocq/theories/*.v'):
    s=open(f).read()
    for c in re.findall(r'\(\*.*?\*\)',s,re.S):
        c=' '.join(c.split())
        cur=None
        for m in re.finditer(r'((?:gokio/)?\w+\.go)|(\d+)\s*-\s*(\d+)|(?<![\w.])(\d+)(?![\w.])',c):
            if m.group(1): cur=m.group(1); cited.setdefault(cur,set())
            elif cur and m.group(2):
                a,b=int(m.group(2)),int(m.group(3))
                if b-a<3000: cited[cur].update(range(a,b+1))
            elif cur and m.group(4): cited[cur].add(int(m.group(4)))
tot=un=0
for g in sorted(glob.glob('/repo/*.go')+glob.glob('/repo/gokio/*.go')):
    if g.endswith('_test.go'): continue
    n=os.path.relpath(g,'/repo')
    L=open(g).read().split('\n')
    miss=[]
    for i,l in enumerate(L):
        if l.startswith('func '):
            j=i
            while j<len(L) and L[j]!='}' : j+=1
            if l.rstrip().endswith('}'): j=i
            tot+=1
            C=cited.get(n,set()) | cited.get(os.path.basename(n),set())
            if not any(k in C for k in range(i+1,j+2)):
                miss.append((i+1,l)); un+=1
    if miss:
        print(n,len(miss))
        for a,b in miss[:12 if len(miss)>40 else 60]: print('   ',a,b[:110])
print(tot,un)
