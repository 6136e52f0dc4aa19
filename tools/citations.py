#!/usr/bin/env python3
"""Check the source citations in the model comments: every cited line range must exist,
and a symbol named right after a range must occur inside it."""
import re, os, glob, sys, collections
repo='/repo'; idx=collections.defaultdict(list)
for d,_,fs in os.walk(repo):
    if '/.git' in d: continue
    for f in fs: idx[f].append(os.path.join(d,f))
bad=0; n=0; m=0
for p in sorted(glob.glob(os.path.dirname(__file__)+'/../rocq/theories/*.v')):
    for i,l in enumerate(open(p),1):
        for mm in re.finditer(r'([\w./]+\.(?:F90|hpp|cpp|h|py|txt))(?::|, lines? | lines? )(\d+)(?:-(\d+))?(?: \[?([A-Za-z_]\w*))?',l):
            f,a,b,sym=mm.groups(); a=int(a); b=int(b or a); n+=1
            c=[x for x in idx[os.path.basename(f)] if x.endswith('/'+f)]
            if not c: print(f'{p}:{i}: no file {f}'); bad+=1; continue
            ok=False; symok=False
            for x in c:
                L=open(x,errors='replace').read().split('\n')
                if 1<=a<=b<=len(L):
                    ok=True
                    if sym and re.search(re.escape(sym),'\n'.join(L[a-1:b])): symok=True
                    src='\n'.join(L)
            if not ok: print(f'{p}:{i}: range {f}:{a}-{b}'); bad+=1
            elif sym and '_' in sym and not symok: print(f'{os.path.basename(p)}:{i}: {sym} not in {f}:{a}-{b}'); m+=1
print(n,'citations',bad,'bad ranges',m,'symbols to check')
