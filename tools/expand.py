#!/usr/bin/env python3
"""Expand @@Theorem_name = Lfile.lemma_name in tools/P*.in into theories/P*.v: the
statement of the lemma is copied, proved by `exact lemma.` and followed by
Print Assumptions.  Everything else is copied verbatim."""
import re,sys,os
T=os.path.join(os.path.dirname(os.path.abspath(__file__)),'..','rocq','theories')
cache={}
def stmt(f,name):
    if f not in cache: cache[f]=open(os.path.join(T,f+'.v')).read()
    m=re.search(r'(?:Lemma|Theorem) '+re.escape(name)+r'\b(.*?)\.\s+Proof\.',cache[f],re.S)
    if not m: raise SystemExit(f'{f}.{name} not found')
    body=m.group(1)
    # split binders at first top-level ' :'
    d=0
    for i,c in enumerate(body):
        if c in '([{': d+=1
        elif c in ')]}': d-=1
        elif c==':' and d==0: break
    b=body[:i].strip(); s=body[i+1:].strip()
    return (('forall '+b+',\n  '+s) if b and '{' not in b else s), (b if '{' in b else '')
for fn in sys.argv[1:]:
    src=open(fn).read()
    out=[];pend=None
    for line in src.split('\n'):
        m=re.match(r'@@(\w+) = (\w+)\.(\w+)$',line)
        if m:
            n,f,l=m.groups()
            st,b=stmt(f,l)
            out.append(f'Theorem {n}{" " + b if b else ""} : {st}.\nProof. exact {l}. Qed.\nPrint Assumptions {n}.')
        else: out.append(line)
    o=os.path.join(T,os.path.basename(fn).replace('.in','.v'))
    open(o,'w').write('\n'.join(out))
