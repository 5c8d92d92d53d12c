#!/usr/bin/env python3
"""which functions of /repo/src/elisa are cited (by line numbers) in the comments of the model: coverage.py [-a]
A bare line range in a comment belongs to the file named last before it."""
import re,glob,sys,ast,os,collections
root='/repo/src/elisa'
files={}
for p in glob.glob(root+'/**/*.py',recursive=True):
    files.setdefault(os.path.basename(p),[]).append(os.path.relpath(p,root))
cov=collections.defaultdict(lambda: collections.defaultdict(set))
for v in sorted(glob.glob(os.path.dirname(os.path.abspath(__file__))+'/../rocq/theories/*.v')):
    t=open(v).read(); name=os.path.basename(v)
    if name.startswith('Prop_') or name.endswith('Proofs.v') : continue
    cur=None
    for c in re.finditer(r'\(\*.*?\*\)',t,re.S):
        s=c.group(0)
        for m in re.finditer(r'((?:[\w/]+/)?\w+\.py)|(?<![\w.\-])(\d{2,4})(?:-(\d{2,4}))?(?![\w.])',s):
            if m.group(1):
                b=os.path.basename(m.group(1)); cand=files.get(b,[])
                cand=[x for x in cand if x.endswith(m.group(1))] or cand
                cur=cand[0] if cand else cur
            elif cur:
                a=int(m.group(2)); b=int(m.group(3) or a)
                if a<=b<a+700: cov[cur][name[:-2]].update(range(a,b+1))
tot=[0,0]
for rel in sorted(sum(files.values(),[])):
    tree=ast.parse(open(root+'/'+rel).read())
    out=[]
    def walk(n,p=''):
        for c in getattr(n,'body',[]):
            if isinstance(c,(ast.FunctionDef,ast.ClassDef)):
                q=p+c.name
                if isinstance(c,ast.FunctionDef):
                    body=c.body
                    if isinstance(body[0],ast.Expr) and isinstance(getattr(body[0],'value',None),ast.Constant) and len(body)>1: body=body[1:]
                    L=set(range(body[0].lineno,c.end_lineno+1))
                    hit={k:len(L&x) for k,x in cov[rel].items() if L&x}
                    n_=len(L&set().union(*cov[rel].values())) if cov[rel] else 0
                    out.append((q,c.lineno,c.end_lineno,n_,len(L),hit)); tot[0]+=n_; tot[1]+=len(L)
                walk(c,q+'.')
    walk(tree)
    if not out: continue
    print('##',rel)
    for q,a,b,k,n,hit in out:
        if '-a' in sys.argv or k<0.5*n: print(f'  {a}-{b} {q} {k}/{n}',' '.join(sorted(hit)))
print(tot)
