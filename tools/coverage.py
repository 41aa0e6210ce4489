"""List the functions of /repo and whether a comment of the model cites lines inside them."""
import ast,glob,os,re,collections
cites=collections.defaultdict(list)
for f in glob.glob('/verif/rocq/theories/*.v'):
    s=open(f).read()
    for c in re.findall(r'\(\*.*?\*\)',s,re.S):
        last=None
        for m in re.finditer(r'(\w+\.py)(?::\s*|\s+)?((?:\d+(?:-\d+)?(?:,\s*|\s+and\s+)?)*)',c):
            last=m.group(1)
            for a,b in re.findall(r'(\d+)(?:-(\d+))?',m.group(2)): cites[last].append((int(a),int(b or a)))
        if last is None:
            # "Lines a-b" in a file about a single source
            h=re.search(r'rosemary/[\w/]*/(\w+\.py)',s)
            if h:
                for m in re.finditer(r'[Ll]ines? (\d+)(?:-(\d+))?',c): cites[h.group(1)].append((int(m.group(1)),int(m.group(2) or m.group(1))))
tot=cov=0
for p in sorted(glob.glob('/repo/rosemary/**/*.py',recursive=True)):
    if '__init__' in p or '/test' in p: continue
    t=ast.parse(open(p).read()); b=os.path.basename(p)
    un=[]; n=0
    def walk(node,pre=''):
        global tot,cov
        global n_,un_
        for x in node.body:
            if isinstance(x,ast.ClassDef): walk(x,x.name+'.')
            elif isinstance(x,ast.FunctionDef):
                tot+=1; n_+=1
                if any(not(b2<x.lineno or a2>x.end_lineno) for a2,b2 in cites[b]): cov+=1
                else: un_.append(f'{pre}{x.name} ({x.lineno}-{x.end_lineno})')
    n_=0; un_=[]
    walk(t)
    print(f"{p[6:]}: {n_-len(un_)}/{n_}"+(': missing '+', '.join(un_) if un_ else ''))
print(cov,tot)
