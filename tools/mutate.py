#!/usr/bin/env python3
"""Seeded-bug runner.  usage: mutate.py MUTANTS.json OUT.jsonl [ids...]
Each mutant: {"id","file","old","new","definition","edit","breaks":[ids],"claim"}; applied in a scratch copy of /verif/rocq
(with compiled files), rebuilt with make -k; the lemmas at which coqc stops are mapped, through the dependency graph in the .glob
files of the unmodified development, to the property theorems that rest on them."""
import json,os,re,subprocess,sys,shutil,time,glob
SRC=os.environ.get('MUTSRC','/verif/rocq'); W=os.environ.get('MUTW','/tmp/mut/rocq')
def parse_globs():
    deps={}; hints={}; imports={}
    for g in glob.glob(SRC+'/theories/*.glob'):
        mod=os.path.basename(g)[:-5]
        items=[];refs=[]
        for l in open(g):
            m=re.match(r'(prf|def|thm|ind|rec|constr|coe|inst|lem|ex|scheme|not|fix|proj|var|prim|class|meth|abbrev|syndef|ax|variant|corec|coind|binder|lib|mod|modtype|sec) (\d+):(\d+) (\S+) (\S+)',l)
            if m:
                if m.group(1) in('binder','not','lib','sec','var','mod'): continue
                items.append((int(m.group(2)),m.group(5))); continue
            m=re.match(r'R(\d+):(\d+) Verif\.(\w+) (\S+) (\S+) (\w+)',l)
            if m: refs.append((int(m.group(1)),m.group(3)+'.'+m.group(5)))
        items.sort()
        import bisect
        pos=[p for p,_ in items]
        for p,n in items: deps.setdefault(mod+'.'+n,set())
        # lemmas named in Hint and Ltac commands: everything after them, here and in files that import this one, may use them
        src=open(SRC+'/theories/'+mod+'.v').read() if os.path.exists(SRC+'/theories/'+mod+'.v') else ''
        names={n for _,n in items}
        for m in re.finditer(r'(?m)^[ \t]*(?:Local |Global |#\[.*?\] *)?(?:Hint|Ltac|Tactic Notation)\b.*?\.[ \t]*$',src,re.S):
            for w in set(re.findall(r"[\w']+",m.group(0)))&names: hints.setdefault(mod,[]).append((len(src[:m.start()].encode()),mod+'.'+w))
        imports[mod]={l.split()[1][6:] for l in open(g) if re.match(r'R\d+:\d+ Verif\.\w+ <> <> lib',l)}
        for p,r in refs:
            k=bisect.bisect_right(pos,p)-1
            if k>=0: deps[mod+'.'+items[k][1]].add(r)
        for p,r in hints.get(mod,[]):
            for q,n in items:
                if q>p: deps[mod+'.'+n].add(r)
    for mod,im in imports.items():
        rs={r for h in im for _,r in hints.get(h,[])}
        if rs:
            for x in list(deps):
                if x.startswith(mod+'.'): deps[x]|=rs
    return deps
def closure_rev(deps,roots):
    rev={}
    for a,bs in deps.items():
        for b in bs: rev.setdefault(b,set()).add(a)
    seen=set(roots);st=list(roots)
    while st:
        x=st.pop()
        for y in rev.get(x,()):
            if y not in seen: seen.add(y);st.append(y)
    return seen
def enclosing(path,line):
    ls=open(path).read().split('\n')
    for k in range(min(line,len(ls))-1,-1,-1):
        m=re.match(r'\s*(?:Local |Global |#\[.*?\] *)?(Lemma|Theorem|Corollary|Definition|Fixpoint|Example|Fact|Remark|Goal|Record|Inductive|Instance)\s+([\w\']+)',ls[k])
        if m: return m.group(2)
    return None
def main():
    muts=json.load(open(sys.argv[1])); out=sys.argv[2]; only=sys.argv[3:]
    deps=parse_globs()
    if not os.path.exists(W): shutil.copytree(SRC,W,copy_function=shutil.copy2)
    for m in muts:
        if only and m['id'] not in only: continue
        subprocess.run(['rsync','-a','--delete',SRC+'/',W+'/']) if shutil.which('rsync') else (shutil.rmtree(W),subprocess.run(['cp','-a',SRC,W]))
        f=W+'/theories/'+m['file']+'.v'; t=open(f).read()
        c=t.count(m['old'])
        if c!=m.get('count',1): print(m['id'],'BAD MATCH',c); continue
        open(f,'w').write(t.replace(m['old'],m['new']))
        t0=time.time()
        p=subprocess.run('timeout 1500 make %s -j4 COQEXTRAFLAGS="-w none"'%('' if os.environ.get('MUTFAST') else '-k'),shell=True,cwd=W,capture_output=True,text=True)
        log=p.stdout+p.stderr
        fails=[]
        for mm in re.finditer(r'File "\./theories/(\w+)\.v", line (\d+).*?\n(?!Warning)',log):
            n=enclosing(W+'/theories/'+mm.group(1)+'.v',int(mm.group(2)))
            fails.append(mm.group(1)+'.'+str(n))
        fails=sorted(set(fails))
        aff=closure_rev(deps,fails)
        props=sorted({x.split('.')[1] for x in aff if re.search(r'\.C\d\d_',x)})
        exp=m.get('breaks',[])
        missing=[b for b in exp if not any(x.startswith(b) for x in props)]
        r=dict(id=m['id'],file=m['file'],definition=m['definition'],edit=m['edit'],claim=m['claim'],breaks=exp,rc=p.returncode,stopped=fails,props=props,missing=missing,secs=round(time.time()-t0))
        open(out,'a').write(json.dumps(r)+'\n')
        print(m['id'],'SURVIVED' if p.returncode==0 else 'killed',fails,len(props),'missing',missing,r['secs'],'s',flush=True)
        if p.returncode!=0 and not fails: print(log[-800:])
main()
