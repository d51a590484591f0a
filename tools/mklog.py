#!/usr/bin/env python3
"""Merge mutation results (mutate.py outputs) into seeded/LOG.jsonl.  usage: mklog.py OUT1.jsonl OUT2.jsonl ... > LOG.jsonl
The lemmas at which coqc stopped are mapped to the property theorems resting on them through the .glob dependency graph, with extra edges
for lemmas that are used through hint databases (fj, fr, ns)."""
import json,re,sys,os,glob,bisect
T='/verif/rocq/theories/'
deps={}
for g in glob.glob(T+'*.glob'):
    mod=os.path.basename(g)[:-5]; items=[];refs=[]
    for l in open(g):
        m=re.match(r'(prf|def|thm|ind|rec|constr|coe|inst|lem|ex|scheme|fix|proj|prim|class|meth|abbrev|syndef|ax|variant) (\d+):(\d+) (\S+) (\S+)',l)
        if m: items.append((int(m.group(2)),m.group(5))); continue
        m=re.match(r'R(\d+):(\d+) Verif\.(\w+) (\S+) (\S+) (\w+)',l)
        if m: refs.append((int(m.group(1)),m.group(3)+'.'+m.group(5)))
    items.sort(); pos=[p for p,_ in items]
    for p,n in items: deps.setdefault(mod+'.'+n,set())
    for p,r in refs:
        k=bisect.bisect_right(pos,p)-1
        if k>=0: deps[mod+'.'+items[k][1]].add(r)
    src=open(T+mod+'.v').read()
    for h in re.finditer(r'Hint Resolve ([\w\s]+?) : (\w+)\.',src):
        for l in h.group(1).split(): deps.setdefault('DB.'+h.group(2),set()).add(mod+'.'+l)
    raw=src.encode()
    for k,(p,n) in enumerate(items):
        e=items[k+1][0] if k+1<len(items) else len(raw)
        b=raw[p:e].decode(errors='ignore')
        for db,w in (('fj',r'\b(js|fjt|kp|fin|fj)\b'),('fr',r'\b(frs|frb|fr1|fr)\b'),('ns',r'\bnostop_tac\b')):
            if re.search(w,b): deps[mod+'.'+n].add('DB.'+db)
byname={}
for x in list(deps):
    if not x.startswith('DB.'): byname.setdefault(x.split('.')[1],[]).append(x)
for x in list(deps):
    if x.startswith('DB.'): deps[x]={z for y in deps[x] for z in ([y] if y in deps else byname.get(y.split('.')[1],[]))}
rev={}
for a,bs in deps.items():
    for b in bs: rev.setdefault(b,set()).add(a)
def closure(roots):
    seen=set(roots);st=list(roots)
    while st:
        x=st.pop()
        for y in rev.get(x,()):
            if y not in seen: seen.add(y);st.append(y)
    return seen
if __name__=='__main__':
    titles={json.loads(l)['id']:json.loads(l)['title'] for l in open('/verif/properties.jsonl')}
    notes=json.load(open('/verif/tools/seeded_notes.json')) if os.path.exists('/verif/tools/seeded_notes.json') else {}
    for f in sys.argv[1:]:
        for l in open(f):
            d=json.loads(l); n=notes.get(d['id'],{})
            props=sorted({x for x in {y.split('.')[1] for y in closure(d['stopped']) if re.search(r'\.C\d\d_',y)}|set(d['props']) if not re.search(r'_ex\d*(_\w+)?$',x)})
            out=dict(attempt=d['id'],definition=d['file']+'.'+d['definition'],edit=d['edit'],claim_broken=d['claim'] or n.get('claim') or '; '.join(c+' ('+titles[c]+')' for c in d['breaks']) or 'see note',properties_expected=d['breaks'],
                     stopped_at=d['stopped'],theorems_failed=props,theorems_tightened=n.get('tightened',[]))
            if not d['stopped'] and d['rc']!=0: continue
            if d['rc']==0: out['survived']=True
            if 'falsified' in n: out['claims_falsified_on_test_inputs']=n['falsified']
            if 'note' in n: out['note']=n['note']
            print(json.dumps(out))
