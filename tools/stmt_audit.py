#!/usr/bin/env python3
"""For every property theorem: the definitions its statement mentions that live in proof files (P*.v), i.e. outside the model
(M*.v) and the specification files (*Spec.v, Spec.v, Base.v)."""
import re,glob,os,sys,bisect
D='/verif/rocq/theories/'
home={}
bad={}
for g in sorted(glob.glob(D+'Prop*.glob')):
    mod=os.path.basename(g)[:-5]; src=open(D+mod+'.v','rb').read()
    ths=[(m.start(),m.group(1).decode()) for m in re.finditer(rb'(?:Theorem|Definition|Record|Fixpoint|Inductive)\s+([\w\']+)',src)]
    spans=[]
    for m in re.finditer(rb'Theorem\s+(C\d\d_[\w\']+)',src):
        end=src.index(b'Proof',m.start()); spans.append((m.start(),end,m.group(1).decode()))
    for l in open(g):
        m=re.match(r'R(\d+):(\d+) Verif\.(\w+) (\S+) (\S+) (\w+)',l)
        if not m: continue
        p=int(m.group(1)); h=m.group(3)
        for a,b,n in spans:
            if a<=p<b and re.match(r'(P[A-Z]\w*|Prop\w*|Check|SumQ|DetZ?)$',h) and not h.endswith('Spec'):
                if m.group(6) in('def','ind','rec','proj','constr'):
                    bad.setdefault((h,m.group(5)),set()).add(n)
for k in sorted(bad): print('.'.join(k),':',', '.join(sorted(bad[k])))
