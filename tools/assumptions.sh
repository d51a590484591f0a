#!/bin/bash
# Regenerates /verif/ASSUMPTIONS.txt from a built tree: Print Assumptions of every theorem in MANIFEST.json.
cd /verif/rocq
T=$(mktemp -d)
python3 - > $T/A.v <<'P'
import re,glob,json,os
want=[t for c in json.load(open('/verif/MANIFEST.json'))['claims'] for t in c['theorems']]
files=sorted(glob.glob('theories/Prop*.v'))
print('From Verif Require '+' '.join(os.path.basename(f)[:-2] for f in files)+'.')
where={}
for f in files:
    for m in re.finditer(r'^Theorem (C\d\d_\w+)',open(f).read(),re.M): where[m.group(1)]=os.path.basename(f)[:-2]
for t in want: print(f'Print Assumptions {where[t]}.{t}.')
P
grep '^Print' $T/A.v | sed 's/Print Assumptions //; s/\.$//' > $T/names
coqc -Q theories Verif $T/A.v > $T/out 2>&1
python3 - $T/names $T/out > /verif/ASSUMPTIONS.txt <<'P'
import sys,re
names=[l.strip() for l in open(sys.argv[1])]
txt=open(sys.argv[2]).read()
parts=re.split(r'(?m)^(?=Closed under the global context|Axioms:)',txt)
parts=[p.strip() for p in parts if p.strip()]
assert len(parts)==len(names),(len(parts),len(names),parts[:2])
for n,p in zip(names,parts): print(n+': '+' '.join(p.split()))
P
rm -r $T
