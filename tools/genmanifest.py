#!/usr/bin/env python3
# writes /verif/MANIFEST.json: the theorems of each property are those named Cnn_* in theories/Prop*.v
import json,re,glob,collections
T=collections.defaultdict(list)
for f in sorted(glob.glob('/verif/rocq/theories/Prop*.v')):
    for m in re.finditer(r'^Theorem\s+(C(\d\d)_\w+)',open(f).read(),re.M): T['C'+m.group(2)].append(m.group(1))
exec(open('/verif/tools/notes.py').read())
ids=[json.loads(l)['id'] for l in open('/verif/properties.jsonl')]
claims=[]
for i in ids:
    st,note=NOTES.get(i,('proved',''))
    if not T[i]: st='partial'; note=note or 'not yet proved'
    claims.append(dict(property=i,status=st,theorems=T[i],note=note))
json.dump(dict(claims=claims),open('/verif/MANIFEST.json','w'),indent=1)
print({s:[c['property'] for c in claims if c['status']==s] for s in ('partial','not_applicable')}, sum(len(c['theorems']) for c in claims))
for k in T:
    if k not in ids: print('no property',k)
