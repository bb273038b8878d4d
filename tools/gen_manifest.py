#!/usr/bin/env python3
# Generates /verif/MANIFEST.json: theorem names are collected from rocq/theories/Properties*.v.
import json,re,glob
thms={}
for f in sorted(glob.glob('/verif/rocq/theories/Properties*.v')):
    for m in re.finditer(r'^(?:Theorem|Lemma|Corollary)\s+(C\d+)(_\w+)',open(f).read(),re.M):
        thms.setdefault(m.group(1),[]).append(m.group(1)+m.group(2))
props=[json.loads(l)['id'] for l in open('/verif/properties.jsonl')]
exec(open('/verif/tools/notes.py').read())   # STATUS, NOTE
claims=[]
for p in props:
    if p in thms:
        t=thms[p]
        st=STATUS.get(p,'partial' if any(x.endswith('_partial') for x in t) else 'proved')
        claims.append(dict(property=p,status=st,theorems=t,note=NOTE.get(p,'')))
    elif p in STATUS:
        claims.append(dict(property=p,status=STATUS[p],theorems=[],note=NOTE.get(p,'')))
miss=[p for p in props if p not in thms and p not in STATUS]
extra=[t for t in thms if t not in props]
json.dump({"claims":claims},open('/verif/MANIFEST.json','w'),indent=1)
print('claims',len(claims),'without theorem',miss,'theorems without property',extra)
