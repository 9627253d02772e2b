#!/usr/bin/env python3
"""Regenerates MANIFEST.json from the theorem names in rocq/theories/*Props.v and tools/notes.json."""
import json,re,glob,os
root=os.path.dirname(os.path.dirname(os.path.abspath(__file__)))
notes=json.load(open(root+'/tools/notes.json'))
props=[json.loads(l) for l in open(root+'/properties.jsonl')]
thms={}
for f in sorted(glob.glob(root+'/rocq/theories/*Props.v')):
    for n in re.findall(r'^\s*Theorem\s+((C\d+)_\w+)',open(f).read(),re.M):
        thms.setdefault(n[1],[]).append(n[0])
claims=[]
for p in props:
    i=p['id']; t=thms.get(i,[]); nt=notes.get(i,{})
    if isinstance(nt,str): nt={'note':nt}
    st=nt.get('status') or ('partial' if (not t or any(x.endswith('_partial') or x.endswith('_refuted') for x in t)) else 'proved')
    note=nt.get('note','' if t else 'not proved yet')
    claims.append(dict(property=i,status=st,theorems=t,note=note))
json.dump({'claims':claims},open(root+'/MANIFEST.json','w'),indent=1)
from collections import Counter
print(Counter(c['status'] for c in claims), 'without theorem:',[c['property'] for c in claims if not c['theorems']])
