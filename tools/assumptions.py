#!/usr/bin/env python3
"""Runs Print Assumptions on every property theorem (after a build) and writes tools/assumptions.json."""
import re,glob,subprocess,json,os
R='/verif/rocq'; thms=[]
for g in sorted(glob.glob(f'{R}/theories/*Props.v')):
    for n in re.findall(r'^\s*Theorem\s+(C\d+_\w+)',open(g).read(),re.M): thms.append((os.path.basename(g)[:-2],n))
mods=sorted(set(m for m,_ in thms))
open('/tmp/as.v','w').write(''.join(f'From Verif Require {m}.\n' for m in mods)+''.join(f'Goal True. idtac "@@{n}". exact I. Qed.\nPrint Assumptions {m}.{n}.\n' for m,n in thms))
r=subprocess.run('coqc -Q theories Verif /tmp/as.v',shell=True,cwd=R,capture_output=True,text=True)
assert r.returncode==0,r.stderr
out={}
for q in r.stdout.split('@@')[1:]:
    n=q.split('\n')[0].strip(); rest=q.split('\n',1)[1]
    out[n]=sorted(set(re.findall(r'^([A-Z]\w*(?:\.\w+)+|\w+)\s*:',rest,re.M)))
json.dump(out,open('/verif/tools/assumptions.json','w'),indent=0,sort_keys=True)
from collections import Counter
print(Counter(tuple(v) for v in out.values()))
