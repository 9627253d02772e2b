#!/usr/bin/env python3
"""Regenerates DESIGN.md."""
import json,re,glob,os
V='/verif'; T=V+'/tools/'
head=open(T+'design_head.md').read(); plan={}
for l in open(T+'design_plan.md'):
    m=re.match(r'\| (C\d+) \| (.*?) \| (.*) \|$',l.strip())
    if m: plan[m.group(1)]=m.group(3)
props=[json.loads(l) for l in open(V+'/properties.jsonl')]
man={c['property']:c for c in json.load(open(V+'/MANIFEST.json'))['claims']}
ax=json.load(open(T+'assumptions.json'))
where={}
for g in glob.glob(V+'/rocq/theories/*Props.v'):
    for n in re.findall(r'^\s*Theorem\s+(C\d+_\w+)',open(g).read(),re.M): where[n]=os.path.basename(g)
METH=json.load(open(T+'design_methods.json'))
def code(n):
    a=set(x for x in ax.get(n,['?']) if x!='Axioms')
    if not a: return '-'
    if a=={'?'}: return '?'
    k={'ClassicalDedekindReals.sig_forall_dec','FunctionalExtensionality.functional_extensionality_dep'}
    if a==k: return 'R2'
    if a==k|{'ClassicalDedekindReals.sig_not_dec'}: return 'R3'
    if a==k|{'ClassicalDedekindReals.sig_not_dec','Classical_Prop.classic'}: return 'R4'
    return ', '.join(sorted(a))
out=head.replace('@@EXTRA@@\n',''.join(open(T+'design_extra.md').read().splitlines(True)) if os.path.exists(T+'design_extra.md') else '')
out+='\n| id | property | model and proof |\n|---|---|---|\n'
esc=lambda s:s.replace('|','\\|').replace('\n',' ')
for p in props:
    c=man.get(p['id']); files=sorted(set(where[t] for t in c['theorems'])) if c else []
    txt=plan.get(p['id']) or '; '.join(METH.get(f,'') for f in files)
    if not p['id'] in plan and c and c.get('note'): txt+=' '+c['note']
    out+=f"| {p['id']} | {esc(p['title'])} | {esc(txt)} |\n"
out+='\n## Status, theorems and Print Assumptions\n\n| id | status | theorems (file): assumptions |\n|---|---|---|\n'
for p in props:
    c=man.get(p['id'])
    if not c: continue
    ts=', '.join(f"{t} ({where[t]}): {code(t)}" for t in c['theorems'])
    out+=f"| {p['id']} | {c['status']} | {ts} |\n"
open(V+'/DESIGN.md','w').write(out)
print(sum(1 for p in props if not plan.get(p['id']) and not any(METH.get(where[t]) for t in man[p['id']]['theorems'])),'rows without method')
