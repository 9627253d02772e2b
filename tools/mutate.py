#!/usr/bin/env python3
"""mutate.py FILE.py: tests the theorems against wrong programs.

FILE.py defines MUTANTS = [(model file, definition, old text, new text, broken claim, [property ids])].  Each edit is made in a scratch
copy of rocq/ and everything that depends on it is rebuilt.  A proof that fails is admitted in the scratch copy, so that
the rest can be checked; a theorem is killed if its own proof failed or if Print Assumptions shows it rests on a
failed one.  One JSON line per edit is appended to seeded/LOG.jsonl (with LOG=1 in the environment)."""
import sys,os,re,subprocess,json,glob,shutil
SRC=os.environ.get('SRC','/verif/rocq'); W=os.environ.get('W','/tmp/w/mut')
HEAD=re.compile(r'^\s*(?:Local\s+|Global\s+|#\[[^]]*\]\s*)*(Theorem|Lemma|Corollary|Fact|Example|Remark|Definition|Fixpoint|Instance|Let|Record|Inductive|Ltac|Program Definition)\s+([\w\']+)')
def sh(c,t=3000):
    try: return subprocess.run(c,shell=True,capture_output=True,text=True,timeout=t,cwd=W)
    except subprocess.TimeoutExpired as e: return None
def enclosing(lines,l):
    for i in range(l-1,-1,-1):
        m=HEAD.match(lines[i])
        if m: return i,m.group(1),m.group(2)
    return None
def admit(path,l):
    lines=open(path).read().split('\n')
    e=enclosing(lines,l)
    if not e: return None
    i,kind,name=e
    # the statement ends at the first 'Proof' at or after i
    txt='\n'.join(lines[i:])
    m=re.search(r'\bProof\b',txt)
    nxt=[k for k in range(i+1,len(lines)) if HEAD.match(lines[k])]
    if not m or kind in('Definition','Fixpoint','Record','Inductive','Ltac') and not m: return ('BAD',name)
    q=re.search(r'\b(Qed|Defined|Admitted)\.',txt[m.start():])
    if not q: return ('BAD',name)
    body=txt[:m.start()]+'Proof. Admitted.'+txt[m.start()+q.end():]
    errpos=sum(len(x)+1 for x in lines[i:l-1])
    if errpos+len(lines[l-1])<m.start(): return ('BAD',name)
    open(path,'w').write('\n'.join(lines[:i])+('\n' if i else '')+body)
    return (kind,name)
def run(mut):
    f,defn,old,new,claim,ids=mut
    shutil.rmtree(W,ignore_errors=True); subprocess.run(f'cp -a {SRC} {W}',shell=True,check=True)
    p=f'{W}/theories/{f}'; s=open(p).read()
    if s.count(old)!=1: return dict(error=f'old text occurs {s.count(old)} times')
    open(p,'w').write(s.replace(old,new))
    failed=[]; bad=[]
    for it in range(60):
        r=sh('make -k -j3 TIMECMD="timeout 400"')
        if r is None: bad.append('make timeout'); break
        if r.returncode==0: break
        errs=set(re.findall(r'File "\./theories/([\w]+\.v)", line (\d+)[^\n]*\nError',r.stdout+r.stderr))
        if not errs:
            tm=re.findall(r'\*\*\* \[[^]]*?(theories/\w+)\.vo\][^\n]*',r.stdout+r.stderr)
            bad.append('no error position: '+' '.join(sorted(set(tm)))); break
        stop=False
        for ff,l in errs:
            a=admit(f'{W}/theories/{ff}',int(l))
            if a is None or a[0]=='BAD': bad.append(f'{ff}:{l} {a}'); stop=True
            else: failed.append((a[0],a[1]))
        if stop: break
    names=[n for _,n in failed]
    killed=[]; alive=[]
    thms=[]
    if not bad and failed:
        for g in sorted(glob.glob(f'{W}/theories/*Props.v')):
            if os.path.getmtime(g.replace('.v','.vo'))>os.path.getmtime(p)-1:
                mod=os.path.basename(g)[:-2]
                for n in re.findall(r'^\s*Theorem\s+(C\d+_\w+)',open(g).read(),re.M): thms.append((mod,n))
        mods=sorted(set(m for m,_ in thms))
        body=''.join(f'From Verif Require {m}.\n' for m in mods)+''.join(f'Goal True. idtac "@@{n}". exact I. Qed.\nPrint Assumptions {m}.{n}.\n' for m,n in thms)
        open(f'{W}/chk.v','w').write(body)
        r=sh('coqc -Q theories Verif chk.v')
        parts=(r.stdout if r else '').split('@@')[1:]
        for q in parts:
            n=q.split('\n')[0].strip()
            rest=q.split('\n',1)[1] if '\n' in q else ''
            ax=re.findall(r'^([\w\.\']+)\s*:',rest,re.M)
            if any(a.split('.')[-1] in names for a in ax) or n in names: killed.append(n)
            else: alive.append(n)
    elif not bad: pass
    return dict(failed=names,bad=bad,killed=sorted(set(killed)),alive_ids=[n for n in alive if n.split('_')[0] in ids])
if __name__=='__main__':
    ns={}; exec(open(sys.argv[1]).read(),ns)
    only=sys.argv[2:] 
    for k,m in enumerate(ns['MUTANTS']):
        if only and str(k) not in only: continue
        r=run(m)
        f,defn,old,new,claim,ids=m
        hit=[t for t in r.get('killed',[]) if t.split('_')[0] in ids]
        verdict='ERROR' if 'error' in r else ('CHECK' if r['bad'] else ('killed' if hit else 'SURVIVED'))
        print(k,f,defn,verdict,'| killed:',r.get('killed'),'| failed lemmas:',r.get('failed'),'| alive of ids:',r.get('alive_ids'),r.get('bad') or '',r.get('error') or '',flush=True)
        if os.environ.get('LOG') and 'error' not in r and not r['bad']:
            open('/verif/seeded/LOG.jsonl','a').write(json.dumps(dict(definition=f'{f}:{defn}',edit=f'{old.strip()} -> {new.strip()}',breaks=claim,claims=ids,result='killed' if hit else 'survived',theorems_failed=r['killed'],failed_proofs=r['failed'],theorems_tightened=[]))+'\n')
