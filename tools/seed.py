#!/usr/bin/env python3
"""Seed a bug into a scratch copy of the model and report which property theorems stop holding.

usage: seed.py seeds.json        (list of {"file","def","old","new","edit","claim"})

For each entry the edit is applied in /tmp/seed, the development rebuilt, and every lemma whose proof
no longer goes through is replaced by an admitted one so that the rest can be rebuilt.  A property
theorem (C..) counts as failed when Print Assumptions shows that it rests on one of those lemmas (or
is one of them).  One line per entry is appended to seeded/LOG.jsonl.
"""
import json, os, re, shutil, subprocess, sys, time
SRC=os.environ.get('SNAP','/verif/rocq'); DST=os.environ.get('DST','/tmp/seed')
LOG='/verif/seeded/LOG.jsonl'

def sh(cmd, cwd=DST, t=1500):
    try:
        r=subprocess.run(cmd,shell=True,cwd=cwd,capture_output=True,text=True,timeout=t)
        return r.returncode, r.stdout+r.stderr
    except subprocess.TimeoutExpired:
        return 1,'TIMEOUT'

HEAD=re.compile(r'^\s*(?:Local |Global |#\[[^\]]*\]\s*)?(Theorem|Lemma|Corollary|Example|Fact|Remark|Definition|Fixpoint|Inductive)\s+([A-Za-z0-9_\']+)')

def enclosing(path, line):
    L=open(path).read().split('\n')
    for i in range(min(line,len(L))-1,-1,-1):
        m=HEAD.match(L[i])
        if m: return m.group(1),m.group(2),i,L
    return None,None,None,L

def admit(path,i,L):
    # replace the proof of the statement starting at line i by Admitted
    j=i
    while j<len(L) and not re.match(r'^\s*Proof\b',L[j]): j+=1
    k=j
    while k<len(L) and not re.search(r'\b(Qed|Defined)\.\s*$',L[k]): k+=1
    if k>=len(L): return False
    L[j:k+1]=['Proof. Admitted.']+['']*(k-j)
    open(path,'w').write('\n'.join(L)); return True

def dependents(fn):
    # the modules that require the edited file, directly or not
    req={}
    for p in os.listdir(SRC+'/theories'):
        if p.endswith('.v'):
            t=open(SRC+'/theories/'+p).read()
            req[p[:-2]]=set(w for m in re.finditer(r'From Verif Require (?:Import |Export )?([A-Za-z0-9_ \n]+)\.',t) for w in m.group(1).split())
    out={fn[:-2]}; grew=True
    while grew:
        grew=False
        for k,v in req.items():
            if k not in out and v&out: out.add(k); grew=True
    return out

def run(e):
    if os.path.exists(DST): shutil.rmtree(DST)
    shutil.copytree(SRC,DST)
    f=DST+'/theories/'+e['file']; s=open(f).read()
    n=s.count(e['old'])
    if n!=1: return {'error':'old text occurs %d times'%n}
    open(f,'w').write(s.replace(e['old'],e['new']))
    if not os.path.exists(DST+'/Makefile'): sh('coq_makefile -f _CoqProject -o Makefile')
    sh('coq_makefile -f _CoqProject -o Makefile')
    broken=[]
    for it in range(60):
        rc,out=sh('ulimit -v 9000000; make -k -j4 2>&1')
        if rc==0: break
        errs=re.findall(r'File "\./theories/([A-Za-z0-9_]+\.v)", line (\d+), characters[^\n]*\n(Error[^\n]*(?:\n[^\n]+){0,2})',out)
        seen=set(); did=False
        for (fn,ln,msg) in errs:
            if fn in seen: continue
            seen.add(fn)
            kind,name,i,L=enclosing(DST+'/theories/'+fn,int(ln))
            if kind in ('Theorem','Lemma','Corollary','Example','Fact','Remark'):
                if admit(DST+'/theories/'+fn,i,L): broken.append(name); did=True; continue
            return {'error':'does not compile: %s in %s: %s'%(name,fn,msg[:200])}
        if not did: return {'error':'stuck: '+out[-400:]}
    else: return {'error':'too many iterations'}
    # property theorems resting on broken lemmas
    names=[]; dep=dependents(e['file'])
    for p in sorted(os.listdir(DST+'/theories')):
        if p.endswith('Props.v') and p[:-2] in dep:
            for m in re.finditer(r'^(?:Theorem|Lemma|Corollary)\s+(C\d\d_[A-Za-z0-9_\']+)',open(DST+'/theories/'+p).read(),re.M):
                names.append((p[:-2],m.group(1)))
    if not names: return {'broken':broken,'failed':[]}
    mods=sorted(set(m for m,_ in names))
    q='From Verif Require '+' '.join(mods)+'.\n'
    for m,nm in names: q+='Print Assumptions Verif.%s.%s.\n'%(m,nm)
    open(DST+'/q.v','w').write(q)
    rc,out=sh('coqc -Q theories Verif q.v 2>&1')
    failed=[]
    chunks=re.split(r'^(?=Closed under the global|Axioms:)',out,flags=re.M)[1:]
    if len(chunks)!=len(names): return {'error':'assumption listing out of step: '+out[-300:]}
    for (m,nm),c in zip(names,chunks):
        ax=c.split('Axioms:')[1] if 'Axioms:' in c else ''
        if nm in broken or any(re.search(r'(^|\n)(?:[A-Za-z0-9_]+\.)*'+re.escape(b)+r'\s*:',ax) for b in broken): failed.append(nm)
    return {'broken':broken,'failed':failed}

for e in json.load(open(sys.argv[1])):
    t=time.time(); r=run(e)
    rec={'definition':e['file']+': '+e['def'],'edit':e['edit'],'claim_broken':e['claim']}
    if 'error' in r: rec['result']=r['error']; rec['theorems_failed']=[]
    else:
        rec['theorems_failed']=r['failed']; rec['first_broken_lemmas']=[b for b in r['broken'] if b not in r['failed']][:8]
    rec['theorems_tightened']=e.get('tightened',[])
    print(json.dumps(rec), '%.0fs'%(time.time()-t), flush=True)
    if 'error' not in r or 'does not compile' in r.get('error',''):
        if not os.environ.get('DRY'): open(LOG,'a').write(json.dumps(rec)+'\n')
