#!/usr/bin/env python3
"""mutate.py batch.json : apply wrong edits to a scratch copy of the model and record which theorems no
longer prove.  batch = [[file, old, new, definition, edit, claim], ...].  A lemma whose proof fails is admitted
in the scratch copy and the build goes on, so that every failing lemma and, through Print Assumptions, every
property theorem that rests on one of them is found."""
import sys,subprocess,re,json,os
ROOT='/tmp/mut'
def sh(c,t=3000):
    return subprocess.run(c,shell=True,capture_output=True,text=True,timeout=t)
def admit(path,line):
    L=open(path).read().split('\n'); i=line-1
    while i>=0 and not re.match(r'\s*(?:Lemma|Theorem|Example|Corollary|Fact|Remark)\s+(\w+)',L[i]): i-=1
    if i<0: return None
    name=re.match(r'\s*(?:Lemma|Theorem|Example|Corollary|Fact|Remark)\s+(\w+)',L[i]).group(1)
    j=i
    while not re.match(r'\s*Proof\b',L[j]):
        if re.search(r'\.\s*$',L[j]) and not re.match(r'\s*Proof\b',L[j+1] if j+1<len(L) else ''): return None
        j+=1
        if j>=len(L): return None
    k=j
    while k<len(L) and not re.search(r'\b(Qed|Defined)\.',L[k]): k+=1
    if k>=len(L): return None
    if line-1<j: return None   # the statement itself no longer typechecks
    L[j:k+1]=['Proof. Admitted.']+['']*(k-j)
    open(path,'w').write('\n'.join(L)); return name
def run(f,old,new,timeout=1500):
    sh("rm -rf %s; mkdir -p %s; cp -a %s %s/rocq"%(ROOT,ROOT,os.environ.get('BASE','/verif/rocq'),ROOT))
    p=ROOT+'/rocq/theories/'+f
    s=open(p).read()
    assert s.count(old)>=1,(f,old)
    open(p,'w').write(s.replace(old,new,1))
    failed=[]; logs={}
    sh("cd %s/rocq && coq_makefile -f _CoqProject -o Makefile"%ROOT)
    for it in range(60):
        r=sh("cd %s/rocq && timeout %d make -k -j3 2>&1"%(ROOT,timeout))
        out=r.stdout
        errs=re.findall(r'File "\./(theories/\w+\.v)", line (\d+), characters [^\n]*\n(?:Error|In environ)',out)
        if not errs:
            if r.returncode!=0: failed.append('timeout-or-kill')
            break
        stop=True
        for ff,l in errs:
            n=admit(ROOT+'/rocq/'+ff,int(l))
            if n: failed.append(ff[9:-2]+'.'+n); stop=False
            else: failed.append(ff[9:-2]+':'+l+' (statement or definition)')
        if stop: break
    short={x.split('.')[-1] for x in failed}
    theorems=[]
    for pf in sorted(os.listdir(ROOT+'/rocq/theories')):
        if not(pf.endswith('.v') and 'Properties' in pf) or ('theories/'+pf) not in open(ROOT+'/rocq/_CoqProject').read(): continue
        src=open(ROOT+'/rocq/theories/'+pf).read()
        names=re.findall(r'Print Assumptions (\w+)\.',src)
        if not any(os.path.exists(ROOT+'/rocq/theories/'+pf+'o') for _ in [0]):
            theorems.append(pf+': not built'); continue
        if os.path.getmtime(ROOT+'/rocq/theories/'+pf+'o')<os.path.getmtime(p): continue
        r=sh("cd %s/rocq && timeout 900 coqc -Q theories Verif -w none theories/%s"%(ROOT,pf))
        chunks=re.split(r'(?m)^(?=Axioms:|Closed under)',r.stdout)[1:]
        for n,c in zip(names,chunks):
            if any(re.search(r'(?m)^(\w+\.)*%s\b'%re.escape(x),c) for x in short): theorems.append(n)
            elif n in short: theorems.append(n)
    return failed,theorems
if __name__=='__main__':
    for m in json.load(open(sys.argv[1])):
        f,old,new,defn,edit,claim=m[:6]
        try: failed,thms=run(f,old,new)
        except AssertionError as e: print('NOMATCH',defn,e,flush=True); continue
        ok=bool(thms) or bool(failed)
        print(('' if thms else 'SURVIVED? ')+defn,'|',edit,'->',thms,'lemmas',failed,flush=True)
        if ok:
            with open('/verif/seeded/LOG.jsonl','a') as g:
                g.write(json.dumps({"definition":defn,"edit":edit,"claim_broken":claim,"theorems_failed":thms,"lemmas_failed":failed,"theorems_tightened":m[6] if len(m)>6 else []})+'\n')
