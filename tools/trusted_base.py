#!/usr/bin/env python3
"""Rewrites the generated part of DESIGN.md section 3: the sources each model file cites, and what Print
Assumptions lists for each theorem (run after a build)."""
import re,os,glob,subprocess,tempfile
from collections import defaultdict
from concurrent.futures import ThreadPoolExecutor
T='/verif/rocq/theories'
B,E='<!-- generated: trusted base -->','<!-- end generated -->'
names=set()
for r,_,fs in os.walk('/repo/src'):
    names|={x for x in fs if re.search(r'\.(h|inl|cpp|h\.in)$',x)}
rows=[]
for v in sorted(glob.glob(T+'/*Model*.v')):
    t=open(v).read()
    c=[n for n in sorted(names) if re.search(r'(?<![\w\]])'+re.escape(n)+r'(?!\w)',t)]
    rows.append('| `%s` | %s |'%(os.path.basename(v),', '.join('`%s`'%x for x in c)))
mods=[l.strip()[9:-2] for l in open('/verif/rocq/_CoqProject') if l.startswith('theories/') and 'Properties' in l]
groups=defaultdict(list)
with tempfile.TemporaryDirectory() as d:
    def ask(m):
        ns=re.findall(r'(?m)^Theorem (C\d+_\w+)',open('%s/%s.v'%(T,m)).read())
        if not ns: return []
        open('%s/P_%s.v'%(d,m),'w').write('From Verif Require %s.\n'%m+''.join('Print Assumptions %s.%s.\n'%(m,n) for n in ns))
        r=subprocess.run('coqc -w none -Q %s Verif P_%s.v'%(T,m),shell=True,capture_output=True,text=True,cwd=d)
        ch=re.split(r'(?m)^(?=Axioms:|Closed under)',r.stdout)[1:]
        assert len(ch)==len(ns),(m,r.stderr[-300:])
        return list(zip(ns,ch))
    with ThreadPoolExecutor(4) as pool:
        for l in pool.map(ask,mods):
            for n,c in l:
                groups[tuple(sorted(set(re.findall(r'(?m)^([\w.]+)\s*(?::|$)',c))-{'Axioms','Closed'}))].append(n)
out=[B,'','Sources cited by each model file (the line ranges are in the comments of the definitions):','','| model | sources |','|---|---|']+rows+['','What `Print Assumptions` lists, theorem by theorem:','']
for k in sorted(groups,key=lambda k:(len(k),k)):
    out.append('* %s: %s.'%('nothing ("Closed under the global context")' if not k else ', '.join('`%s`'%x for x in k),', '.join('`%s`'%x for x in sorted(groups[k]))))
out+=['',E]
s=open('/verif/DESIGN.md').read()
s=s[:s.index(B)]+'\n'.join(out)+s[s.index(E)+len(E):]
open('/verif/DESIGN.md','w').write(s)
print({len(k):len(v) for k,v in groups.items()})
