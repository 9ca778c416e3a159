#!/usr/bin/env python3
"""Run model mutants in a scratch copy.  usage: mutate.py mutants.json [jobs]
Each mutant: {id, file, definition, old, new, edit, breaks:[ids], count?}.  Appends to seeded/LOG.jsonl."""
import json,sys,os,subprocess,re,shutil,time
SRC=os.environ.get('MUT_SRC','/verif/rocq'); W=os.environ.get('MUT_DIR','/tmp/mut/rocq')
muts=json.load(open(sys.argv[1])); jobs=sys.argv[2] if len(sys.argv)>2 else '3'
T=os.environ.get('MUT_T','1500')
LOG='/verif/seeded/LOG.jsonl'
done=set()
if os.path.exists(LOG):
    for l in open(LOG):
        done.add(json.loads(l).get('id'))
def reset():
    shutil.rmtree(W,ignore_errors=True); subprocess.run(['cp','-a',SRC,W],check=True)
def lemma_at(f,line):
    ls=open(f).read().split('\n')[:line]
    for l in reversed(ls):
        m=re.match(r'\s*(?:Lemma|Theorem|Corollary|Example|Fact|Definition|Fixpoint)\s+(\w+)',l)
        if m: return m.group(1)
    return '?'
def theorems(f):
    return re.findall(r'^Theorem (\w+)',open(f).read(),re.M)
for m in muts:
    if m['id'] in done: continue
    reset()
    p=f"{W}/theories/{m['file']}"
    s=open(p).read()
    n=s.count(m['old'])
    if n<1 or (n>1 and not m.get('nth')):
        print(m['id'],'PATTERN',n); continue
    if m.get('nth'):
        parts=s.split(m['old']); k=m['nth']
        s=m['old'].join(parts[:k])+m['new']+m['old'].join(parts[k:])
    else: s=s.replace(m['old'],m['new'])
    open(p,'w').write(s)
    t=time.time()
    r=subprocess.run(f'cd {W} && coq_makefile -f _CoqProject -o Makefile >/dev/null 2>&1; timeout {T} make -k -j{jobs} 2>&1',shell=True,capture_output=True,text=True)
    errs=[]
    for a,b in re.findall(r'File "\./theories/(\w+\.v)", line (\d+)',r.stdout):
        x=f'{a}:{lemma_at(W+"/theories/"+a,int(b))}'
        if x not in errs: errs.append(x)
    if r.returncode==124 and not errs:   # some proof no longer goes through in the time allowed
        errs=[f'{a}:no proof within {T} s' for a in re.findall(r'COQC theories/(\w+\.v)',r.stdout) if not os.path.exists(f'{W}/theories/{a}o')]
    bad={e.split('.v:')[0] for e in errs}; deps={}
    for l in open(W+'/.Makefile.d'):
        mm=re.match(r'theories/(\w+)\.vo\b[^:]*: (.*)',l)
        if mm: deps[mm.group(1)]=set(re.findall(r'theories/(\w+)\.vo\b',mm.group(2)))
    ch=True
    while ch:
        ch=False
        for k,v in deps.items():
            if k not in bad and v & bad: bad.add(k); ch=True
    failed=[t_ for f in sorted(bad) if f.startswith('P_') for t_ in theorems(f'{W}/theories/{f}.v')]
    rec={'id':m['id'],'definition':m['file']+': '+m['definition'],'edit':m['edit'],'claim_broken':m['breaks'],
         'failing_proofs':errs,'theorems_failed':failed,'theorems_tightened':[],
         'verdict':'caught' if errs else 'SURVIVED'}
    print(m['id'],rec['verdict'],errs[:3],len(failed),round(time.time()-t),flush=True)
    open(LOG,'a').write(json.dumps(rec)+'\n')
