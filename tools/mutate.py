#!/usr/bin/env python3
"""Seeded-bug runner.  Reads seeded/mutants.jsonl (fields: id, file, definition, old, new, edit, claim), applies each one not
yet in seeded/LOG.jsonl to a scratch copy of rocq/, rebuilds, and appends one line to the log.  A lemma whose proof breaks is
admitted *in the scratch copy only* so that every broken lemma is found; a property theorem counts as failed when its own proof
breaks or when Print Assumptions shows it rests on a lemma that broke."""
import time,json,os,re,subprocess,shutil,sys
V='/verif'; S='/tmp/mut'; B='/tmp/mutbase'
def sh(c,**k): return subprocess.run(c,shell=True,capture_output=True,text=True,**k)
def fresh():
    os.makedirs(S,exist_ok=True)
    sh(f"rm -rf {S}/rocq && cp -a {B}/rocq {S}/rocq")
START=re.compile(r'^\s*(Local |Global |#\[.*?\] )*(Theorem|Lemma|Example|Corollary|Fact|Proposition|Remark)\s+(\w+)',re.M)
def enclosing(src,pos):
    last=None
    for m in START.finditer(src):
        if m.start()<=pos: last=m
        else: break
    return last
def admit(path,line,char):
    src=open(path).read()
    lines=src.split('\n'); pos=sum(len(l)+1 for l in lines[:line-1])+char
    m=enclosing(src,pos)
    if not m: return None
    p=re.compile(r'\bProof\b[^.]*\.',re.S).search(src,m.end())
    q=re.compile(r'\b(Qed|Defined)\.').search(src,m.end())
    if not p or not q or pos>q.end() : return None
    if pos<p.start(): return ('STATEMENT',m.group(3))
    src=src[:p.start()]+'Admitted.'+src[q.end():]
    open(path,'w').write(src)
    return ('PROOF',m.group(3))
def build():
    r=sh("make -k -j4 COQC='timeout 150 coqc' 2>&1",cwd=S+'/rocq')
    errs=[]
    out=r.stdout
    for m in re.finditer(r'(theories/\w+)\.vo\] Error 124',out):  # a tactic no longer terminates: find the sentence
        f=m.group(1)+'.v'
        o=sh(f"timeout 150 coqc -time -Q theories Verif {f}",cwd=S+'/rocq').stdout
        cs=re.findall(r'Chars \d+ - (\d+)',o)
        b=open(f"{S}/rocq/{f}",'rb').read()[:int(cs[-1])+1].decode() if cs else ''
        errs.append((f,b.count('\n')+1,len(b.split('\n')[-1])+1))
    for m in re.finditer(r'File "\./(theories/\w+\.v)", line (\d+), characters (\d+)-(\d+):\n(Error)',out):
        errs.append((m.group(1),int(m.group(2)),int(m.group(3))))
    return r.returncode,errs,out
def run(mu):
    fresh()
    f=f"{S}/rocq/theories/{mu['file']}"
    src=open(f).read()
    n=src.count(mu['old'])
    if n!=1: return dict(error=f"old text found {n} times")
    open(f,'w').write(src.replace(mu['old'],mu['new']))
    broken=[];stmt=[];t0=time.time()
    for _ in range(120):
        rc,errs,out=build()
        if rc==0: break
        if not errs: return dict(error='build failed without location: '+out[-600:])
        progress=False
        for (p,l,c) in errs:
            r=admit(f"{S}/rocq/{p}",l,c)
            if r and r[0]=='PROOF': broken.append(r[1]); progress=True
            else: stmt.append((p,l,r))
        if not progress: break
    # property theorems resting on broken lemmas
    failed=[]
    if broken:
        props=[]
        for g in sorted(os.listdir(S+'/rocq/theories')):
            if g.startswith('Properties') and g.endswith('.v') and os.path.exists(f"{S}/rocq/theories/{g}o") and os.path.getmtime(f"{S}/rocq/theories/{g}o")>t0-2:
                t=open(f"{S}/rocq/theories/{g}").read()
                names=re.findall(r'^\s*Theorem (C\d+_\w+)',t,re.M)
                q=f"{S}/q.v"
                open(q,'w').write(f"From Verif Require Import {g[:-2]}.\n"+''.join(f'Print Assumptions {x}.\n' for x in names))
                o=sh(f"coqc -Q {S}/rocq/theories Verif q.v",cwd=S).stdout
                chunks=re.split(r'(?=^Axioms:|^Closed under)',o,flags=re.M)
                chunks=[c for c in chunks if c.strip()]
                for x,c in zip(names,chunks):
                    if x in broken or any(re.search(r'(^|\W)'+re.escape(b)+r'\b',c) for b in broken): failed.append(x)
    return dict(broken=broken,failed=failed,stmt=[str(s) for s in stmt])
def main():
    sh(f"rm -rf {B} && mkdir {B} && cp -a {V}/rocq {B}/rocq")
    only=set(sys.argv[1:])
    done=set()
    lp=V+'/seeded/LOG.jsonl'
    for l in open(lp):
        if l.strip(): done.add(json.loads(l).get('id'))
    for l in open(V+'/seeded/mutants.jsonl').read().split('\n'):
        if not l.strip(): continue
        mu=json.loads(l)
        if mu['id'] in done or (only and mu['id'] not in only): continue
        r=run(mu)
        if 'error' in r: print(mu['id'],'ERROR',r['error']); continue
        caught=bool(r['failed']) or bool(r['stmt'])
        print(mu['id'],mu['definition'],'->','CAUGHT' if caught else ('EXAMPLES/LEMMAS ONLY' if r['broken'] else 'SURVIVED'),r['failed'][:6],'| lemmas',r['broken'][:6],r['stmt'][:3],flush=True)
        rec=dict(id=mu['id'],definition=mu['file']+': '+mu['definition'],edit=mu['edit'],claim=mu['claim'],theorems_failed=r['failed'],lemmas_and_examples_failed=[b for b in r['broken'] if b not in r['failed']],theorems_tightened=mu.get('tightened',[]))
        if r['stmt']: rec['statements_no_longer_typecheck']=r['stmt']
        if not caught and not only:
            print('   not logged; inspect'); continue
        if not caught: rec['note']=mu.get('note','survived')
        open(lp,'a').write(json.dumps(rec)+'\n')
main()
