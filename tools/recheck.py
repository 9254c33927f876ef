#!/usr/bin/env python3
"""Re-run the survivors of automut.py (results.jsonl) against the current model. usage: recheck.py WORKERS"""
import json,sys,os,subprocess,shutil,concurrent.futures as cf,threading
OUT='/tmp/auto/results.jsonl'; T='/verif/rocq'; W=int(sys.argv[1]); only=sys.argv[2:]
rs=[json.loads(l) for l in open(OUT)]
last={}
for r in rs: last[(r['file'],r['ctx'],r['old'],r['new'])]=r
todo=[r for r in last.values() if r['result']=='SURVIVED' and (not only or r['file'] in only)]
print(len(todo),'survivors')
free=list(range(W)); lock=threading.Lock()
for w in range(W):
    D=f'/tmp/auto/r{w}'; shutil.rmtree(D,ignore_errors=True); subprocess.run(['cp','-a',T,D])
def norm(s): return s.replace('\n',' ')
def work(r):
    with lock: w=free.pop()
    try:
        D=f'/tmp/auto/r{w}'; p=f"{D}/theories/{r['file']}"; src=open(f"{T}/theories/{r['file']}").read(); n=norm(src)
        k=n.find(r['ctx'])
        if k<0 or n.count(r['ctx'])!=1: return r,'GONE'
        # the mutated token is centred in ctx
        off=r['ctx'].find(r['old'],max(0,50-0)) if k>0 else -1
        a=k+50
        if src[a:a+len(r['old'])]!=r['old']: return r,'GONE'
        open(p,'w').write(src[:a]+r['new']+src[a+len(r['old']):])
        q=subprocess.run(['make','-j1'],cwd=D,capture_output=True,text=True)
        open(p,'w').write(src)
        return r,('SURVIVED' if q.returncode==0 else 'killed')
    finally:
        with lock: free.append(w)
with cf.ThreadPoolExecutor(W) as ex:
    for r,res in ex.map(work,todo):
        print(res,r['file'],r['definition'],r['line'],r['old'],'->',r['new'],'|',r['ctx'],flush=True)
        if res!='SURVIVED':
            r2=dict(r); r2['result']=res
            with open(OUT,'a') as f: f.write(json.dumps(r2)+'\n')
