#!/usr/bin/env python3
"""Automatic mutation sweep (survivor finder).
usage: automut.py WORKERS PER_FILE SEED [files...]
Mutates single tokens of the definitions in M_*.v in a scratch copy and runs make there. A mutant for which everything
still builds is a SURVIVOR: either equivalent or a theorem is too weak. Results are appended to /tmp/auto/results.jsonl."""
import re, os, sys, random, subprocess, shutil, json, concurrent.futures as cf
T='/verif/rocq'
workers=int(sys.argv[1]); per=int(sys.argv[2]); seed=int(sys.argv[3]); files=sys.argv[4:]
OUT='/tmp/auto/results.jsonl'
OPS=[(r'<\?','<=?'),(r'<=\?','<?'),(r'(?<![<>])=\?','<=?'),(r'\bNat\.ltb\b','Nat.leb'),(r'\bNat\.leb\b','Nat.ltb'),(r'\bNat\.eqb\b','Nat.leb'),
 (r'\bQle_bool\b','Qeq_bool'),(r'\bQlt_bool\b','Qle_bool'),(r'&&','||'),(r'\|\|','&&'),(r'\bnegb\b','id'),(r'\btrue\b','false'),(r'\bfalse\b','true'),
 (r'(?<=[\w)] )\+(?= [\w(])','-'),(r'(?<=[\w)] )-(?= [\w(])','+'),(r'(?<=[\w)] )\*(?= [\w(])','+'),(r'(?<=[\w)] )/(?= [\w(])','*'),
 (r'(?<![\w.#])0(?![\w.])','1'),(r'(?<![\w.#])1(?![\w.])','0'),(r'(?<![\w.#])1(?![\w.])','2'),(r'(?<![\w.#])2(?![\w.])','3'),
 (r'(?<![\w.#])10(?![\w.])','11'),
 (r'\bfst\b','snd'),(r'\bsnd\b','fst'),(r'\bfirstn\b','skipn'),(r'\bskipn\b','firstn'),(r'\brev\b','id'),
 (r'\bRmin\b','Rmax'),(r'\bRmax\b','Rmin'),(r'\bQmin\b','Qmax'),(r'\bexistsb\b','forallb'),(r'\bforallb\b','existsb'),
 (r'\bZ\.min\b','Z.max'),(r'\bNat\.min\b','Nat.max'),(r'\bmin\b','max'),(r'\bmax\b','min'),
 (r'\bS k\b','k'),(r'\bS i\b','i'),(r'\bNone\b(?= =>)','Some _'),(r'\btl\b','id'),(r'\bpred\b','S'),(r'\bfilter\b','map'),
 (r'\bcos\b','sin'),(r'\bPI\b','1'),(r'\bsqrt\b','id'),(r'\bZ\.to_nat\b','Z.abs_nat'),(r'\bRlt_dec\b','Rle_dec'),(r'\bRle_dec\b','Rlt_dec')]
def clone(a,b):
    shutil.rmtree(b,ignore_errors=True); subprocess.run(['cp','-a',a,b])
def sites(src):
    # mask comments and strings
    m=list(src); i=0; depth=0; instr=False
    while i<len(src):
        if depth==0 and src[i]=='"':
            j=src.index('"',i+1)
            for k in range(i,j+1): m[k]='~'
            i=j+1; continue
        if src.startswith('(*',i): depth+=1; m[i]=m[i+1]='~'; i+=2; continue
        if depth and src.startswith('*)',i): depth-=1; m[i]=m[i+1]='~'; i+=2; continue
        if depth: m[i]='~' if src[i]!='\n' else '\n'
        i+=1
    ms=''.join(m)
    # spans of definitions
    spans=[]
    for d in re.finditer(r'^\s*(?:Local )?(Definition|Fixpoint)\s+([\w\']+)[^~]*?:=',ms,re.M):
        e=re.search(r'\.(?=\s|$)',ms[d.end():])
        # a sentence end: first '.' followed by whitespace
        if e: spans.append((d.end(),d.end()+e.start(),d.group(2)))
    out=[]
    for (a,b,name) in spans:
        for pat,rep in OPS:
            for x in re.finditer(pat,ms[a:b]): out.append((a+x.start(),a+x.end(),rep,name))
    return out
def work(args):
    w,f,(a,b,rep,name),src=args
    D=f'/tmp/auto/w{w}'
    new=src[:a]+rep+src[b:]
    line=src[:a].count('\n')+1
    path=f'{D}/theories/{f}'
    open(path,'w').write(new)
    r=dict(file=f,definition=name,line=line,old=src[a:b],new=rep,ctx=src[max(0,a-50):b+50].replace('\n',' '))
    try:
        p=subprocess.run(['coqc','-Q','.','Verif',f],cwd=D+'/theories',capture_output=True,text=True,timeout=300)
        if p.returncode!=0: r['result']='INVALID'
        else:
            p=subprocess.run(['make','-j1'],cwd=D,capture_output=True,text=True,timeout=900)
            if p.returncode==0: r['result']='SURVIVED'
            else:
                r['result']='killed'
                e=re.findall(r'File "\./theories/([\w.]+)", line (\d+)',p.stderr); r['by']=e[:1]
    except subprocess.TimeoutExpired: r['result']='killed'; r['by']='timeout'
    # restore
    clone('/tmp/auto/base',D)
    with open(OUT,'a') as g: g.write(json.dumps(r)+'\n')
    return r
def main():
    global files
    os.makedirs('/tmp/auto',exist_ok=True)
    clone(T,'/tmp/auto/base')
    subprocess.run('make -j3',cwd='/tmp/auto/base',shell=True,capture_output=True)
    for w in range(workers): clone('/tmp/auto/base',f'/tmp/auto/w{w}')
    if not files: files=sorted(x for x in os.listdir(T+'/theories') if x.startswith('M_') and x.endswith('.v'))
    done=set()
    if os.path.exists(OUT):
        for l in open(OUT):
            d=json.loads(l); done.add((d['file'],d['definition'],d['old'],d['new'],d['ctx']))
    rnd=random.Random(seed); jobs=[]
    for f in files:
        src=open(f'/tmp/auto/base/theories/{f}').read(); s=sites(src); rnd.shuffle(s)
        n=0
        for x in s:
            if n>=per: break
            a,b,rep,name=x
            if (f,name,src[a:b],rep,src[max(0,a-50):b+50].replace('\n',' ')) in done: continue
            jobs.append((f,x,src)); n+=1
    rnd.shuffle(jobs)
    print(len(jobs),'jobs',flush=True)
    import queue,threading
    q=queue.Queue(); [q.put(j) for j in jobs]
    def loop(w):
        while True:
            try: f,x,src=q.get_nowait()
            except queue.Empty: return
            r=work((w,f,x,src)); print(r['result'],f,r['definition'],r['line'],r['old'],'->',r['new'],'|',r['ctx'] if r['result']=='SURVIVED' else r.get('by'),flush=True)
    ts=[threading.Thread(target=loop,args=(w,)) for w in range(workers)]
    [t.start() for t in ts]; [t.join() for t in ts]
main()
