#!/usr/bin/env python3
"""Regenerate the section of DESIGN.md that lists what Print Assumptions gives for every property theorem."""
import re,subprocess,os,json,collections
T='/verif/rocq/theories'
thms=[]
for f in sorted(os.listdir(T)):
    if not (f.startswith('Properties') and f.endswith('.v')): continue
    for m in re.finditer(r'^\s*(?:Theorem|Lemma|Corollary|Example)\s+(C\d+_\w+)',open(f'{T}/{f}').read(),re.M): thms.append((f[:-2],m.group(1)))
src='\n'.join(f'From Verif Require {m}.' for m in sorted({m for m,_ in thms}))+'\n'
for m,t in thms: src+=f'Goal True. idtac "@@{m}.{t}". exact I. Qed.\nPrint Assumptions Verif.{m}.{t}.\n'
open('/tmp/pa.v','w').write(src)
out=subprocess.run(['coqc','-Q',T,'Verif','/tmp/pa.v'],capture_output=True,text=True)
if out.returncode: print(out.stderr[-2000:]); raise SystemExit(1)
d=collections.OrderedDict()
for blk in out.stdout.split('@@')[1:]:
    name,_,rest=blk.partition('\n')
    if 'Closed under the global context' in rest: ax=()
    else: ax=tuple(sorted(set(re.findall(r'^([\w.]+)\s*(?=:|\n)',rest.split('Axioms:')[1],re.M))))
    d.setdefault(ax,[]).append(name)
lines=['<!-- assumptions:begin -->','### What `Print Assumptions` lists for each theorem','(generated by `tools/assumptions.py`)','']
for ax,ns in sorted(d.items()):
    lines.append('**'+('Closed under the global context (no axioms)' if not ax else 'Axioms '+', '.join(f'`{a}`' for a in ax))+f'** ({len(ns)} theorems):')
    by=collections.OrderedDict()
    for n in ns: m,t=n.split('.'); by.setdefault(m,[]).append(t)
    for m,ts in by.items(): lines.append(f'* `{m}`: '+', '.join(ts))
    lines.append('')
lines.append('<!-- assumptions:end -->')
D='/verif/DESIGN.md'; s=open(D).read(); new='\n'.join(lines)
if '<!-- assumptions:begin -->' in s: s=re.sub(r'<!-- assumptions:begin -->.*<!-- assumptions:end -->',lambda _:new,s,flags=re.S)
else: s+='\n'+new+'\n'
open(D,'w').write(s)
print({str(k):len(v) for k,v in d.items()})
