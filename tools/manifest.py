#!/usr/bin/env python3
"""Regenerate MANIFEST.json from properties.jsonl, theorem names and tools/notes.json."""
import json,re,glob,os
root=os.path.dirname(os.path.dirname(os.path.abspath(__file__)))
props=[json.loads(l)['id'] for l in open(root+'/properties.jsonl')]
notes=json.load(open(root+'/tools/notes.json'))
th={}
com={}
for f in sorted(glob.glob(root+'/rocq/theories/*.v')):
    src=open(f).read()
    for m in re.finditer(r'^\s*(?:Theorem|Lemma|Corollary)\s+(C(\d\d+)_\w+)',src,re.M):
        th.setdefault('C'+m.group(2),[]).append(m.group(1))
        c=re.search(r'\(\*\*((?:(?!\*\)).)*)\*\)\s*$',src[:m.start()],re.S)
        if c: com[m.group(1)]=' '.join(c.group(1).split())
claims=[]
for p in props:
    t=th.get(p,[])
    n=notes.get(p,{})
    st=n.get('status')
    if st is None:
        if not t: st='not_applicable'
        elif any(x.endswith('_partial') or x.endswith('_refuted') for x in t): st='partial'
        else: st='proved'
    note=n.get('note','') or ('' if t else 'not modelled yet')
    if st=='partial' and not note:
        note=' | '.join(f"{x}: {com.get(x,'(see the statement)')}" for x in t if x.endswith('_partial') or x.endswith('_refuted'))
    claims.append({'property':p,'status':st,'theorems':t,'note':note})
for k in th:
    if k not in props: print('theorems without property',k,th[k])
json.dump({'claims':claims},open(root+'/MANIFEST.json','w'),indent=1)
from collections import Counter
print(Counter(c['status'] for c in claims), len(sum(th.values(),[])),'theorems')
