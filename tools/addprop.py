#!/usr/bin/env python3
"""usage: addprop.py < lines of JSON; replaces or appends by id."""
import sys,json,os
f=os.path.dirname(os.path.dirname(os.path.abspath(__file__)))+'/properties.jsonl'
L=[json.loads(l) for l in open(f)]
for line in sys.stdin:
    if not line.strip(): continue
    n=json.loads(line)
    old=[i for i,p in enumerate(L) if p['id']==n['id']]
    if old: L[old[0]].update(n)
    else: L.append(n)
L.sort(key=lambda p:int(p['id'][1:]))
open(f,'w').write(''.join(json.dumps(p)+'\n' for p in L))
