#!/usr/bin/env python3
"""usage: addprop.py < json lines; appends or replaces properties by id."""
import json,sys,os
root=os.path.dirname(os.path.dirname(os.path.abspath(__file__)))
p=root+'/properties.jsonl'
ps=[json.loads(l) for l in open(p)]
for l in sys.stdin:
    if not l.strip(): continue
    n=json.loads(l)
    i=[k for k,q in enumerate(ps) if q['id']==n['id']]
    if i: ps[i[0]].update(n)
    else: ps.append(n)
open(p,'w').write(''.join(json.dumps(q)+'\n' for q in ps))
