#!/usr/bin/env python3
"""Regenerates MANIFEST.json from the theorem names in rocq/theories/Props_*.v and tools/notes.json."""
import re,glob,json,os
root=os.path.dirname(os.path.dirname(os.path.abspath(__file__)))
ths={}
for f in sorted(glob.glob(root+'/rocq/theories/Props_*.v')):
    for m in re.finditer(r'^Theorem (C\d\d\d?)(_[A-Za-z0-9_\']+)',open(f).read(),re.M):
        ths.setdefault(m.group(1),[]).append(m.group(1)+m.group(2))
notes=json.load(open(root+'/tools/notes.json'))
claims=[]
for l in open(root+'/properties.jsonl'):
    p=json.loads(l)['id']; n=notes.get(p,{})
    t=ths.get(p,[])
    if not t: st='not_applicable'; note=n.get('note','not yet modelled')
    else:
        st=n.get('status') or ('partial' if any(x.endswith('_partial') or x.endswith('_refuted') for x in t) else 'proved')
        note=n.get('note','')
    claims.append(dict(property=p,status=st,theorems=t,note=note))
json.dump({'claims':claims},open(root+'/MANIFEST.json','w'),indent=1)
print({s:sum(c['status']==s for c in claims) for s in ('proved','partial','not_applicable')}, sum(len(c['theorems']) for c in claims))
