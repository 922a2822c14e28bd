#!/usr/bin/env python3
"""MANIFEST.json from the theorem names in rocq/theories/Prop*.v and the notes below."""
import re,json,glob,os
root=os.path.dirname(os.path.dirname(os.path.abspath(__file__)))
th={}
for f in sorted(glob.glob(root+'/rocq/theories/Prop*.v')):
    for m in re.finditer(r'^Theorem (C\d\d_\w+)',open(f).read(),re.M):
        th.setdefault(m.group(1)[:3],[]).append(m.group(1))
notes=json.load(open(root+'/tools/notes.json'))
claims=[]
for l in open(root+'/properties.jsonl'):
    i=json.loads(l)['id']
    ts=th.get(i,[])
    n=notes.get(i,{})
    st=n.get('status') or ('partial' if (not ts or any(t.endswith('_partial') for t in ts)) else 'proved')
    claims.append({"property":i,"status":st,"theorems":ts,"note":n.get('note','' if ts else 'not proved yet')})
json.dump({"claims":claims},open(root+'/MANIFEST.json','w'),indent=1)
print({s:sum(c['status']==s for c in claims) for s in ('proved','partial','not_applicable')})
