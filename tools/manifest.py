#!/usr/bin/env python3
"""Rebuild MANIFEST.json: the theorems of a property are those named <id>_... in rocq/theories.
Statuses and notes come from tools/status.json."""
import json,re,glob,os
root=os.path.dirname(os.path.dirname(os.path.abspath(__file__)))
st=json.load(open(root+'/tools/status.json'))
th={}
for f in sorted(glob.glob(root+'/rocq/theories/*.v')):
    s=open(f).read()
    for m in re.finditer(r'^(?:Theorem|Lemma|Corollary|Example)\s+(C\d\d_\w+)',s,re.M):
        n=m.group(1)
        if n.endswith('_example'): continue
        th.setdefault(n[:3],[]).append(n)
claims=[]
for l in open(root+'/properties.jsonl'):
    i=json.loads(l)['id']
    x=st.get(i,{})
    claims.append({"property":i,"status":x.get("status","partial" if i in th else "not_applicable"),"theorems":th.get(i,[]),"note":x.get("note","not yet modelled")})
json.dump({"claims":claims},open(root+'/MANIFEST.json','w'),indent=1)
for c in claims: print(c['property'],c['status'],len(c['theorems']))
