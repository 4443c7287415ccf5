#!/usr/bin/env python3
"""Writes MANIFEST.json from the theorem names in rocq/theories and notes.json."""
import json,re,glob,os
here=os.path.dirname(os.path.abspath(__file__))
root=os.path.dirname(here)
props=[json.loads(l)['id'] for l in open(os.path.join(root,'properties.jsonl'))]
notes=json.load(open(os.path.join(here,'notes.json')))
th={}
for f in sorted(glob.glob(os.path.join(root,'rocq/theories/Properties_*.v'))):
    for m in re.finditer(r'^(?:Theorem|Corollary)\s+((C\d\d)_\w+)',open(f).read(),re.M):
        th.setdefault(m.group(2),[]).append(m.group(1))
claims=[]
for p in props:
    if p not in th: 
        continue
    partial=any(x.endswith('_partial') or x.endswith('_refuted') for x in th[p])
    st=notes.get(p,{}).get('status') or ('partial' if partial else 'proved')
    claims.append({"property":p,"status":st,"theorems":th[p],"note":notes.get(p,{}).get('note','')})
json.dump({"claims":claims},open(os.path.join(root,'MANIFEST.json'),'w'),indent=1)
print(len(claims),'claims',sum(len(c['theorems']) for c in claims),'theorems; missing',[p for p in props if p not in th])
