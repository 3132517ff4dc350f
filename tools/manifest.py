#!/usr/bin/env python3
"""Regenerate MANIFEST.json: theorem names are scanned from rocq/theories/Props_*.v,
status and notes come from tools/notes.json ({id: [status, note]})."""
import re, json, glob, os
root=os.path.dirname(os.path.dirname(os.path.abspath(__file__)))
notes=json.load(open(root+'/tools/notes.json'))
th={}
for f in sorted(glob.glob(root+'/rocq/theories/Props_*.v')):
    for m in re.finditer(r'^Theorem (C\d+)_(\w+)',open(f).read(),re.M):
        th.setdefault(m.group(1),[]).append(m.group(1)+'_'+m.group(2))
claims=[]
for l in open(root+'/properties.jsonl'):
    i=json.loads(l)['id']
    if i not in th and i not in notes: print('no claim for',i); continue
    st,note=notes.get(i,['proved',''])
    claims.append({'property':i,'status':st,'theorems':th.get(i,[]),'note':note})
json.dump({'claims':claims},open(root+'/MANIFEST.json','w'),indent=1)
print(len(claims),'claims',sum(len(c['theorems']) for c in claims),'theorems')
