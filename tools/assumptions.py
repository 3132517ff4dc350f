#!/usr/bin/env python3
"""Regenerate ASSUMPTIONS.md: Print Assumptions for every theorem named in MANIFEST.json.
Run after building rocq/."""
import json,re,subprocess,os,glob,tempfile
root=os.path.dirname(os.path.dirname(os.path.abspath(__file__))); th=root+'/rocq/theories'
mf=json.load(open(root+'/MANIFEST.json'))
where={}
for f in glob.glob(th+'/Props_*.v'):
    for m in re.finditer(r'(?m)^\s*(?:Theorem|Corollary)\s+(C\d+_\w+)',open(f).read()): where[m.group(1)]=os.path.basename(f)[:-2]
byf={}
for c in mf['claims']:
    for t in c['theorems']: byf.setdefault(where[t],[]).append(t)
res={}
for f,ts in sorted(byf.items()):
    d=tempfile.mkdtemp(); s='From Verif Require Import %s.\n'%f
    for t in ts: s+='Goal True. idtac "@@%s". Abort.\nPrint Assumptions %s.%s.\n'%(t,f,t)
    open(d+'/q.v','w').write(s)
    o=subprocess.run(['coqc','-q','-w','none','-Q',th,'Verif',d+'/q.v'],capture_output=True,text=True)
    assert o.returncode==0,o.stderr
    cur=None
    for l in o.stdout.split('\n'):
        if l.startswith('@@'): cur=l[2:].strip(); res[cur]=set(); continue
        m=re.match(r'^([A-Za-z_][\w.\']*)\s*(:|$)',l)
        if m and cur and not l.startswith(('Axioms','Closed')): res[cur].add(m.group(1).split('.')[-1] if False else m.group(1))
groups={}
for t,a in res.items(): groups.setdefault(tuple(sorted(a)),[]).append(t)
with open(root+'/ASSUMPTIONS.md','w') as g:
    g.write('# Print Assumptions of every theorem in MANIFEST.json\n\nGenerated by tools/assumptions.py; all of these are standard library axioms.\n')
    for a,ts in sorted(groups.items(),key=lambda x:(len(x[0]),x[0])):
        g.write('\n## '+(', '.join('`%s`'%x for x in a) if a else 'Closed under the global context (no axiom)')+'\n\n%d theorems: '%len(ts)+', '.join(sorted(ts))+'\n')
print(len(res),[(k,len(v)) for k,v in groups.items()])
