#!/usr/bin/env python3
"""Prints, for every theorem in MANIFEST.json, what Print Assumptions lists (grouped).  Needs a compiled build in rocq/.
Usage: tools/assumptions.py > table (markdown)."""
import json,re,subprocess,glob,os,collections
root=os.path.join(os.path.dirname(os.path.abspath(__file__)),'..')
m=json.load(open(os.path.join(root,'MANIFEST.json')))
where={}
for f in glob.glob(os.path.join(root,'rocq/theories/*.v')):
    for t in re.findall(r'(?:Theorem|Lemma|Corollary|Example)\s+(C\d\d_\w+)',open(f).read()): where[t]=os.path.basename(f)[:-2]
names=[t for c in m['claims'] for t in c['theorems']]
mods=sorted({where[t] for t in names})
src='From Verif Require '+' '.join(mods)+'.\n'
for t in names: src+='Goal True. idtac "@@%s". Abort.\nPrint Assumptions Verif.%s.%s.\n'%(t,where[t],t)
open('/tmp/Assume.v','w').write(src)
r=subprocess.run(['coqc','-Q',os.path.join(root,'rocq/theories'),'Verif','/tmp/Assume.v'],capture_output=True,text=True)
if r.returncode: raise SystemExit(r.stderr[-2000:])
groups=collections.OrderedDict()
for part in r.stdout.split('@@')[1:]:
    t,body=part.split('\n',1)
    ax=tuple(sorted(set(re.findall(r'^([A-Za-z_][\w.]*)(?=\s*:|\s*$)',body,re.M))-{'Axioms','Closed'})) if 'Axioms:' in body else ()
    groups.setdefault(ax,[]).append(t)
for ax,ts in sorted(groups.items()):
    print('* '+('no axioms (closed under the global context)' if not ax else ', '.join('`%s`'%a for a in ax))+': '+', '.join(ts)+'\n')
