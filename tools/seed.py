#!/usr/bin/env python3
"""Seeded-bug runner. Usage: seed.py mutations.json [ids...]
Works in scratch copies /tmp/seed/w<k> of /verif/rocq (compiled pristine copy in /tmp/seed/base).
For every mutation: apply the edit to the model file, recompile what depends on it and is needed by the target property files.
A lemma whose proof fails is replaced by Admitted in the scratch copy, so that the whole list of failing theorems is found:
a theorem failed if its own proof broke or Print Assumptions lists an admitted lemma.  Results: /tmp/seed/out/<id>.json"""
import json,os,re,subprocess,sys,shutil
from concurrent.futures import ThreadPoolExecutor
from queue import Queue
BASE='/tmp/seed/base/theories'; OUT='/tmp/seed/out'
W=int(os.environ.get('WORKERS','3'))
os.makedirs(OUT,exist_ok=True)
order=[l.strip()[9:-2] for l in open('/tmp/seed/base/_CoqProject') if l.startswith('theories/')]
deps={}
for f in order:
    s=open(f'{BASE}/{f}.v').read(); d=set()
    for m in re.finditer(r'From\s+Verif\s+Require\s+(?:Import|Export)?\s*([^.]*)\.',s): d|=set(m.group(1).split())
    deps[f]=d&set(order)
def closure(f):
    seen=set(); st=[f]
    while st:
        x=st.pop()
        if x in seen: continue
        seen.add(x); st+=deps[x]
    return seen
KW=r'(?:Theorem|Lemma|Corollary|Example|Fact|Remark|Proposition|Instance|Definition|Fixpoint)'
def admit(path,line):
    src=open(path).read(); lines=src.split('\n')
    pos=sum(len(l)+1 for l in lines[:line-1])
    starts=[m for m in re.finditer(r'^\s*(?:Local\s+|Global\s+)?'+KW+r'\s+([\w\']+)',src,re.M) if m.start()<=pos+len(lines[line-1])]
    # the error may be on a line holding the start itself
    for m in reversed(starts):
        if m.start()<=pos+len(lines[line-1]):
            e=re.search(r'\b(Qed|Defined)\.',src[m.start():])
            p=re.search(r'\bProof\b[^.]*\.',src[m.start():])
            if not e or not p or p.start()>e.start(): return None
            end=m.start()+e.end()
            if end<pos: return None
            new=src[:m.start()+p.end()]+' Admitted.'+src[end:]
            open(path,'w').write(new)
            return m.group(1)
    return None
def run(mu,wd):
    th=wd+'/theories'
    subprocess.run('rm -rf %s; cp -a /tmp/seed/base %s'%(wd,wd),shell=True,check=True)
    f=mu['file']; p=f'{th}/{f}.v'; s=open(p).read()
    if s.count(mu['old'])<1: return {'id':mu['id'],'status':'NOMATCH'}
    if s.count(mu['old'])>1 and not mu.get('first'): return {'id':mu['id'],'status':'AMBIGUOUS'}
    open(p,'w').write(s.replace(mu['old'],mu['new'],1))
    targets=mu['targets']
    need=set()
    for t in targets: need|=closure(t)
    todo=[x for x in order if x in need and f in closure(x)]
    admitted=[]; broken=[]; assump={}
    for x in todo:
        if any(b in deps[x] or b in closure(x) for b in broken): broken.append(x); continue
        for it in range(60):
            try: r=subprocess.run(['coqc','-Q','.','Verif',x+'.v'],cwd=th,capture_output=True,text=True,timeout=900)
            except subprocess.TimeoutExpired: broken.append(x); break
            if r.returncode==0:
                assump[x]=r.stdout; break
            m=re.search(r'File "\./%s\.v", line (\d+), characters [^\n]*\nError'%x,r.stderr+r.stdout)
            if not m: broken.append(x); assump[x]=(r.stdout+r.stderr)[-300:]; break
            n=admit(f'{th}/{x}.v',int(m.group(1)))
            if not n: broken.append(x+':'+m.group(1)); broken.append(x); assump[x]=(r.stderr)[-400:]; break
            admitted.append(n)
    failed=[];survive=[]
    for t in targets:
        src=open(f'{BASE}/{t}.v').read()
        thms=re.findall(r'^Theorem\s+([\w\']+)',src,re.M)
        if t in broken: failed+=thms; continue
        # second pass: print assumptions of every theorem
        q='From Verif Require Import '+t+'.\n'+'\n'.join(f'Print Assumptions {n}.\nCheck "@@{n}"%string.' for n in thms)
        open(f'{th}/QQ.v','w').write('From Coq Require Import String.\n'+q)
        r=subprocess.run(['coqc','-Q','.','Verif','QQ.v'],cwd=th,capture_output=True,text=True)
        parts=re.split(r'"@@([\w\']+)"',r.stdout)
        for n,txt in zip(parts[1::2],parts[0::2]):
            (failed if any(re.search(r'(^|\s|\.)%s\b'%re.escape(a),txt) for a in admitted) else survive).append(n)
        if len(parts)//2!=len(thms): failed.append('ERR '+r.stderr[-200:])
    return {'id':mu['id'],'status':'done','failed':failed,'survive':survive,'admitted':admitted,'broken':broken,'err':{b:assump.get(b,'') for b in broken if b in assump}}
def main():
    mus=json.load(open(sys.argv[1])); ids=set(sys.argv[2:])
    mus=[m for m in mus if (m['id'] in ids if ids else not os.path.exists(f"{OUT}/{m['id']}.json"))]
    q=Queue()
    for i in range(W): q.put(f'/tmp/seed/w{i}')
    def job(m):
        wd=q.get()
        try:
            r=run(m,wd); json.dump(r,open(f"{OUT}/{m['id']}.json",'w'),indent=1)
            print(m['id'],m['file'],r['status'],'failed',len(r.get('failed',[])),'survive',len(r.get('survive',[])),'broken',r.get('broken'),flush=True)
        except Exception as e: print(m['id'],'EXC',e,flush=True)
        finally: q.put(wd)
    with ThreadPoolExecutor(W) as ex: list(ex.map(job,mus))
main()
