#!/usr/bin/env python3
"""Mutation harness: mutate.py MUTANTS.json [id ...]
Copies rocq/ to a scratch directory, applies one edit to the model, rebuilds; every lemma whose
proof no longer checks is noted and (in the scratch copy only) left without proof, so that the rest can be
looked at; at the end the property theorems that failed themselves or rest on a failed lemma are listed."""
import sys,os,re,json,subprocess,shutil,concurrent.futures as cf,threading,time
SRC='/verif/rocq'; BASE='/tmp/mut'
J=int(os.environ.get('J','2'))
def order():
    return [l.strip()[9:-2] for l in open(f'{SRC}/_CoqProject') if l.strip().startswith('theories/')]
def deps(f,files):
    s=open(f).read(); out=set()
    for m in re.finditer(r'From Verif Require (?:Import|Export)([^.]*)\.',s): out|=set(m.group(1).split())
    return out&set(files)
START=re.compile(r'^\s*(?:(?:Local|Global|#\[[^\]]*\])\s+)*(Lemma|Theorem|Example|Corollary|Remark|Fact|Instance|Definition|Fixpoint|Program)\s+(\w+)',re.M)
def enclosing(src,pos):
    best=None
    for m in START.finditer(src):
        if m.start()<=pos: best=m
        else: break
    return best
def strip(src,pos):
    """replace the proof that contains pos by Admitted; returns (newsrc,name) or None"""
    m=enclosing(src,pos)
    if not m: return None
    i=src.find('Proof',m.start())
    if i<0 : return None
    e=re.compile(r'\b(Qed|Defined)\.').search(src,i)
    if not e or pos>e.end() or (START.search(src,m.end()) and START.search(src,m.end()).start()<i): 
        return None
    if pos<i: return None
    return src[:i]+'Admitted.'+src[e.end():], m.group(2)
def compile(d,f,log,failed):
    p=f'{d}/theories/{f}.v'
    n=0
    while True:
        n+=1
        try:
            r=subprocess.run(['coqc','-Q','.','Verif',f+'.v'],cwd=f'{d}/theories',capture_output=True,text=True,timeout=150)
            if r.returncode==0: return True
            m=re.search(r'line (\d+), characters (\d+)-',r.stderr)
            if not m: log.append(f'{f}: {r.stderr[:300]}'); return False
            msg=r.stderr[m.end():][:200]
            src=open(p).read()
            off=sum(len(l.encode()) for l in src.splitlines(True)[:int(m.group(1))-1]) 
            lines=src.splitlines(True); pos=sum(len(l) for l in lines[:int(m.group(1))-1])+min(int(m.group(2)),len(lines[int(m.group(1))-1])-1)
        except subprocess.TimeoutExpired:
            out=''
            pr=subprocess.Popen(['coqc','-time','-Q','.','Verif',f+'.v'],cwd=f'{d}/theories',stdout=subprocess.PIPE,stderr=subprocess.STDOUT,text=True)
            try: out,_=pr.communicate(timeout=150)
            except subprocess.TimeoutExpired: pr.kill(); out,_=pr.communicate()
            ms=list(re.finditer(r'Chars (\d+) - (\d+)',out))
            if not ms: log.append(f'{f}: timeout'); return False
            src=open(p).read(); b=src.encode(); pos=len(b[:int(ms[-1].group(2))].decode(errors='ignore'))+2; msg='timeout'
        x=strip(src,pos)
        if not x: 
            log.append(f'{f}: cannot strip at {pos}: {msg!r} :: {src[pos:pos+80]!r}'); return False
        open(p,'w').write(x[0]); failed.append((f,x[1]))
        if n>60: log.append(f'{f}: too many'); return False
def thms(files):
    out=[]
    for f in files:
        s=open(f'{SRC}/theories/{f}.v').read()
        for m in re.finditer(r'^(?:Theorem|Example|Lemma|Corollary) (C\d\d_\w+)',s,re.M): out.append((f,m.group(1)))
    return out
def run(mu):
    d=f'{BASE}/{mu["id"]}'
    shutil.rmtree(d,ignore_errors=True); os.makedirs(BASE,exist_ok=True)
    subprocess.run(['cp','-a',SRC,d],check=True)
    files=order()
    if 'ONLY' in os.environ:   # only these files and what they need
        al=files; todo_=os.environ['ONLY'].split(); keep=set()
        while todo_:
            f=todo_.pop()
            if f not in keep: keep.add(f); todo_+=list(deps(f'{SRC}/theories/{f}.v',al))
        files=[f for f in al if f in keep]
    edits=mu['edits'] if 'edits' in mu else [mu]
    for e in edits:
        p=f'{d}/theories/{e["file"]}.v'; s=open(p).read()
        if s.count(e['old'])!=e.get('count',1): return dict(id=mu['id'],error=f'old text occurs {s.count(e["old"])} times')
        open(p,'w').write(s.replace(e['old'],e['new']))
    dep={f:deps(f'{SRC}/theories/{f}.v',files) for f in files}
    dirty=set(e['file'] for e in edits)
    for f in files:
        if dep[f]&dirty: dirty.add(f)
    todo=[f for f in files if f in dirty]
    for f in todo:
        for x in ('.vo','.vok','.vos','.glob'):
            try: os.remove(f'{d}/theories/{f}{x}')
            except FileNotFoundError: pass
    log=[];failed=[];done=set(files)-set(todo);bad=set();running={}
    with cf.ThreadPoolExecutor(J) as ex:
        while todo or running:
            for f in list(todo):
                if dep[f]&bad: bad.add(f); todo.remove(f); continue
                if dep[f]<=done and len(running)<J:
                    todo.remove(f); running[ex.submit(compile,d,f,log,failed)]=f
            if not running: 
                if not todo: break
                continue
            dn,_=cf.wait(running,return_when=cf.FIRST_COMPLETED)
            for x in dn:
                f=running.pop(x)
                (done if x.result() else bad).add(f)
    fl=[n for _,n in failed]
    aff=[]
    ts=[(f,t) for f,t in thms(files) if f in dirty]
    ok=[(f,t) for f,t in ts if f not in bad]
    lost=[t for f,t in ts if f in bad]
    if ok:
        fs=sorted(set(f for f,_ in ok))
        q='From Verif Require Import '+' '.join(fs)+'.\n'+''.join(f'Definition MARK_{t} := tt. Print MARK_{t}.\nPrint Assumptions {f}.{t}.\n' for f,t in ok)
        open(f'{d}/theories/Zq.v','w').write(q)
        r=subprocess.run(['coqc','-Q','.','Verif','Zq.v'],cwd=f'{d}/theories',capture_output=True,text=True)
        parts=re.split(r'MARK_(C\d\d_\w+) = tt\s*\n\s*: unit',r.stdout)
        for i in range(1,len(parts),2):
            if 'Closed under' in parts[i+1]: continue
            if parts[i]=='C14_step_in_floating_point' and 'FloatStep' not in [f for f,_ in failed]: continue  # standard axioms of the reals
            aff.append(parts[i])
        if r.returncode: log.append('assumptions: '+r.stderr[:300])
    shutil.rmtree(d,ignore_errors=True)
    return dict(id=mu['id'],failed=[f'{f}.{n}' for f,n in failed],affected=aff,lost=lost,log=log)
if __name__=='__main__':
    ms=json.load(open(sys.argv[1])); sel=sys.argv[2:]
    out=sys.argv[1].replace('.json','.out.jsonl')
    for mu in ms:
        if sel and mu['id'] not in sel: continue
        t=time.time(); r=run(mu); r['time']=round(time.time()-t)
        open(out,'a').write(json.dumps(r)+'\n'); print(r['id'],r.get('error',''),len(r.get('failed',[])),len(r.get('affected',[])),r['time'],flush=True)
