#!/usr/bin/env python3
"""mklog.py MUTANTS.json: appends to seeded/LOG.jsonl one line per finished mutant of the batch"""
import json,sys,os
p=sys.argv[1]; M={m['id']:m for m in json.load(open(p))}
log='/verif/seeded/LOG.jsonl'
have=set(json.loads(l)['id'] for l in open(log)) if os.path.exists(log) else set()
for l in open(p.replace('.json','.out.jsonl')):
    r=json.loads(l)
    if r['id'] in have or 'error' in r: continue
    m=M[r['id']]; have.add(r['id'])
    failed=r['failed']; th=[t for t in r['affected']]+r.get('lost',[])
    e=dict(id=r['id'],definition=m['definition'],edit=m['edit'],claim=m['claim'],
      change=[dict(file=x['file'],old=x['old'],new=x['new']) for x in (m['edits'] if 'edits' in m else [m])],
      lemmas_whose_proof_failed=failed,theorems_failed=th,theorems_tightened=m.get('tightened',[]))
    if 'note' in m: e['note']=m['note']
    open(log,'a').write(json.dumps(e,ensure_ascii=False)+'\n')
