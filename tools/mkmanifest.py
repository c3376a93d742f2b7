#!/usr/bin/env python3
"""Writes MANIFEST.json from the theorems named Cnn_... in rocq/theories and the notes below."""
import glob, json, os, re
root = os.path.dirname(os.path.dirname(os.path.abspath(__file__)))
NOTE = json.load(open(os.path.join(root, 'tools', 'notes.json')))
thms = {}
order = [l.strip() for l in open(os.path.join(root, 'rocq/_CoqProject')) if l.strip().endswith('.v')]
for f in order:
    for m in re.finditer(r'^Theorem (C\d\d)_(\w+)', open(os.path.join(root, 'rocq', f)).read(), re.M):
        thms.setdefault(m.group(1), []).append(m.group(1) + '_' + m.group(2))
claims = []
for l in open(os.path.join(root, 'properties.jsonl')):
    i = json.loads(l)['id']
    ts = thms.get(i, [])
    part = any(t.endswith('_partial') or t.endswith('_refuted') for t in ts)
    n = NOTE.get(i, {})
    if not ts and n.get('status') != 'not_applicable':
        print('no theorem for', i); continue
    claims.append({'property': i, 'status': n.get('status', 'partial' if part else 'proved'), 'theorems': ts, 'note': n.get('note', '')})
extra = set(thms) - {c['property'] for c in claims}
assert not extra, extra
json.dump({'claims': claims}, open(os.path.join(root, 'MANIFEST.json'), 'w'), indent=1)
