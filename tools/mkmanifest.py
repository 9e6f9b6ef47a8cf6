#!/usr/bin/env python3
"""Regenerate MANIFEST.json: collects the theorems named Cnn_* of the P*.v files.
STATUS/NOTES override the defaults."""
import re, json, glob, os
root = os.path.dirname(os.path.dirname(os.path.abspath(__file__)))
thms = {}
for f in sorted(glob.glob(root + '/rocq/theories/P*.v')):
    for m in re.finditer(r'^(?:Theorem|Corollary) (C\d\d+)(\w*)', open(f).read(), re.M):
        thms.setdefault(m.group(1), []).append(m.group(1) + m.group(2))
notes = json.load(open(root + '/tools/notes.json'))
claims = []
for l in open(root + '/properties.jsonl'):
    d = json.loads(l)
    i = d['id']
    n = notes.get(i, {})
    if i in thms:
        st = n.get('status', 'partial' if all(t.endswith('_partial') for t in thms[i]) else 'proved')
        claims.append({'property': i, 'status': st, 'theorems': thms[i], 'note': n.get('note', '')})
    elif n.get('status'):
        claims.append({'property': i, 'status': n['status'], 'theorems': [], 'note': n.get('note', '')})
json.dump({'claims': claims}, open(root + '/MANIFEST.json', 'w'), indent=1)
print(len(claims), 'claims;', 'missing:', [json.loads(l)['id'] for l in open(root + '/properties.jsonl') if json.loads(l)['id'] not in thms])
