#!/usr/bin/env python3
"""Regenerate MANIFEST.json from the theorem names in rocq/theories/P_*.v and the notes below."""
import json, re, glob, os
root = os.path.dirname(os.path.dirname(os.path.abspath(__file__)))
names = {}
for f in sorted(glob.glob(root + '/rocq/theories/P_*.v')):
    for m in re.finditer(r'^Theorem (C\d\d)_(\w+)', open(f).read(), re.M):
        names.setdefault(m.group(1), []).append(m.group(1) + '_' + m.group(2))
notes = json.load(open(root + '/tools/notes.json'))
claims = []
for line in open(root + '/properties.jsonl'):
    pid = json.loads(line)['id']
    n = notes.get(pid, {})
    th = names.get(pid, []) + n.get('also', [])
    if 'status' in n: st = n['status']
    elif not th: st = 'partial'
    elif any(t.endswith('_partial') or t.endswith('_refuted') for t in th): st = 'partial'
    else: st = 'proved'
    note = n.get('note', '')
    if not th and not note: note = 'not proved yet'
    claims.append({'property': pid, 'status': st, 'theorems': th, 'note': note})
json.dump({'claims': claims}, open(root + '/MANIFEST.json', 'w'), indent=1)
print({s: sum(c['status'] == s for c in claims) for s in ('proved', 'partial', 'not_applicable')})
