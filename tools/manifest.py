#!/usr/bin/env python3
"""Regenerate MANIFEST.json: theorem names are taken from rocq/theories/Prop*.v
by their Cxx_ prefix, notes and exceptions from tools/notes.json."""
import json, re, glob, os
root = os.path.dirname(os.path.dirname(os.path.abspath(__file__)))
ids = [json.loads(l)['id'] for l in open(root + '/properties.jsonl') if l.strip()]
thms = {}
for f in sorted(glob.glob(root + '/rocq/theories/Prop*.v')):
    for m in re.finditer(r'^Theorem (C\d+)_(\w+)', open(f).read(), re.M):
        thms.setdefault(m.group(1), []).append(m.group(1) + '_' + m.group(2))
notes = json.load(open(root + '/tools/notes.json'))
claims = []
for i in ids:
    t = thms.get(i, [])
    n = notes.get(i, {})
    status = n.get('status') or ('partial' if (not t or any(x.endswith('_partial') for x in t)) else 'proved')
    claims.append({'property': i, 'status': status, 'theorems': t,
                   'note': n.get('note', '' if t else 'not proved yet')})
for i in thms:
    assert i in ids, i
json.dump({'claims': claims}, open(root + '/MANIFEST.json', 'w'), indent=1)
print({s: sum(c['status'] == s for c in claims) for s in ('proved', 'partial', 'not_applicable')},
      sum(map(len, thms.values())), 'theorems', [c['property'] for c in claims if not c['theorems']])
