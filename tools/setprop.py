#!/usr/bin/env python3
"""setprop.py FILE: merge the JSON lines of FILE (id plus changed fields) into properties.jsonl."""
import json, sys, os
root = os.path.dirname(os.path.dirname(os.path.abspath(__file__)))
p = root + '/properties.jsonl'
props = [json.loads(l) for l in open(p) if l.strip()]
idx = {x['id']: x for x in props}
for l in open(sys.argv[1]):
    if not l.strip(): continue
    u = json.loads(l)
    if u['id'] in idx: idx[u['id']].update(u)
    else: props.append(u); idx[u['id']] = u
open(p, 'w').write(''.join(json.dumps(x, ensure_ascii=False) + '\n' for x in props))
