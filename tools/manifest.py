#!/usr/bin/env python3
"""Regenerate MANIFEST.json from properties.jsonl and the Theorem names in rocq/theories/Properties*.v."""
import json, re, glob, os
root = os.path.dirname(os.path.dirname(os.path.abspath(__file__)))
notes = json.load(open(root + '/tools/notes.json'))
thms = {}
for f in sorted(glob.glob(root + '/rocq/theories/Properties*.v')):
    for m in re.finditer(r'^Theorem\s+(C\d+)(\w*)', open(f).read(), re.M):
        thms.setdefault(m.group(1), []).append(m.group(1) + m.group(2))
claims = []
for line in open(root + '/properties.jsonl'):
    if not line.strip(): continue
    i = json.loads(line)['id']
    t = thms.get(i, [])
    partial = any(x.endswith('_partial') or x.endswith('_refuted') for x in t)
    st = 'partial' if (partial or not t) else 'proved'
    claims.append({'property': i, 'status': st, 'theorems': t,
                   'note': notes.get(i, '' if t else 'not yet modelled')})
json.dump({'claims': claims}, open(root + '/MANIFEST.json', 'w'), indent=1)
print(sum(c['status'] == 'proved' for c in claims), 'proved of', len(claims), [c['property'] for c in claims if not c['theorems']])
