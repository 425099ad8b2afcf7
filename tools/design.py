#!/usr/bin/env python3
"""Regenerate DESIGN.md: head + a table over all properties + tail."""
import json, os
root = os.path.dirname(os.path.dirname(os.path.abspath(__file__)))
plan = json.load(open(root + '/tools/plan.json'))   # [first, last, model, proof]
claims = {c['property']: c for c in json.load(open(root + '/MANIFEST.json'))['claims']}
out = [open(root + '/tools/design_head.md').read()]
out.append('## 4. Each property: what is modelled and how it is proved\n\nStatus P = proved as stated, R = refuted as stated: the failing call is a theorem `_refuted`, the exact or restricted claim is proved in `_partial` theorems (or a companion property).\n\n'
           '| id | property | status | model | proof |\n|---|---|---|---|---|\n')
for line in open(root + '/properties.jsonl'):
    p = json.loads(line); n = int(p['id'][1:])
    m, pr = next(((m, q) for a, b, m, q in plan if a <= n <= b), ('', ''))
    c = claims[p['id']]
    st = 'P' if c['status'] == 'proved' else 'R'
    note = c['note']
    out.append('| %s | %s | %s | %s | %s |\n' % (p['id'], p['title'], st, m, pr + ((' — ' + note) if note else '')))
out.append('\n' + open(root + '/tools/design_tail.md').read())
open(root + '/DESIGN.md', 'w').write(''.join(out))
