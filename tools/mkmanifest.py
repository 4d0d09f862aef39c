#!/usr/bin/env python3
"""Regenerate MANIFEST.json from the theorem names in rocq/theories/Props (name prefix = property id)."""
import re, json, glob, os
root = os.path.dirname(os.path.dirname(os.path.abspath(__file__)))
props = [json.loads(l) for l in open(root + '/properties.jsonl') if l.strip()]
names = {}
for f in sorted(glob.glob(root + '/rocq/theories/Props/*.v')):
    for m in re.finditer(r'^\s*(?:Theorem|Lemma)\s+(C\d\d\w*)', open(f).read(), re.M):
        names.setdefault(m.group(1)[:3], []).append(m.group(1))
notes = json.load(open(root + '/tools/notes.json'))
claims = []
for p in props:
    i = p['id']
    ths = [n for n in names.get(i, []) if 'nonvacuous' not in n] + notes.get(i, {}).get('also', [])
    st = notes.get(i, {}).get('status') or ('partial' if any(n.endswith('_partial') for n in ths) else 'proved' if ths else 'not_applicable')
    claims.append({'property': i, 'status': st, 'theorems': ths, 'note': notes.get(i, {}).get('note', '')})
json.dump({'claims': claims}, open(root + '/MANIFEST.json', 'w'), indent=1)
print([c['property'] for c in claims if not c['theorems']], sum(len(c['theorems']) for c in claims))
