#!/usr/bin/env python3
"""Collect theorem names Cnn_* from the Props files and write MANIFEST.json.
Status: a property is 'proved' unless it has a *_partial or *_refuted theorem, or is listed in OVERRIDE."""
import json, re, glob, os
root = os.path.dirname(os.path.dirname(os.path.abspath(__file__)))
props = [json.loads(l) for l in open(root + '/properties.jsonl')]
thms = {}
for f in sorted(glob.glob(root + '/rocq/theories/*Props*.v')):
    for m in re.finditer(r'^Theorem\s+((C\d\d+)_\w+)', open(f).read(), re.M):
        thms.setdefault(m.group(2), []).append(m.group(1))
NOTES = json.load(open(root + '/scripts/notes.json'))
claims = []
for p in props:
    t = thms.get(p['id'], [])
    n = NOTES.get(p['id'], {})
    if not t and 'status' not in n:
        continue
    st = n.get('status') or ('partial' if any(x.endswith(('_partial', '_refuted')) for x in t) else 'proved')
    claims.append({'property': p['id'], 'status': st, 'theorems': t, 'note': n.get('note', '')})
json.dump({'claims': claims}, open(root + '/MANIFEST.json', 'w'), indent=1)
miss = [p['id'] for p in props if p['id'] not in thms]
print(len(claims), 'claims;', sum(c['status']=='proved' for c in claims), 'proved; missing:', ' '.join(miss))
