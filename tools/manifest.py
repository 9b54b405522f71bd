#!/usr/bin/env python3
"""Regenerate MANIFEST.json from the theorem names C<nn>_... in rocq/theories/Prop*.v
and the status/notes below."""
import re, json, glob, os
root = os.path.dirname(os.path.dirname(os.path.abspath(__file__)))
thms = {}
for f in sorted(glob.glob(root + '/rocq/theories/Prop*.v')):
    for m in re.finditer(r'^(?:Theorem|Lemma|Corollary)\s+(C\d+)_(\w+)', open(f).read(), re.M):
        thms.setdefault(m.group(1), []).append(m.group(1) + '_' + m.group(2))
notes = json.load(open(root + '/tools/notes.json'))
claims = []
for line in open(root + '/properties.jsonl'):
    pid = json.loads(line)['id']
    n = notes.get(pid, {})
    t = thms.get(pid, [])
    status = n.get('status')
    if status is None:
        status = 'proved' if t and not any(x.endswith(('_partial', '_refuted')) for x in t) else 'partial'
    if not t:
        status = n.get('status', 'partial')
    claims.append({'property': pid, 'status': status, 'theorems': t,
                   'note': n.get('note', '' if t else 'not yet proved')})
json.dump({'claims': claims}, open(root + '/MANIFEST.json', 'w'), indent=1)
print({s: sum(c['status'] == s for c in claims) for s in ('proved', 'partial', 'not_applicable')},
      'empty:', [c['property'] for c in claims if not c['theorems']])
