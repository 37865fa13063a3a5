#!/usr/bin/env python3
"""Regenerates MANIFEST.json from the theorem names in rocq/theories/*_Props.v
and the notes in tools/notes.json."""
import glob, json, os, re
root = os.path.dirname(os.path.dirname(os.path.abspath(__file__)))
notes = json.load(open(os.path.join(root, 'tools', 'notes.json')))
thms = {}
for f in sorted(glob.glob(os.path.join(root, 'rocq/theories/*_Props.v'))):
  for m in re.finditer(r'^Theorem (C\d+)_(\w+)', open(f).read(), re.M):
    thms.setdefault(m.group(1), []).append(m.group(1) + '_' + m.group(2))
claims = []
for line in open(os.path.join(root, 'properties.jsonl')):
  line = line.strip()
  if not line:
    continue
  pid = json.loads(line)['id']
  ts = thms.get(pid, [])
  n = notes.get(pid, {})
  if n.get('status'):
    status = n['status']
  elif not ts:
    status = 'partial'
  elif any(t.endswith('_partial') or t.endswith('_refuted') for t in ts):
    status = 'partial'
  else:
    status = 'proved'
  note = n.get('note', '' if ts else 'not yet modelled')
  claims.append({'property': pid, 'status': status, 'theorems': ts, 'note': note})
json.dump({'claims': claims}, open(os.path.join(root, 'MANIFEST.json'), 'w'), indent=1)
open(os.path.join(root, 'MANIFEST.json'), 'a').write('\n')
print(len(claims), 'claims;', sum(1 for c in claims if c['theorems']), 'with theorems')
