#!/usr/bin/env python3
"""Usage: addnote.py Cnn "note" [status] -- edits tools/notes.json."""
import json, sys, os
p = os.path.join(os.path.dirname(os.path.abspath(__file__)), 'notes.json')
d = json.load(open(p))
e = {'note': sys.argv[2]}
if len(sys.argv) > 3:
  e['status'] = sys.argv[3]
d[sys.argv[1]] = e
with open(p, 'w') as f:
  f.write('{\n' + ',\n'.join(f' {json.dumps(k)}: {json.dumps(d[k])}' for k in sorted(d)) + '\n}\n')
