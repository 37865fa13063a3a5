#!/usr/bin/env python3
"""List model definitions whose preceding comment cites no source lines."""
import glob, re
bad = 0
for f in sorted(glob.glob('rocq/theories/*_Model.v')):
    lines = open(f).read().split('\n')
    for i, l in enumerate(lines):
        m = re.match(r'\s*(Definition|Fixpoint|Inductive|Record|CoInductive|Let)\s+(\w+)', l)
        if not m:
            continue
        j = i - 1
        txt = ''
        if j >= 0 and lines[j].rstrip().endswith('*)'):
            while j >= 0:
                txt = lines[j] + '\n' + txt
                if '(*' in lines[j]:
                    break
                j -= 1
        if not re.search(r'\bl\.\s*~?\d+', txt):
            bad += 1
            print(f'{f}:{i+1}: {m.group(2)}')
print('missing:', bad)
