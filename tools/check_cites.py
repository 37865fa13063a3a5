#!/usr/bin/env python3
"""Check that the source lines cited in model comments exist and start and end on lines with text.

Abbreviations are read from the header of each file: a path ending in .py followed by ("AB").
A name of a function or class after a range must be defined in that range or enclose it.
A citation is AB l.N or AB l.N-M, further l.N belong to the abbreviation before them in the comment."""
import glob, os, re, sys
ROOT = sys.argv[1] if len(sys.argv) > 1 else '/repo'
ALL = [os.path.join(d, x) for d, _, fs in os.walk(ROOT) for x in fs if x.endswith('.py')]
bad = checked = unknown = 0


def block_end(src, k):
    """The last line of the definition that starts at line k."""
    ind = len(src[k - 1]) - len(src[k - 1].lstrip())
    for n in range(k, len(src)):
        if src[n].strip() and len(src[n]) - len(src[n].lstrip()) <= ind and src[n].lstrip()[0] not in ')]}':
            return n
    return len(src)


for f in sorted(glob.glob('rocq/theories/*_Model.v')):
    text = open(f).read()
    head = re.sub(r'\s+', ' ', text[:text.index('*)')])
    abbr = {}
    dirs = re.findall(r'[\w/]+/', head)
    for p, a in re.findall(r'([\w/]+\.py)\s*\("(\w+)"\)', head):
        c = [x for x in ALL if x.endswith('/' + p.lstrip('/'))]
        if len(c) > 1:
            for d in dirs:
                c2 = [x for x in c if d.strip('/') in x]
                if len(c2) == 1:
                    c = c2
        if len(c) == 1:
            abbr[a] = open(c[0]).read().split('\n')
        else:
            print(f'{f}: {p}: {len(c)} candidates')
    for m in re.finditer(r'\(\*.*?\*\)', text, re.S):
        cur = list(abbr)[0] if len(abbr) == 1 else None
        for t in re.finditer(r'\b([A-Z]{2,4})\b(?=[^.]{0,4}\s*l\.\s*~?\d)|\bl\.\s*~?(\d+)(?:-(\d+))?', m.group(0)):
            if t.group(1):
                cur = t.group(1)
                continue
            if cur not in abbr:
                unknown += 1
                continue
            src = abbr[cur]
            checked += 1
            w = re.match(r'(?:\s|\*)*(_*[a-z]\w*_\w+|_*[A-Z][a-z]+[A-Z]\w+)', m.group(0)[t.end():])
            if w and t.group(3):
                lo, hi = int(t.group(2)), int(t.group(3))
                defs = [k + 1 for k, x in enumerate(src) if re.match(r'\s*(async def|def|class)\s+' + w.group(1) + r'\b', x)]
                if defs and not any(lo - 3 <= k <= hi or k <= lo <= block_end(src, k) for k in defs):
                    bad += 1
                    line = text[:m.start() + t.start()].count('\n') + 1
                    print(f'{f}:{line}: {cur} l.{lo}-{hi}: {w.group(1)} is at {defs}')
            for n in (t.group(2), t.group(3)):
                if n and (int(n) > len(src) or int(n) < 1 or not src[int(n) - 1].strip()):
                    bad += 1
                    line = text[:m.start() + t.start()].count('\n') + 1
                    print(f'{f}:{line}: {cur} l.{n}: ' + ('beyond the end' if int(n) > len(src) else 'empty line'))
print(f'checked: {checked}, abbreviation not found: {unknown}, bad: {bad}')
