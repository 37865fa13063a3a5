#!/usr/bin/env python3
"""Seeded-bug test.  Works in a scratch copy outside /verif.

usage: seed.py FILE DEFINITION CLAIM EDIT-DESCRIPTION OLD NEW [--log TIGHTENED...]

Applies OLD -> NEW in rocq/theories/FILE of the scratch copy, then builds.  A
proof that no longer compiles is replaced by Admitted (in the scratch copy only)
and the build goes on; afterwards the property theorems whose Print Assumptions
mention an admitted lemma are the theorems that failed."""
import json, os, re, shutil, subprocess, sys, glob
SRC = '/verif/rocq'
DST = os.environ.get('SEED_DST', '/tmp/seed_rocq')

def deps(proj):
  return [l.strip() for l in open(proj) if l.strip().endswith('.v')]

def run(cmd, cwd, timeout=900):
  p = subprocess.run(cmd, shell=True, cwd=cwd, capture_output=True, text=True, timeout=timeout)
  return p.returncode, p.stdout + p.stderr

def patch_failure(out, broken):
  ms = list(re.finditer(r'File "\./theories/(\w+\.v)", line (\d+), characters (\d+)-(\d+):\n(Error|Fatal)', out)) or \
       [m for m in re.finditer(r'File "\./theories/(\w+\.v)", line (\d+), characters (\d+)-(\d+):\n', out)]
  if not ms:
    return False
  m = ms[-1]
  fn, line = m.group(1), int(m.group(2))
  path = os.path.join(DST, 'theories', fn)
  lines = open(path).read().split('\n')
  pos = sum(len(l) + 1 for l in lines[:line - 1])
  text = '\n'.join(lines)
  heads = [h for h in re.finditer(r'^\s*(Lemma|Theorem|Example|Corollary|Fact|Remark|Local Lemma)\s+(\w+)', text, re.M) if h.start() <= pos + 200]
  heads = [h for h in heads if text.count('\n', 0, h.start(2)) <= line - 1]
  if not heads:
    print('cannot locate failing proof', fn, line); print(out[-1500:]); return False
  h = heads[-1]
  pm = re.compile(r'Proof\b').search(text, h.start())
  qm = re.compile(r'\b(Qed|Defined)\.').search(text, h.start())
  if not pm or not qm or pm.start() > qm.start():
    print('cannot patch', fn, line, h.group(2)); print(out[-1500:]); return False
  if qm.start() < pos:
    print('error outside a proof (definition or statement)', fn, line); print(out[-1500:]); return False
  if h.group(2) in [n for _, n in broken]:
    print('statement no longer type checks', fn, line, h.group(2)); print(out[-1500:]); return False
  broken.append((h.group(1), h.group(2)))
  text = text[:pm.start()] + 'Admitted.' + text[qm.end():]
  open(path, 'w').write(text)
  return True

def main():
  fn, defn, claim, edit, old, new = sys.argv[1:7]
  tight = []
  log = '--log' in sys.argv
  if log:
    tight = sys.argv[sys.argv.index('--log') + 1:]
  os.makedirs(DST, exist_ok=True)
  run('rsync -a --delete %s/ %s/ 2>/dev/null || (rm -rf %s && cp -a %s %s)' % (SRC, DST, DST, SRC, DST), '/')
  p = os.path.join(DST, 'theories', fn)
  s = open(p).read()
  assert s.count(old) == 1, 'OLD occurs %d times' % s.count(old)
  open(p, 'w').write(s.replace(old, new))
  run('coq_makefile -f _CoqProject -o Makefile', DST)
  broken = []
  outs = ''
  start = os.path.getmtime(p)
  for _ in range(200):
    rc, out = run('make -j4', DST, 3000)
    outs += out
    if rc == 0:
      break
    if not patch_failure(out, broken):
      print('UNRECOVERABLE, not logged'); return
  # which property theorems now rest on an admitted lemma or are admitted
  names = {n for _, n in broken}
  failed = []
  for f in sorted(glob.glob(DST + '/theories/*_Props.v')):
    text = open(f).read()
    ths = re.findall(r'^Theorem (C\d+_\w+)', text, re.M)
    area = os.path.basename(f)[:-2]
    q = 'From Verif Require Import %s.\n' % area + ''.join('Print Assumptions %s.\nCheck %s.\n' % (t, t) for t in ths)
    if not names: continue
    vo = f[:-2] + '.vo'
    if os.path.exists(vo) and os.path.getmtime(vo) < start: continue  # does not depend on the edit
    open(DST + '/q.v', 'w').write(q)
    rc, out = run('coqc -Q theories Verif q.v', DST)
    chunks = re.split(r'^(?=Closed under|Axioms:)', out, flags=re.M)[1:]
    for t, c in zip(ths, chunks):
      head = c.split('\n' + t)[0]
      # a broken theorem is its own axiom, and its name ends [head]
      if t in names or any(re.search(r'^(\w+\.)*%s\b' % re.escape(n), head, re.M) for n in names):
        failed.append(t)
  examples = [n for k, n in broken if k == 'Example']
  rec = {'definition': fn + ': ' + defn, 'edit': edit, 'claim': claim,
         'theorems_failed': failed, 'examples_failed': examples,
         'lemmas_broken': [n for k, n in broken if k != 'Example'], 'theorems_tightened': tight}
  print(json.dumps(rec, indent=1))
  if log:
    open('/verif/seeded/LOG.jsonl', 'a').write(json.dumps(rec) + '\n')

main()
