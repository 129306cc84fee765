#!/usr/bin/env python3
"""Apply seeded bugs to a scratch copy of the model and record which theorems fail.
usage: seed.py seeds.json   (each: id, file, old, new, claim; optional tightened)"""
import json, os, re, shutil, subprocess, sys
ROOT = os.path.dirname(os.path.dirname(os.path.abspath(__file__)))
P = '/tmp/seed0'  # pristine build
W = '/tmp/seed'
LOG = os.path.join(ROOT, 'seeded', 'LOG.jsonl')
def sh(c, t=3000):
    return subprocess.run(c, shell=True, capture_output=True, text=True, timeout=t)
def enclosing(path, line):
    name = '?'
    for i, l in enumerate(open(path), 1):
        if i > line: break
        m = re.match(r'\s*(?:#\[[^\]]*\]\s*)?(?:Theorem|Lemma|Example|Corollary|Instance|Definition|Fixpoint)\s+([\w\']+)', l)
        if m: name = m.group(1)
    return name
def prepare():
    sh(f'mkdir -p {P}; cp -a {ROOT}/rocq/. {P}/')
    p = os.path.join(P, '_CoqProject')
    t = open(p).read().replace('theories/Audit.v\n', '')
    open(p, 'w').write(t)
    r = sh(f'cd {P} && coq_makefile -f _CoqProject -o Makefile && make -j4')
    assert r.returncode == 0, r.stderr
def run(seed):
    sh(f'rm -rf {W}; cp -a {P} {W}')
    f = os.path.join(W, 'theories', seed['file'])
    orig = open(f).read()
    if orig.count(seed['old']) < 1:
        return None, 'pattern not found'
    open(f, 'w').write(orig.replace(seed['old'], seed['new'], 1))
    r = sh(f'cd {W} && make -k -j3 2>&1', 4000)
    fails = []
    for m in re.finditer(r'File "\./(theories/\w+\.v)", line (\d+), characters [\d-]+:\nError', r.stdout):
        fails.append(os.path.basename(m.group(1))[:-2] + '.' + enclosing(os.path.join(W, m.group(1)), int(m.group(2))))
    return fails, r.stdout[-500:] if not fails and r.returncode else ''
def main():
    seeds = json.load(open(sys.argv[1]))
    os.makedirs(os.path.dirname(LOG), exist_ok=True)
    prepare()
    for s in seeds:
        fails, note = run(s)
        rec = {'id': s['id'], 'definition': s['def'], 'file': s['file'], 'edit': {'old': s['old'], 'new': s['new']},
               'claim': s['claim'], 'failed': fails, 'tightened': s.get('tightened', [])}
        if note: rec['note'] = note
        print(s['id'], fails, note, flush=True)
        with open(LOG, 'a') as o: o.write(json.dumps(rec) + '\n')
main()
