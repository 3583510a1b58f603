#!/usr/bin/env python3
"""Mutation tests of the theorems, in a scratch copy.

usage: mutate.py MUTANTS.py WORKDIR OUT.jsonl [name ...]

MUTANTS.py defines M, a list of dicts: name, file, old, new (exact text, must occur once), definition,
edit, claim. For each mutant the theories are copied, the edit is made, and the files are compiled in order.
A proof that no longer goes through is replaced by Admitted in the scratch copy and the build goes on, so that
at the end Print Assumptions tells exactly which property theorems have lost their proof."""
import sys, os, re, json, shutil, subprocess, time
SRC = os.environ.get('MUT_SRC') or os.path.abspath(os.path.join(os.path.dirname(__file__), '..', 'rocq'))
exec(open(sys.argv[1]).read())
WORK, OUT, ONLY = sys.argv[2], sys.argv[3], sys.argv[4:]
files = [l.strip() for l in open(SRC + '/_CoqProject') if l.strip().endswith('.v')]
START = re.compile(r'^\s*(?:Lemma|Theorem|Example|Corollary|Fact|Remark|Fixpoint|Definition|Inductive|Instance)\s+([\w\']+)', re.M)

def deps():
    d = {f: set() for f in files}
    for f in files:
        for m in re.finditer(r'From Verif Require (?:Import |Export )?([^.]*)\.', open(SRC + '/' + f).read()):
            for x in m.group(1).split(): d[f].add('theories/' + x + '.v')
    return d
DEPS = deps()
def ordered():
    done = []
    def visit(f):
        if f in done: return
        for g in sorted(DEPS[f]): visit(g)
        done.append(f)
    for f in files: visit(f)
    return done
files = ordered()
def dirty(f0):
    s = {f0}
    for f in files:
        if DEPS[f] & s: s.add(f)
    return [f for f in files if f in s]

def admit(path, pos):
    s = open(path).read()
    last = None
    for m in START.finditer(s):
        if m.start() <= pos: last = m
    if last is None: return None
    kind = last.group(0).split()[0]
    if kind not in ('Lemma', 'Theorem', 'Example', 'Corollary', 'Fact', 'Remark'): return None
    q = re.compile(r'\b(Qed|Defined)\.').search(s, last.start())
    p = re.compile(r'\bProof\b[^.]*\.').search(s, last.start())
    if not q or not p or p.start() > q.start() or not (p.start() <= pos <= q.end()): return None
    s = s[:p.start()] + 'Admitted.' + s[q.end():]
    open(path, 'w').write(s)
    return last.group(1)

def compile(f, log, tmo):
    fp = open(log, 'w')
    try:
        r = subprocess.run(['stdbuf', '-oL', 'coqc', '-Q', 'theories', 'Verif', '-time', f], cwd=WORK, stdout=fp, stderr=subprocess.STDOUT, timeout=tmo).returncode
    except subprocess.TimeoutExpired:
        r = 124
    fp.close()
    return r

def bytepos_of_line(path, line, char):
    b = open(path, 'rb').read().split(b'\n')
    off = sum(len(x) + 1 for x in b[:line - 1]) + char
    return len(open(path, 'rb').read()[:off].decode('utf8', 'ignore'))

def run(m):
    t0 = time.time()
    shutil.rmtree(WORK, ignore_errors=True)
    shutil.copytree(SRC, WORK)
    path = WORK + '/theories/' + m['file']
    s = open(path).read()
    n = s.count(m['old'])
    if n != 1: return dict(m, error='old text occurs %d times' % n)
    open(path, 'w').write(s.replace(m['old'], m['new']))
    failed, output = [], {}
    for f in dirty('theories/' + m['file']):
        tries = 0
        while True:
            tries += 1
            log = WORK + '/log'
            rc = compile(f, log, 400)
            txt = open(log, errors='replace').read()
            if rc == 0: output[f] = txt; break
            e = re.search(r'File "\./(theories/\S+\.v)", line (\d+), characters (\d+)', txt)
            if rc == 124:
                c = [x for x in re.findall(r'^Chars (\d+) - (\d+)', txt, re.M)]
                pos = len(open(WORK + '/' + f, 'rb').read()[:int(c[-1][1]) + 2].decode('utf8', 'ignore')) if c else 0
            elif e: pos = bytepos_of_line(WORK + '/' + f, int(e.group(2)), int(e.group(3)))
            else: return dict(m, error='%s: %s' % (f, txt[-300:]))
            name = admit(WORK + '/' + f, pos)
            if name is None or tries > 150:
                return dict(m, error='%s: not a proof: %s' % (f, txt[txt.find('File'):][:300]), broken_proofs=failed)
            failed.append(os.path.basename(f)[:-2] + '.' + name)
    thms = []
    for f, txt in output.items():
        if 'Properties_' not in f: continue
        src = open(WORK + '/' + f).read()
        names = re.findall(r'^Print Assumptions ([\w\']+)\.', src, re.M)
        res = re.findall(r'^(Closed under the global context|Axioms:)', txt, re.M)
        assert len(names) == len(res), (f, len(names), len(res))
        thms += [a for a, b in zip(names, res) if b == 'Axioms:']
        thms += [x.split('.')[1] for x in failed if x.startswith(os.path.basename(f)[:-2] + '.') and x.split('.')[1] not in thms]
    return dict(m, theorems_failed=thms, broken_proofs=failed, seconds=round(time.time() - t0))

for m in M:
    if ONLY and m['name'] not in ONLY: continue
    r = run(m)
    open(OUT, 'a').write(json.dumps(r) + '\n')
    print(m['name'], 'ERROR ' + r['error'] if 'error' in r else r['theorems_failed'], flush=True)
