#!/usr/bin/env python3
"""Seeds wrong programs in a scratch copy of the model and reports which
property theorems stop proving.

usage: mutate.py SEEDS.py [WORKDIR]

SEEDS.py defines SEEDS, a list of dicts with keys file, definition, old, new,
edit, claim (and optionally expect: a list of theorem name prefixes of which
one must fail, and only: the property files to look at).  `old` must occur exactly once in the file.  Every lemma whose
proof breaks is replaced by Admitted in the scratch copy, so that the rest
still compiles, and a property theorem counts as failed when it is admitted or
depends on an admitted lemma.  Appends one line per seed to seeded/LOG.jsonl.
"""
import glob, json, os, re, shutil, subprocess, sys
ROOT = os.path.dirname(os.path.dirname(os.path.abspath(__file__)))
SRC = ROOT + '/rocq/theories'
WORK = sys.argv[2] if len(sys.argv) > 2 else '/tmp/mut/w'
env = {}
exec(open(sys.argv[1]).read(), env)
order = [l.strip()[len('theories/'):-2] for l in open(ROOT + '/rocq/_CoqProject') if l.startswith('theories/')]
START = re.compile(r'^\s*(?:#\[.*\]\s*)?(?:Local |Global )?(Lemma|Theorem|Example|Corollary|Fact|Remark|Instance|Definition|Fixpoint|Inductive|Record)\s+([\w\']+)')

def deps(name):
    t = open(f'{SRC}/{name}.v').read()
    out = set()
    for m in re.finditer(r'From Verif Require (?:Import|Export)?([^.]*)\.', t):
        out |= set(m.group(1).split())
    return out
DEP = {n: deps(n) for n in order}

def below(names):
    out, todo = set(), list(names)
    while todo:
        n = todo.pop()
        if n in DEP and n not in out:
            out.add(n)
            todo += DEP[n]
    return out

def compile(name, w):
    try:
        r = subprocess.run(['coqc', '-time', '-Q', 'theories', 'Verif', f'theories/{name}.v'], cwd=w, capture_output=True, text=True, timeout=240)
        out, rc = r.stdout + r.stderr, r.returncode
    except subprocess.TimeoutExpired as e:
        out, rc = (e.stdout or b'').decode(), 1
    if rc == 0:
        return None
    text = open(f'{w}/theories/{name}.v').read()
    m = re.findall(r'^File "[^"]*", line (\d+), characters', out, re.M)
    if m and 'Error' in out:
        return int(m[-1])
    ch = re.findall(r'^Chars \d+ - (\d+)', out, re.M)
    pos = int(ch[-1]) if ch else 0
    return len(text.encode()[:pos + 2].decode(errors='ignore').split('\n'))

def admit(name, line, w):
    p = f'{w}/theories/{name}.v'
    ls = open(p).read().split('\n')
    i = line - 1
    while i >= 0 and not START.match(ls[i]):
        i -= 1
    if i < 0:
        return None
    kind, lem = START.match(ls[i]).groups()
    body = '\n'.join(ls[i:])
    m = re.search(r'\bProof\b[^.]*\.', body)
    e = re.search(r'\b(Qed|Defined)\.', body)
    if not m or not e or e.start() < m.start():
        return None
    body = body[:m.start()] + 'Admitted.' + body[e.end():]
    open(p, 'w').write('\n'.join(ls[:i] + [body]))
    return lem

def run(seed, w):
    shutil.rmtree(w, ignore_errors=True)
    os.makedirs(w)
    shutil.copytree(SRC, w + '/theories')
    p = f'{w}/theories/{seed["file"]}.v'
    t = open(p).read()
    n = t.count(seed['old'])
    if n != 1:
        return {'error': f'pattern occurs {n} times'}
    open(p, 'w').write(t.replace(seed['old'], seed['new']))
    dirty, broken = set(), []
    cone = below(seed.get('only', order))
    for f in order:
        if f not in cone:
            continue
        if f == seed['file'] or DEP[f] & dirty:
            dirty.add(f)
            for _ in range(60):
                line = compile(f, w)
                if line is None:
                    break
                lem = admit(f, line, w)
                if lem is None:
                    return {'error': f'{f}:{line} does not compile', 'broken': broken}
                broken.append(lem)
    props = [f for f in order if f.startswith('Prop') and f in dirty]
    names = []
    chk = 'From Verif Require ' + ' '.join(props) + '.\n'
    for f in props:
        for th in re.findall(r'^Theorem\s+(C\d\d\w*)', open(f'{SRC}/{f}.v').read(), re.M):
            names.append(th)
            chk += f'Print Assumptions {f}.{th}.\n'
    open(w + '/theories/Chk.v', 'w').write(chk)
    r = subprocess.run(['coqc', '-Q', 'theories', 'Verif', 'theories/Chk.v'], cwd=w, capture_output=True, text=True)
    if r.returncode:
        return {'error': 'check file: ' + r.stderr[-300:]}
    res = re.split(r'^(?=Closed under|Axioms:)', r.stdout, flags=re.M)[1:]
    failed = []
    for th, o in zip(names, res):
        if any(re.search(rf'(^|\.|\s){re.escape(b)}\s*:', o) for b in broken):
            failed.append(th)
    return {'failed': failed, 'broken': broken}

for s in env['SEEDS']:
    r = run(s, WORK)
    if 'error' in r:
        print('ERROR', s['definition'], s['edit'], r, flush=True)
        continue
    miss = [x for x in s.get('expect', []) if not any(f.startswith(x) for f in r['failed'])]
    ex = [b for b in r['broken'] if b.startswith('C') and b.endswith('_case')]
    print(('MISSED ' + str(miss)) if miss else 'caught', s['definition'], '|', s['edit'], '|', r['failed'], '| first broken:', r['broken'][:3], flush=True)
    with open(ROOT + '/seeded/LOG.jsonl', 'a') as f:
        f.write(json.dumps({'definition': s['definition'], 'edit': s['edit'], 'claim': s['claim'], 'failed': r['failed'],
                            'broken_lemmas': r['broken'][:8], 'missed': miss, 'tightened': s.get('tightened', [])}) + '\n')
