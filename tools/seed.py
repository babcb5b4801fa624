#!/usr/bin/env python3
"""Seed one wrong edit into a scratch copy of the model and see which theorems fall.

usage: seed.py seeds.json [--log]

seeds.json is a list of {file, definition, old, new, claim, edit}.  Each seed is
applied to a copy of rocq/ in /tmp/seed.  The copy is rebuilt; every proof that no
longer compiles is replaced by Admitted and the build goes on, so that the
theorems depending on a broken proof can be read off Print Assumptions.  Proofs
are only ever weakened in the scratch copy.
"""
import json, os, re, shutil, subprocess, sys, time
SRC = os.environ.get('SEED_SRC', '/verif/rocq'); DST = '/tmp/seed/rocq'; LOG = '/verif/seeded/LOG.jsonl'

# axioms of the standard library's real numbers
STD = {'Axioms', 'FunctionalExtensionality.functional_extensionality_dep', 'functional_extensionality_dep', 'Classical_Prop.classic', 'classic',
       'ClassicalDedekindReals.sig_not_dec', 'ClassicalDedekindReals.sig_forall_dec', 'sig_not_dec', 'sig_forall_dec'}

def deps(files):
    d = {}
    for f in files:
        txt = open(f'{SRC}/theories/{f}.v').read()
        m = []
        for l in re.findall(r'From Verif Require (?:Import|Export)? ?([^.]*)\.', txt):
            m += l.split()
        d[f] = [x for x in m if x in files]
    return d

START = re.compile(r'^\s*(?:Local |Global |#\[[^\]]*\] )?(Lemma|Theorem|Example|Corollary|Fact|Remark|Definition|Fixpoint|Instance)\s+([A-Za-z0-9_\']+)', re.M)

def weaken(path, offset):
    """Admit the proof around byte offset; returns the lemma's name or None."""
    b = open(path, 'rb').read()
    pos = None
    heads = [m for m in re.finditer(rb'^\s*(?:Local |Global )?(Lemma|Theorem|Example|Corollary|Fact|Remark|Definition|Fixpoint|Instance)\s+([A-Za-z0-9_\']+)', b, re.M) if m.start() <= offset]
    if not heads: return None
    h = heads[-1]
    p = re.compile(rb'\bProof\b[^.]*\.').search(b, h.end())
    if not p: return None
    q = re.compile(rb'\b(Qed|Defined)\.').search(b, p.end())
    if not q or q.end() < offset: return None
    # statement itself must be fine: the error must lie inside the proof
    if offset < p.start(): return None
    body = b[p.start():q.end()]
    nl = body.count(b'\n')
    open(path, 'wb').write(b[:p.start()] + b'Proof. Admitted.' + b'\n' * nl + b[q.end():])
    return h.group(2).decode()

def compile_file(f, admitted, limit=600):
    path = f'{DST}/theories/{f}.v'
    for _ in range(200):
        t0 = time.time()
        try:
            r = subprocess.run(['coqc', '-Q', 'theories', 'Verif', f'theories/{f}.v'], cwd=DST,
                               stdout=subprocess.PIPE, stderr=subprocess.STDOUT, timeout=limit)
            out = r.stdout.decode(errors='replace')
            if r.returncode == 0: return True, out
            errs = list(re.finditer(r'File "[^"]*", line (\d+), characters (\d+)-(\d+):\s*\nError', out))
            if not errs: return False, out
            m = errs[-1]
            line, ch = int(m.group(1)), int(m.group(2))
            b = open(path, 'rb').read()
            off = sum(len(l) + 1 for l in b.split(b'\n')[:line - 1]) + ch
        except subprocess.TimeoutExpired:
            try:
                r = subprocess.run(['coqc', '-time', '-Q', 'theories', 'Verif', f'theories/{f}.v'], cwd=DST,
                                   stdout=subprocess.PIPE, stderr=subprocess.STDOUT, timeout=limit)
                out = r.stdout.decode(errors='replace')
            except subprocess.TimeoutExpired as e:
                out = (e.stdout or b'').decode(errors='replace')
            cs = re.findall(r'^Chars \d+ - (\d+) ', out, re.M)
            if not cs: return False, 'timeout'
            off = int(cs[-1]) + 1
            out = 'timeout'
        n = weaken(path, off)
        if n is None: return False, out
        admitted.append(f'{f}.{n}')
    return False, 'too many'

def run(seed, limit):
    if os.path.exists(DST): shutil.rmtree(DST)
    shutil.copytree(SRC, DST)
    p = f'{DST}/theories/{seed["file"]}.v'
    s = open(p).read()
    if s.count(seed['old']) < 1: return dict(error='old text not found')
    if s.count(seed['old']) > 1: return dict(error='old text ambiguous')
    s = s.replace(seed['old'], seed['new'])
    open(p, 'w').write(s)
    files = [l.strip()[len('theories/'):-2] for l in open(f'{SRC}/_CoqProject') if l.strip().startswith('theories/')]
    d = deps(files)
    dirty = {seed['file']}
    order = []
    seen = set()
    def visit(f):
        if f in seen: return
        seen.add(f)
        for x in d[f]: visit(x)
        order.append(f)
    for f in files: visit(f)
    admitted, dead = [], []
    fell, stood = set(), set()
    for f in order:
        if f != seed['file'] and not any(x in dirty for x in d[f]): continue
        dirty.add(f)
        if any(x in dead for x in d[f]):
            dead.append(f); continue
        ok, out = compile_file(f, admitted, limit)
        if not ok:
            dead.append(f); seed.setdefault('build_errors', []).append(f + ': ' + out[-300:])
        else:
            if f.endswith('Props'):
                src = open(f'{DST}/theories/{f}.v').read()
                names = re.findall(r'^Print Assumptions (\w+)\.', src, re.M)
                parts = re.findall(r'Closed under the global context|Axioms:\n(?:(?!Closed under|Axioms:).*\n?)*', out)
                for n, part in zip(names, parts):
                    (fell if set(re.findall(r'^([\w.\']+)(?= :|\n)', part, re.M)) - STD else stood).add(n)
    for f in dead:
        if f.endswith('Props'):
            src = open(f'{SRC}/theories/{f}.v').read()
            fell |= set(re.findall(r'^Theorem (\w+)', src, re.M))
    ex = [a for a in admitted if 'Props.' in a]
    return dict(fell=sorted(fell), stood=sorted(stood), admitted=admitted, dead=dead)

if __name__ == '__main__':
    seeds = json.load(open(sys.argv[1])); log = '--log' in sys.argv
    limit = 300
    for s in seeds:
        t = time.time(); r = run(s, limit)
        print('==', s['file'], s['definition'], '|', s['edit'], '|', s['claim'])
        print(json.dumps(r, indent=1) if 'error' in r else
              f"  fell: {r['fell']}\n  stood: {r['stood']}\n  proofs: {r['admitted']}\n  dead: {r['dead']}  {time.time()-t:.0f}s", flush=True)
        if s.get('build_errors'): print('  ', s['build_errors'])
        if log and 'error' not in r:
            os.makedirs(os.path.dirname(LOG), exist_ok=True)
            with open(LOG, 'a') as f:
                f.write(json.dumps(dict(definition=s['file'] + '.' + s['definition'], edit=s['edit'], claim=s['claim'],
                    failed=r['fell'], broken_proofs=r['admitted'][:20], survived=not r['fell'], tightened=s.get('tightened', []))) + '\n')
