#!/usr/bin/env python3
"""Try wrong programs.  usage: mutate.py MUTANTS.json [id ...]

For every mutant the model is copied to a scratch directory, one definition is
edited, and every file that depends on it is compiled again.  A proof that no
longer goes through is replaced by Admitted and compilation goes on, so that
all proofs broken by the edit are found; a theorem counts as failed if Print
Assumptions then shows that it rests on an admitted proof."""
import sys, os, re, json, subprocess, shutil, time
from concurrent.futures import ThreadPoolExecutor, wait, FIRST_COMPLETED

SRC = os.environ.get('MUTSRC', '/verif/rocq')
WORK = os.environ.get('MUTDIR', '/tmp/mut')
JOBS = int(os.environ.get('MUTJOBS', '3'))
TIMEOUT = int(os.environ.get('MUTTIME', '240'))
HEAD = re.compile(r'^\s*(?:Local |Global |#\[[^\]]*\]\s*)?(Lemma|Theorem|Example|Corollary|Fact|Remark|Instance|Program Instance|Definition|Fixpoint)\s+([\w\']+)', re.M)

def files():
    return [l for l in open(f'{SRC}/_CoqProject').read().split() if l.endswith('.v')]

def deps(fs):
    out = subprocess.run(['coqdep', '-Q', 'theories', 'Verif'] + fs, cwd=SRC, capture_output=True, text=True).stdout
    d = {f: set() for f in fs}
    for line in out.splitlines():
        if ':' not in line: continue
        l, r = line.split(':', 1)
        for t in l.split():
            if t.endswith('.vo'):
                d[t[:-1]] = {x[:-1] for x in r.split() if x.endswith('.vo') and x.startswith('theories/')}
    return d

def proof_at(text, off):
    """The (name, start, end) of the proof script around offset off."""
    best = None
    for m in re.finditer(r'\bProof\b[^.]*\.', text):
        if m.start() > off: break
        best = m
    if not best: return None
    e = re.compile(r'\b(Qed|Defined|Admitted)\.').search(text, best.end())
    if not e or e.end() < off: return None
    name = None
    for h in HEAD.finditer(text, 0, best.start()): name = h.group(2)
    return name, best.start(), e.end(), e.group(1)

def compile_file(f):
    path = f'{WORK}/{f}'
    broken = []
    while True:
        try:
            p = subprocess.run(['coqc', '-time', '-Q', 'theories', 'Verif', f], cwd=WORK, capture_output=True, text=True, timeout=TIMEOUT)
            if p.returncode == 0: return broken, None
            m = re.findall(r'File "[^"]*", line (\d+), characters (\d+)-\d+:\nError', p.stderr) or re.findall(r'File "[^"]*", line (\d+), characters (\d+)-', p.stderr)
            if not m: return broken, p.stderr[-500:]
            line, ch = map(int, m[-1])
            text = open(path, 'rb').read()
            lines = text.split(b'\n')
            off = len((b'\n'.join(lines[:line-1]) + b'\n').decode()) + 1 if line > 1 else 0
            off += ch
            err = p.stderr[-400:]
        except subprocess.TimeoutExpired as ex:
            out = (ex.stdout or b'').decode(errors='replace')
            m = re.findall(r'^Chars (\d+) - (\d+)', out, re.M)
            b = open(path, 'rb').read()
            off = len(b[:int(m[-1][1]) + 2].decode(errors='ignore')) if m else 0
            err = 'timeout'
        text = open(path).read()
        pr = proof_at(text, off) or proof_at(text, off - 1)
        if not pr or pr[3] == 'Admitted': return broken, f'not in a proof: {err}'
        name, s, e, how = pr
        broken.append(name)
        open(path, 'w').write(text[:s] + 'Proof. Admitted.' + text[e:])

def run(mut, fs, dp):
    t0 = time.time()
    if os.path.exists(WORK): shutil.rmtree(WORK)
    shutil.copytree(SRC, WORK, ignore=shutil.ignore_patterns('.git', '*.glob', '.*.aux', 'Makefile*'))
    edits = mut.get('edits') or [[mut['file'], mut['old'], mut['new']]]
    start = set()
    for fl, old, new in edits:
        p = f'{WORK}/theories/{fl}'
        s = open(p).read()
        if s.count(old) != 1: return {'id': mut['id'], 'error': f'{fl}: text occurs {s.count(old)} times'}
        open(p, 'w').write(s.replace(old, new))
        start.add('theories/' + fl)
    dirty = set()
    for f in fs:
        if f in start or dp[f] & dirty: dirty.add(f)
    for f in dirty:
        for x in ('o', 'os', 'ok'):
            if os.path.exists(f'{WORK}/{f}{x}'): os.remove(f'{WORK}/{f}{x}')
    broken, errors, done, running = {}, {}, set(fs) - dirty, {}
    with ThreadPoolExecutor(JOBS) as ex:
        todo = [f for f in fs if f in dirty]
        failed = set()
        while todo or running:
            for f in list(todo):
                if dp[f] & failed: failed.add(f); todo.remove(f); errors[f] = 'depends on a file that does not compile'; continue
                if dp[f] <= done and len(running) < JOBS:
                    running[ex.submit(compile_file, f)] = f; todo.remove(f)
            if not running: continue
            d, _ = wait(running, return_when=FIRST_COMPLETED)
            for x in d:
                f = running.pop(x); b, err = x.result()
                if b: broken[f[9:]] = b
                if err: errors[f] = err; failed.add(f)
                else: done.add(f)
    names = []
    for f in fs:
        if f in done and f in dirty:
            for m in re.finditer(r'^\s*(?:Theorem|Lemma|Corollary|Example) (C\d\d_\w+)', open(f'{SRC}/{f}').read(), re.M): names.append(m.group(1))
    mods = ' '.join(f[9:-2] for f in fs if f in done)
    open(f'{WORK}/theories/Chk.v', 'w').write(f'From Verif Require Import {mods}.\n' + ''.join(f'Print Assumptions {n}.\n' for n in names))
    p = subprocess.run(['coqc', '-Q', 'theories', 'Verif', 'theories/Chk.v'], cwd=WORK, capture_output=True, text=True)
    parts = re.split(r'^(Closed under the global context|Axioms:)$', p.stdout, flags=re.M)
    res = [parts[i] for i in range(1, len(parts), 2)]
    fails = [n for n, r in zip(names, res) if r == 'Axioms:'] if len(res) == len(names) else ['?? ' + p.stderr[-300:]]
    bases = {b for l in broken.values() for b in l}
    return {'id': mut['id'], 'broken_proofs': broken, 'failed': fails, 'directly': sorted(n for n in fails if n in bases),
            'errors': {k: v[-300:] for k, v in errors.items()}, 'still': [n for n in names if n not in fails], 'wall': round(time.time() - t0)}

if __name__ == '__main__':
    muts = json.load(open(sys.argv[1]))
    only = set(sys.argv[2:])
    fs = files(); dp = deps(fs)
    for m in muts:
        if only and m['id'] not in only: continue
        r = run(m, fs, dp)
        r['mutant'] = {k: m[k] for k in m if k != 'id'}
        with open(os.environ.get('MUTOUT', '/tmp/mutres.jsonl'), 'a') as o: o.write(json.dumps(r) + '\n')
        print(m['id'], r.get('error') or (len(r['failed']), 'failed', r['wall'], 's', r['errors'] and 'ERR' or ''), flush=True)
