#!/usr/bin/env python3
"""Seeded-bug runner.  usage: mutate.py MUTANTS.py [ids...]
Each mutant is a dict(id, file, defn, old, new, claim).  A scratch copy of /verif/rocq (with its compiled files) is edited,
rebuilt with make -k, and the statements whose proofs no longer pass are reported to /tmp/mut/results.jsonl."""
import subprocess, sys, os, re, json, shutil, runpy
SRC = '/verif/rocq'; WORK = '/tmp/mut/work'; OUT = '/tmp/mut/results.jsonl'
BASE = '/tmp/mut/base'
DECL = re.compile(r'^\s*(?:Local |Global )?(Theorem|Lemma|Corollary|Example|Definition|Fixpoint|Fact|Remark)\s+(\w+)')

def enclosing(path, line):
    name = None
    for i, l in enumerate(open(path), 1):
        if i > line: break
        m = DECL.match(l)
        if m: name = m.group(2)
    return name

def refresh_base():
    if os.path.exists(BASE): shutil.rmtree(BASE)
    shutil.copytree(SRC, BASE, copy_function=shutil.copy2)
    subprocess.run('coq_makefile -f _CoqProject -o Makefile >/dev/null && make -j4 >/dev/null 2>&1', shell=True, cwd=BASE, check=True)

def run(m, jobs):
    subprocess.run(['rsync', '-a', '--delete', BASE + '/', WORK + '/']) if shutil.which('rsync') else None
    if not shutil.which('rsync'):
        if os.path.exists(WORK): shutil.rmtree(WORK)
        subprocess.run(['cp', '-a', BASE, WORK], check=True)
    p = f'{WORK}/theories/{m["file"]}'
    t = open(p).read()
    edits = m['edits'] if 'edits' in m else [(m['old'], m['new'])]
    for old, new in edits:
        if t.count(old) < 1: return dict(id=m['id'], error='pattern not found: ' + old)
        if t.count(old) > 1 and not m.get('nth') is not None: return dict(id=m['id'], error='pattern not unique: ' + old)
        t = t.replace(old, new) if m.get('nth') is None else new.join([old.join(t.split(old)[:m['nth'] + 1]), old.join(t.split(old)[m['nth'] + 1:])])
    open(p, 'w').write(t)
    try:
        r = subprocess.run(f'make -k -j{jobs}', shell=True, cwd=WORK, capture_output=True, text=True, timeout=1500)
        log = r.stdout + r.stderr
    except subprocess.TimeoutExpired as e:
        return dict(id=m['id'], error='timeout')
    errs = []
    for x in re.finditer(r'File "\./theories/(\w+\.v)", line (\d+), characters [\d-]+:\nError', log):
        f, l = x.group(1), int(x.group(2))
        errs.append((f, enclosing(f'{WORK}/theories/{f}', l), l))
    built = r.returncode == 0
    return dict(id=m['id'], survived=built, failed=[f'{f}:{n}' for f, n, l in errs], lines=[l for *_, l in errs], tail=None if errs or built else log[-600:])

if __name__ == '__main__':
    os.makedirs('/tmp/mut', exist_ok=True)
    muts = runpy.run_path(sys.argv[1])['MUTANTS']
    ids = sys.argv[2:]
    if not os.path.exists(BASE) or os.environ.get('REFRESH'): refresh_base()
    done = set()
    if os.path.exists(OUT) and not ids: done = {json.loads(l)['id'] for l in open(OUT)}
    for m in muts:
        if (ids and m['id'] not in ids) or m['id'] in done: continue
        r = run(m, int(os.environ.get('JOBS', '3')))
        with open(OUT, 'a') as f: f.write(json.dumps(r) + '\n')
        print(json.dumps(r), flush=True)
