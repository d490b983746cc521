#!/usr/bin/env python3
"""Random one-token mutants of the model files.  usage: automut.py SEED COUNT [files...]
Mutants whose model file does not compile are discarded. Results: /tmp/mut/auto.jsonl"""
import re, os, sys, random, json, subprocess, shutil
SRC = '/verif/rocq'; BASE = '/tmp/mut/base'; WORK = '/tmp/mut/autowork'; OUT = '/tmp/mut/auto.jsonl'
MODELS = 'SigFModel GlobFModel OutFModel CatModel QuantileFModel Chi2FModel BrentFModel ResModel ArrayModel BetaModel BinModel BivModel BrentModel HeapModel HistModel OutModel PhikModel QuantileModel RcontModel ReportModel SigModel SimModel SparkModel StatsModel'.split()
DECL = re.compile(r'^\s*(?:Local |Global )?(Theorem|Lemma|Corollary|Example|Definition|Fixpoint|Fact|Remark|Record|Inductive)\s+(\w+)', re.M)
SUB = [(r'\brltb\b', ['rleb']), (r'\brleb\b', ['rltb']), (r'\bNat\.ltb\b', ['Nat.leb']), (r'\bNat\.leb\b', ['Nat.ltb']), (r'<\?', ['<=?']), (r'<=\?', ['<?']),
       (r'\bflt\b', ['fle']), (r'\bfle\b', ['flt']), (r'&&', ['||']), (r'\|\|', ['&&']), (r'\btrue\b', ['false']), (r'\bfalse\b', ['true']), (r'\bfst\b', ['snd']), (r'\bsnd\b', ['fst']),
       (r' \+ ', [' - ']), (r' - ', [' + ']), (r' \* ', [' + ']), (r' / ', [' * ']), (r'(?<![\w.])0(?![\w.])', ['1']), (r'(?<![\w.])1(?![\w.])', ['2', '0']), (r'(?<![\w.])2(?![\w.])', ['3', '1']),
       (r'\bnegb ', ['']), (r'\bValueError\b', ['TypeError']), (r'\bKeyError\b', ['ValueError']), (r'\bTypeError\b', ['ValueError']), (r'\bAssertionError\b', ['ValueError']), (r'\bnr\b', ['nc']), (r'\bnc\b', ['nr']),
       (r'\bPInf\b', ['MInf']), (r'\bMInf\b', ['PInf']), (r'(?<!=> )(?<!\| )\bNaN\b', ['(Fin 0)']), (r'\bforallb\b', ['existsb']), (r'\bexistsb\b', ['forallb']), (r'\bRabs\b', ['']), (r'\bi\b', ['j']), (r'\bj\b', ['i']),
       (r'\bnobs\b', ['(S nobs)']), (r'\bx\b', ['y']), (r'\by\b', ['x']), (r'\bhd\b', ['last']), (r'\brev\b', ['']), (r'\bnneg\b', ['']), (r'\bone_minus\b', ['']), (r'\bS n\b', ['n']), (r'\bsqrt\b', ['']), (r'\bln\b', ['exp']), (r'\bexp\b', ['ln']),
       (r'\bmin\b', ['max']), (r'\bmax\b', ['min']), (r'\bRmin\b', ['Rmax']), (r'\bRmax\b', ['Rmin']), (r'\bxs\b', ['ys']), (r'\bys\b', ['xs']), (r'\bxname\b', ['yname']), (r'\byname\b', ['xname']), (r'\bfplus\b', ['fminus']), (r'\bfminus\b', ['fplus']), (r'\bfmult\b', ['fplus']), (r'\bfdiv\b', ['fmult']), (r'\bfone\b', ['fzero']), (r'\bfzero\b', ['fone'])]
IFRE = re.compile(r'\bif ((?:(?!\bif\b|\bthen\b|\blet\b).)+?) then', re.S)

def enclosing(text, pos):
    name = None; kind = None
    for m in DECL.finditer(text):
        if m.start() > pos: break
        kind, name = m.group(1), m.group(2)
    return kind, name
def comments(text):
    out = []; depth = 0; i = 0
    while i < len(text) - 1:
        if text[i:i+2] == '(*':
            if depth == 0: st = i
            depth += 1; i += 2
        elif text[i:i+2] == '*)' and depth:
            depth -= 1; i += 2
            if depth == 0: out.append((st, i))
        else: i += 1
    return out
def candidates(f):
    text = open(f'{SRC}/theories/{f}.v').read(); cm = comments(text); res = []
    ok = lambda p: not any(a <= p < b for a, b in cm)
    def add(a, b, new):
        if not ok(a): return
        kind, name = enclosing(text, a)
        if kind not in ('Definition', 'Fixpoint'): return
        st = [m.start() for m in DECL.finditer(text) if m.start() <= a][-1]
        if ':=' not in text[st:a]: return
        ln0 = text.rfind('\n', 0, a) + 1; ln1 = text.find('\n', b)
        res.append(dict(file=f, defn=name, a=a, b=b, old=text[a:b], new=new, line=text[ln0:ln1].strip()[:200], newline=(text[ln0:a] + new + text[b:ln1]).strip()[:200]))
    for pat, news in SUB:
        for m in re.finditer(pat, text):
            for n in news: add(m.start(), m.end(), n)
    for m in IFRE.finditer(text): add(m.start(1), m.end(1), 'negb (' + m.group(1) + ')')
    return text, res

def main():
    seed, count = int(sys.argv[1]), int(sys.argv[2]); files = sys.argv[3:] or MODELS
    rnd = random.Random(seed); pool = []
    only = set(os.environ['DEFNS'].split(',')) if 'DEFNS' in os.environ else None  # restrict to these definitions
    for f in files:
        text, res = candidates(f)
        if only: res = [m for m in res if m['defn'] in only]
        rnd.shuffle(res); pool.append((f, text, res))
    done = set()
    if os.path.exists(OUT): done = {json.loads(l)['key'] for l in open(OUT)}
    n = 0; jobs = os.environ.get('JOBS', '2')
    tot = [len(r) for *_, r in pool]; print(dict(zip([p[0] for p in pool], tot)), flush=True)
    while n < count and any(r for *_, r in pool):
        f, text, res = rnd.choices(pool, weights=[max(len(p[2]), 1) for p in pool])[0]
        if not res: continue
        m = res.pop(); key = f"{f}:{m['defn']}:{m['line']}=>{m['newline']}"
        if key in done: continue
        n += 1
        subprocess.run(['rsync', '-a', '--delete', BASE + '/', WORK + '/']) if shutil.which('rsync') else (shutil.rmtree(WORK, ignore_errors=True), subprocess.run(['cp', '-a', BASE, WORK], check=True))
        t = text[:m['a']] + m['new'] + text[m['b']:]
        open(f'{WORK}/theories/{f}.v', 'w').write(t)
        c = subprocess.run(f'timeout 120 coqc -Q . Verif {f}.v', shell=True, cwd=WORK + '/theories', capture_output=True, text=True)
        rec = dict(key=key, **{k: m[k] for k in ('file', 'defn', 'line', 'newline')})
        if c.returncode:
            rec['invalid'] = True
        else:
            try:
                r = subprocess.run(f'make ' + ('' if os.environ.get('FAST') else '-k ') + f'-j{jobs}', shell=True, cwd=WORK, capture_output=True, text=True, timeout=1500); log = r.stdout + r.stderr
                failed = []
                for x in re.finditer(r'File "\./theories/(\w+\.v)", line (\d+), characters [\d-]+:\nError', log):
                    src = open(f'{WORK}/theories/{x.group(1)}').read(); pos = sum(len(l) + 1 for l in src.split('\n')[:int(x.group(2)) - 1])
                    failed.append(f'{x.group(1)}:{enclosing(src, pos)[1]}')
                rec['survived'] = r.returncode == 0; rec['failed'] = failed
            except subprocess.TimeoutExpired:
                subprocess.run('pkill -f autowork', shell=True); rec['timeout'] = True
        with open(OUT, 'a') as o: o.write(json.dumps(rec) + '\n')
        if not rec.get('invalid'): print(json.dumps(rec), flush=True)
if __name__ == '__main__': main()
