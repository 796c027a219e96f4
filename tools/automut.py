"""Random edits to the definitions of the model; lists those after which everything still compiles.
Usage: automut.py PER_DEFINITION SEED OUT.jsonl [Model ...]    (SRC = compiled rocq directory, J = jobs)
An edit is 'killed' when some file of the development no longer compiles.  The survivors are the interesting part: no
theorem depends on what was changed."""
import sys, os, re, random, json, shutil, subprocess, glob, concurrent.futures as cf
SRC = os.environ.get('SRC', '/verif/rocq'); J = int(os.environ.get('J', '3')); TMO = int(os.environ.get('TMO', '300'))
per, seed, out = int(sys.argv[1]), int(sys.argv[2]), sys.argv[3]; only = sys.argv[4:]
T = SRC + '/theories'
order = [os.path.basename(l.strip())[:-2] for l in open(SRC + '/_CoqProject') if l.strip().endswith('.v')]
text = {m: open('%s/%s.v' % (T, m)).read() for m in order}
dep = {m: set(sum([x.split() for x in re.findall(r'From Verif Require Import ([^.]*)\.', text[m])], [])) for m in order}
def cone(m):
    c = [m]
    for x in order:
        if x != m and dep[x] & set(c): c.append(x)
    return c
def blank(s):
    o = list(s); d = 0; i = 0
    while i < len(s):
        if s.startswith('(*', i): d += 1; o[i] = o[i+1] = ' '; i += 2; continue
        if s.startswith('*)', i) and d: d -= 1; o[i] = o[i+1] = ' '; i += 2; continue
        if d and s[i] != '\n': o[i] = ' '
        i += 1
    return ''.join(o)
OPS = [(r'<\?', '<=?'), (r'<=\?', '<?'), (r'\bN\.lxor\b', 'N.lor'), (r'\bN\.land\b', 'N.lor'), (r'\bN\.lor\b', 'N.lxor'), (r' \+ ', ' - '), (r' - ', ' + '),
       (r' \* ', ' + '), (r'&&', '||'), (r'\|\|', '&&'), (r'\bfirstn\b', 'skipn'), (r'\bskipn\b', 'firstn'), (r'\brev \(', '('),
       (r'\bNat\.odd\b', 'Nat.even'), (r'\bNat\.even\b', 'Nat.odd'), (r'\bfst\b', 'snd'), (r'\bsnd\b', 'fst'), (r'\btrue\b', 'false'),
       (r'\bfalse\b', 'true'), (r'\bUndef\b', 'Abort'), (r'\bAbort\b', 'Undef'), (r'\bshiftl\b', 'shiftr'), (r'\bshiftr\b', 'shiftl'),
       (r'\bif ([^;]*?) then\b', r'if negb (\1) then'), (r'\bnegb\b', ''), (r'\bS ', '')]
def muts(body, rng):
    b = blank(body); c = []
    k = b.find(':=')
    for m in re.finditer(r'(?<![\w.])(0x[0-9a-f]+|\d+)(?![\w])', b):
        if m.start() < k: continue
        v = int(m.group(1), 0); c.append((m.start(), m.end(), str(v + 1), 3))
        if v: c.append((m.start(), m.end(), str(v - 1), 2))
    for p, r in OPS:
        for m in re.finditer(p, b):
            if m.start() > k: c.append((m.start(), m.end(), m.expand(r), 4))
    if os.environ.get('VARS'):   # replace one identifier of the body by another identifier of the definition, or drop a function f of (f x)
        c = []; KW = set('match with end if then else let in fun forall fix return as None Some nat list bool true false'.split())
        ids = sorted({m.group(0) for m in re.finditer(r"(?<![\w.])[a-zA-Z_][\w']*", b)} - KW - {'Definition', 'Fixpoint', 'N', 'Z', 'Prop', 'Type', 'struct', 'option'})
        for m in re.finditer(r"(?<![\w.])[a-zA-Z_][\w']*(?![\w.'])", b):
            if m.start() < k or m.group(0) in KW: continue
            for x in rng.sample(ids, min(3, len(ids))):
                if x != m.group(0): c.append((m.start(), m.end(), x, 4))
        for m in re.finditer(r"\((\w+) (\w+)\)", b):
            if m.start() > k: c.append((m.start(), m.end(), m.group(2), 4))
        rng.shuffle(c); return c[:40]
    rng.shuffle(c)
    seen, res = set(), []
    nums = [x for x in c if x[3] < 4]; ops = [x for x in c if x[3] == 4]
    while nums or ops:
        if ops: res.append(ops.pop())
        if nums: res.append(nums.pop())
    return res
jobs = []
for m in order:
    if not m.endswith('Model') or (only and m not in only): continue
    s = text[m]; b = blank(s)
    hs = [x for x in re.finditer(r'^[ ]*(?:Definition|Fixpoint)\s+(\w+)', b, re.M)]
    for x in hs:
        e = re.compile(r'\.\s*(?=\n|$)').search(b, x.end())
        if not e: continue
        jobs.append((m, x.group(1), x.start(), e.start()))
def compile1(d, m, tmo):
    try:
        r = subprocess.run(['coqc', '-q', '-Q', '.', 'Verif', m + '.v'], cwd=d, capture_output=True, text=True, timeout=tmo)
    except subprocess.TimeoutExpired: return 'timeout'
    return None if r.returncode == 0 else r.stderr
def run(job):
    m, name, a, e = job; rng = random.Random('%d %s %s' % (seed, m, name)); res = []
    cs = muts(text[m][a:e], rng); c = cone(m); d = '/tmp/am/%s_%s_%d' % (m, name, seed); n = 0
    for (i, j, new, _) in cs:
        if n >= per: break
        shutil.rmtree(d, ignore_errors=True); os.makedirs(d)
        for x in order:
            if x in c: shutil.copy('%s/%s.v' % (T, x), d)
            else: os.symlink('%s/%s.vo' % (T, x), '%s/%s.vo' % (d, x))
        s = text[m]; s2 = s[:a+i] + new + s[a+j:]
        open('%s/%s.v' % (d, m), 'w').write(s2)
        if compile1(d, m, 120): continue
        n += 1; rec = {'model': m, 'def': name, 'line': s[:a+i].count('\n') + 1, 'old': s[a+i-30:a+j+30], 'new': s[a+i-30:a+i] + new + s[a+j:a+j+30], 'killed': None}
        for x in c[1:]:
            err = compile1(d, x, TMO)
            if err:
                l = re.search(r'line (\d+)', err); ln = int(l.group(1)) if l else 0
                h = re.findall(r'^(?:Local )?(?:Lemma|Theorem|Example|Corollary)\s+(\w+)', '\n'.join(text[x].split('\n')[:ln]), re.M)
                rec['killed'] = '%s:%s' % (x, h[-1] if h and ln else err[:60]); break
        res.append(rec); open(out, 'a').write(json.dumps(rec) + '\n')
        if not rec['killed']: print('SURVIVOR', m, name, rec['line'], repr(rec['old']), '->', repr(rec['new']), flush=True)
    if n == 0: print('no mutant', m, name, flush=True)
    shutil.rmtree(d, ignore_errors=True)
done = set()
if os.path.exists(out): done = {(json.loads(l)['model'], json.loads(l)['def']) for l in open(out)}
jobs = [x for x in jobs if (x[0], x[1]) not in done]
random.Random(seed).shuffle(jobs)
print(len(jobs), 'definitions', flush=True)
with cf.ThreadPoolExecutor(J) as ex: list(ex.map(run, jobs))
