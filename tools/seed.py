"""Seeded-bug testing.  Usage: seed.py MUTATIONS.json [id ...]

Each mutation: {"id", "file", "def", "old", "new", "claim", "edit"}.  The Rocq files are copied to a scratch
directory, the edit is made to the model definition, and everything depending on it is rebuilt.  A
lemma whose proof breaks is replaced by an unproved stub (in the scratch copy only) so that the
build goes on; a theorem of a Props file counts as failed when it breaks itself or when Print
Assumptions shows that it depends on such a stub.  One line per mutation is appended to
/verif/seeded/LOG.jsonl."""
import json, os, re, shutil, subprocess, sys, concurrent.futures as cf
SRC = os.environ.get('SRC', '/verif/rocq')
SECS = 400

def deps(path):
    s = open(path).read(); out = []
    for m in re.finditer(r"From Verif Require Import ([^.]*)\.", s): out += m.group(1).split()
    return out

HEAD = re.compile(r"^[ ]*(?:Local |Global )?(?:Lemma|Theorem|Example|Corollary|Fact|Remark)\s+(\w+)", re.M)

def stub(path, off):
    """replace the proof around byte offset off by a stub; returns the lemma name or None"""
    s = open(path).read()
    # offsets are bytes
    b = s.encode(); pre = b[:off].decode(errors='ignore'); off = len(pre)
    heads = [m for m in HEAD.finditer(s) if m.start() <= off]
    if not heads: return None
    m = heads[-1]
    q = re.compile(r"\bProof\.").search(s, m.start())
    if not q: return None
    e = re.compile(r"\b(Qed|Defined|Admitted)\.").search(s, q.end())
    if not e or e.end() < off - 1: return None
    if off < q.start() and 'stub' not in s[m.start():q.start()]:
        pass
    open(path, 'w').write(s[:q.start()] + "Proof. Admitted." + s[e.end():])
    return m.group(1)

def drop(path, name):
    """remove a whole Example/Lemma (its statement no longer typechecks)"""
    s = open(path).read()
    m = re.compile(r"^[ ]*(?:Lemma|Theorem|Example)\s+%s\b" % name, re.M).search(s)
    e = re.compile(r"\b(Qed|Defined|Admitted)\.").search(s, m.start())
    s = s[:m.start()] + s[e.end():]
    s = re.sub(r"Print Assumptions %s\." % name, "", s)
    open(path, 'w').write(s)

def compile1(d, f):
    """compile one file, stubbing broken proofs; returns (broken names, fatal message)"""
    path = os.path.join(d, f + '.v'); broken = []
    for _ in range(60):
        out = os.path.join(d, f + '.out')
        with open(out, 'w') as h:
            try:
                r = subprocess.run(['stdbuf', '-oL', 'coqc', '-time', '-q', '-Q', '.', 'Verif', f + '.v'], cwd=d, stdout=h,
                                   stderr=subprocess.STDOUT, timeout=SECS)
                rc = r.returncode
            except subprocess.TimeoutExpired:
                rc = 124
        o = open(out, errors='replace').read()
        if rc == 0: return broken, None
        m = re.search(r'File "\./%s\.v", line (\d+), characters (\d+)-(\d+):\n(?!Warning)' % f, o)
        if rc != 124 and m:
            b = open(path, 'rb').read(); lines = b.split(b'\n')
            off = sum(len(x) + 1 for x in lines[:int(m.group(1)) - 1]) + int(m.group(2))
            msg = o[m.end():m.end() + 200]
        else:
            c = re.findall(r'^Chars (\d+) - (\d+)', o, re.M)
            off = int(c[-1][1]) + 2 if c else 0
            b = open(path, 'rb').read()
            while off < len(b) and b[off:off+1].isspace(): off += 1
            msg = 'timeout'
        name = stub(path, off)
        if name is None: return broken, 'line %s: %s' % (m and m.group(1), msg)
        if name in broken:
            drop(path, name)
        else:
            broken.append(name)
    return broken, 'too many'

def run(mu, force=True):
    d = '/tmp/seed/%s' % mu['id']
    shutil.rmtree(d, ignore_errors=True); os.makedirs('/tmp/seed', exist_ok=True)
    shutil.copytree(SRC + '/theories', d)
    path = os.path.join(d, mu['file'] + '.v'); s = open(path).read()
    n = s.count(mu['old'])
    if n != 1 and not mu.get('all'): return {'error': 'old text occurs %d times' % n}
    open(path, 'w').write(s.replace(mu['old'], mu['new']))
    order = [os.path.basename(l.strip())[:-2] for l in open(SRC + '/_CoqProject') if l.strip().endswith('.v')]
    dep = {f: [x for x in deps(os.path.join(d, f + '.v')) if x in order] for f in order}
    dirty = {mu['file']}
    for f in order:
        if any(x in dirty for x in dep[f]): dirty.add(f)
    if mu.get('scope'):  # rebuild only what the named files need
        need = set(mu['scope'])
        for f in reversed(order):
            if f in need: need.update(dep[f])
        dirty &= need | {mu['file']}
    broken = {}; done = set(f for f in order if f not in dirty); fatal = None; failed = set()
    order = [f for f in order if f in dirty or not any(x in dirty for x in dep[f])] if mu.get('scope') else order
    for f in dirty:
        for ext in ('.vo', '.vos', '.vok', '.glob'):
            p = os.path.join(d, f + ext)
            if os.path.exists(p): os.remove(p)
    with cf.ThreadPoolExecutor(4) as ex:
        pend = {}
        while True:
            for f in order:
                if f in done or f in failed or f in pend.values(): continue
                if all(x in done for x in dep[f]): pend[ex.submit(compile1, d, f)] = f
            if not pend: break
            fin, _ = cf.wait(pend, return_when=cf.FIRST_COMPLETED)
            for x in fin:
                f = pend.pop(x); br, fa = x.result()
                if br: broken[f] = br
                if fa: failed.add(f); fatal = (fatal or '') + f + ': ' + fa + '; '
                else: done.add(f)
    ths = []
    for f in dirty:
        if not f.endswith('Props'): continue
        src = open(os.path.join(SRC, 'theories', f + '.v')).read()
        names = re.findall(r"^Theorem (\w+)", src, re.M)
        if f not in done: ths += [n + ' (file not reached)' for n in names]; continue
        t = os.path.join(d, 'Chk_' + f + '.v')
        q = open(os.path.join(d, f + '.v')).read()
        have = [n for n in names if re.search(r"^Theorem %s\b" % n, q, re.M)]
        ths += [n for n in names if n not in have]
        open(t, 'w').write('From Verif Require Import %s.\n' % f + ''.join('Goal True. idtac "MARK %s". Abort.\nPrint Assumptions %s.\n' % (n, n) for n in have))
        r = subprocess.run(['coqc', '-q', '-Q', '.', 'Verif', 'Chk_' + f + '.v'], cwd=d, capture_output=True, text=True)
        parts = re.split(r"MARK (\w+)", r.stdout)
        if r.returncode: fatal = (fatal or '') + 'check of %s failed; ' % f
        for i in range(1, len(parts) - 1, 2):
            if 'Closed under' not in parts[i + 1]: ths.append(parts[i])
    res = {'theorems_failed': sorted(set(ths)), 'lemmas_broken': broken}
    if fatal: res['fatal'] = fatal
    shutil.rmtree(d, ignore_errors=True)
    return res

if __name__ == '__main__':
    mus = json.load(open(sys.argv[1])); only = sys.argv[2:]
    for mu in mus:
        if only and mu['id'] not in only: continue
        r = run(mu)
        rec = {'id': mu['id'], 'file': 'rocq/theories/%s.v' % mu['file'], 'definition': mu['def'], 'edit': mu['edit'],
               'claim': mu['claim'], 'theorems_failed': r.get('theorems_failed'), 'theorems_tightened': []}
        if r.get('error'): print(mu['id'], r['error']); continue
        if r.get('fatal'): rec['note'] = r['fatal']
        with open('/verif/seeded/LOG.jsonl', 'a') as h: h.write(json.dumps(rec) + '\n')
        print(mu['id'], mu['claim'], 'FAILED:', rec['theorems_failed'], '| examples/lemmas:', {k: v[:4] for k, v in r['lemmas_broken'].items()}, r.get('fatal', ''), flush=True)
