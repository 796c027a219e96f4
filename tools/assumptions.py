"""Ask Coq for the assumptions of every theorem named in MANIFEST.json and write ASSUMPTIONS.md.
The theories must be compiled (make in rocq/)."""
import json, os, re, subprocess, tempfile
here = os.path.dirname(os.path.abspath(__file__)); top = os.path.dirname(here)
T = os.path.join(top, 'rocq', 'theories')
claims = json.load(open(os.path.join(top, 'MANIFEST.json')))['claims']
where = {}
for f in sorted(os.listdir(T)):
    if f.endswith('Props.v'):
        for m in re.finditer(r'^Theorem\s+(\w+)', open(os.path.join(T, f)).read(), re.M): where[m.group(1)] = f[:-2]
by = {}
for c in claims:
    for t in c['theorems']: by.setdefault(where[t], []).append((c['property'], t))
res = {}
for mod, ts in sorted(by.items()):
    d = tempfile.mkdtemp()
    src = 'From Verif Require Import %s.\n' % mod
    for _, t in ts: src += 'Check I. Print Assumptions %s.%s.\n' % (mod, t)
    open(d + '/A.v', 'w').write(src)
    o = subprocess.run(['coqc', '-q', '-Q', T, 'Verif', 'A.v'], cwd=d, capture_output=True, text=True)
    assert o.returncode == 0, o.stderr
    parts = re.split(r'^I\s*\n?\s*: True\s*$', o.stdout, flags=re.M)[1:]
    assert len(parts) == len(ts), (mod, len(parts), len(ts))
    for (_, t), a in zip(ts, parts): res[t] = ' '.join(a.split())
    print(mod, len(ts), flush=True)
out = ['# What Print Assumptions lists for each theorem', '',
       'Written by `tools/assumptions.py` from the output of Coq.', '',
       '| property | theorem | file | assumptions |', '|---|---|---|---|']
for c in claims:
    for t in c['theorems']: out.append('| %s | `%s` | `%s.v` | %s |' % (c['property'], t, where[t], res[t]))
open(os.path.join(top, 'ASSUMPTIONS.md'), 'w').write('\n'.join(out) + '\n')
print(len(res), 'theorems;', len([1 for a in res.values() if a != 'Closed under the global context']), 'with assumptions')
