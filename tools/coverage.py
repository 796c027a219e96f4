"""Which functions of /repo are cited in the model?  A function counts as cited when a comment in rocq/theories names its
file and a line range that meets its body, or names the function itself."""
import re, os, glob, sys
R = '/repo'
def funcs(path):
    s = open(path, errors='replace').read(); out = []
    for m in re.finditer(r'^(?:[A-Za-z_][\w\s\*]*?[\s\*])(\w+)\s*\(([^;{}()]|\([^)]*\))*\)\s*\{', s, re.M):
        if m.group(1) in ('if', 'for', 'while', 'switch', 'return'): continue
        d = 0
        for k in range(m.end() - 1, len(s)):
            if s[k] == '{': d += 1
            elif s[k] == '}':
                d -= 1
                if d == 0: break
        a = s.count('\n', 0, m.start()) + 1; b = s.count('\n', 0, k) + 1
        out.append((m.group(1), a, b))
    return out
text = ''.join(open(f).read() for f in glob.glob(os.path.dirname(os.path.abspath(__file__)) + '/../rocq/theories/*.v'))
cites = {}
for m in re.finditer(r'([\w/]+\.(?:c|cpp|h))((?::\d+(?:-\d+)?(?:,\s*)?(?:and |with )?)+)', text):
    f = os.path.basename(m.group(1))
    for a, b in re.findall(r':(\d+)(?:-(\d+))?', m.group(2)):
        cites.setdefault(f, []).append((int(a), int(b or a)))
files = glob.glob(R + '/src/**/*.c', recursive=True) + glob.glob(R + '/src/**/*.cpp', recursive=True) + glob.glob(R + '/WBMatrix/src/*.c')
n = k = 0
for f in sorted(files):
    for name, a, b in funcs(f):
        n += 1
        ok = any(x <= b and y >= a for x, y in cites.get(os.path.basename(f), [])) or re.search(r'\b%s\b' % name, text)
        if ok: k += 1
        else: print(os.path.relpath(f, R), name, a, b)
print(k, 'of', n, 'functions cited')
