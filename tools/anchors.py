#!/usr/bin/env python3
"""Checks or fixes `file.rs A-B: name` citations in the model: the range must be that of `fn name`."""
import re, sys, os, glob
SRC = {}
for root in ('/repo/libraries', '/repo/src', '/repo/bootloader', '/repo/third_party'):
    for p in glob.glob(root + '/**/*.rs', recursive=True):
        SRC.setdefault(os.path.basename(p), []).append(p)
def ranges(base, name):
    out = []
    for p in SRC.get(base, []):
        L = open(p).read().split('\n')
        for i, l in enumerate(L):
            if re.search(r'\bfn\s+%s\b' % re.escape(name), l):
                d = 0; seen = False
                for j in range(i, len(L)):
                    d += L[j].count('{') - L[j].count('}')
                    if '{' in L[j]: seen = True
                    if (seen and d <= 0) or (not seen and L[j].rstrip().endswith(';')): break
                out.append((i + 1, j + 1))
    return out
fix = '--fix' in sys.argv
for f in [a for a in sys.argv[1:] if not a.startswith('--')]:
    s = open(f).read()
    def sub(m):
        base, a, b, name = m.group(1), int(m.group(2)), int(m.group(3) or m.group(2)), m.group(4)
        r = ranges(base, name)
        if not r or any(abs(x - a) <= 2 and abs(y - b) <= 2 for x, y in r): return m.group(0)
        x, y = min(r, key=lambda t: abs(t[0] - a))
        print(f'{f}: {base} {a}-{b}: {name} -> {x}-{y}')
        return f'{base} {x}-{y}: {name}' if fix else m.group(0)
    t = re.sub(r'([a-z_0-9]+\.rs) (\d+)(?:-(\d+))?: (\w+)', sub, s)
    if fix and t != s: open(f, 'w').write(t)
