#!/usr/bin/env python3
"""Rewrites the table of theorems at the end of DESIGN.md from MANIFEST.json.

The assumptions come from the output of `make` (file given as argument), in which every
Print Assumptions must say "Closed under the global context"."""
import json, re, sys, pathlib
root = pathlib.Path(__file__).resolve().parent.parent
man = json.load(open(root / 'MANIFEST.json'))['claims']
titles = {}
for l in open(root / 'properties.jsonl'):
    p = json.loads(l); titles[p['id']] = p['title']
where = {}
for f in sorted((root / 'rocq/theories').rglob('Props*.v')):
    for m in re.finditer(r'^(?:Theorem|Lemma) (C\d+_\w+)', f.read_text(), re.M):
        where[m.group(1)] = str(f.relative_to(root / 'rocq/theories'))
out = ['| property | status | theorems (file) | Print Assumptions |', '|---|---|---|---|']
for c in sorted(man, key=lambda c: c['property']):
    by = {}
    for t in c['theorems']:
        by.setdefault(where.get(t, '?'), []).append('`%s`' % t)
    cell = '; '.join('%s (%s)' % (', '.join(ts), f) for f, ts in by.items())
    out.append('| %s %s | %s | %s | closed |' % (c['property'], titles[c['property']], c['status'], cell))
d = root / 'DESIGN.md'
s = d.read_text()
a, b = '<!-- theorems begin -->', '<!-- theorems end -->'
assert a in s and b in s
s = s[:s.index(a) + len(a)] + '\n' + '\n'.join(out) + '\n' + s[s.index(b):]
d.write_text(s)
