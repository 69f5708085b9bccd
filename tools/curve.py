#!/usr/bin/env python3
"""Writes Point/Table.v (the table of precomputed.rs) and Point/Hints.v (slopes for the checks of Point/Chain.v)."""
import re
src = open('/repo/libraries/crypto/src/ec/precomputed.rs').read()
lines = src.split('\n')
idx = [int(m) for m in re.findall(r'PRECOMPUTED_LIMBS\[(\d+)\]', src)]
assert idx == list(range(60)), idx
rows = [(i + 1, [int(x, 16) for x in re.findall(r'0x[0-9a-f]+', l)]) for i, l in enumerate(lines) if l.strip().startswith('[0x')]
assert len(rows) == 60 and all(len(r) == 9 for _, r in rows)
out = open('/verif/rocq/theories/Point/Table.v', 'w')
out.write(f'''(** The table of multiples of the base point (libraries/crypto/src/ec/precomputed.rs).
    Written by tools/curve.py. *)
From Verif Require Import Base Field.Model.
Open Scope Z_scope.

(** {rows[0][0]}-{rows[-1][0]}: PRECOMPUTED_LIMBS. *)
Definition PRECOMPUTED_LIMBS : list limbs :=
  [ ''')
out.write(';\n    '.join('[' + '; '.join('0x%08x' % x for x in r) + ']' for _, r in rows))
out.write(''' ].
(** 17-145: PRECOMPUTED[t][j], a pair of coordinates. *)
Definition PRECOMPUTED (t j : nat) : limbs * limbs :=
  (nth (30 * t + 2 * j) PRECOMPUTED_LIMBS [], nth (30 * t + 2 * j + 1) PRECOMPUTED_LIMBS []).
''')
out.close()

p = 2**224 * (2**32 - 1) + 2**192 + 2**96 - 1
n = 0xFFFFFFFF00000000FFFFFFFFFFFFFFFFBCE6FAADA7179E84F3B9CAC2FC632551
G = (0x6B17D1F2E12C4247F8BCE6E563A440F277037D812DEB33A0F4A13945D898C296, 0x4FE342E2FE1A7F9B8EE7EB4A7C0F9E162BCE33576B315ECECBB6406837BF51F5)
def slope(P, Q):
    if P[0] == Q[0]:
        assert P[1] == Q[1]
        return (3 * P[0]**2 - 3) * pow(2 * P[1], -1, p) % p
    return (Q[1] - P[1]) * pow(Q[0] - P[0], -1, p) % p
def add(P, Q, m):
    x = (m * m - P[0] - Q[0]) % p
    return (x, (m * (P[0] - x) - P[1]) % p)
D = [G]; dbl = []
for i in range(256):
    m = slope(D[-1], D[-1]); dbl.append(m); D.append(add(D[-1], D[-1], m))
# non-adjacent form
naf = []; k = n; i = 0
while k:
    if k & 1:
        d = 2 - (k % 4); naf.append((d, i)); k -= d
    k >>= 1; i += 1
naf.reverse()
assert naf[0] == (1, 256) and sum(d * 2**i for d, i in naf) == n
acc = D[256]; ops = []
for d, i in naf[1:-1]:
    Q = D[i] if d == 1 else (D[i][0], p - D[i][1])
    m = slope(acc, Q); ops.append((d, i, m)); acc = add(acc, Q, m)
assert naf[-1][1] == 0 and acc == (G[0], p - G[1] if naf[-1][0] == 1 else G[1]), naf[-1]
tab = []
for t in range(2):
    T = {}; ms = []
    for e in range(1, 16):
        top = e.bit_length() - 1; rest = e - (1 << top)
        if rest == 0: T[e] = D[64 * top + 32 * t]
        else:
            m = slope(T[rest], D[64 * top + 32 * t]); ms.append(m); T[e] = add(T[rest], D[64 * top + 32 * t], m)
        pos = [0, 29, 57, 86, 114, 143, 171, 200, 228]
        for c in range(2):
            assert sum(d << s for d, s in zip(rows[30 * t + 2 * (e - 1) + c][1], pos)) % p == T[e][c] * 2**257 % p
    tab.append(ms)
out = open('/verif/rocq/theories/Point/Hints.v', 'w')
out.write('''(** Slopes of tangents and chords, for the checks of Point/Chain.v.  Written by tools/curve.py. *)
From Verif Require Import Base.
Open Scope Z_scope.

(** From 2^i times the base point to 2^(i + 1) times. *)
Definition tangents : list Z :=
  [ ''')
out.write(';\n    '.join('0x%064x' % m for m in dbl))
out.write(''' ].
(** From 2^256 times the base point to one less, or one more, than the order: add or subtract 2^i times it. *)
Definition order_steps : list (bool * nat * Z) :=
  [ ''')
out.write(';\n    '.join('(%s, %d%%nat, 0x%064x)' % ('true' if d == 1 else 'false', i, m) for d, i, m in ops))
out.write(''' ].
(** The entries of the tables that are sums. *)
Definition table_chords : list (list Z) :=
  [ ''')
out.write(';\n    '.join('[ ' + ';\n      '.join('0x%064x' % m for m in ms) + ' ]' for ms in tab))
out.write(' ].\n')
print('last digit', naf[-1], 'ops', len(ops))
