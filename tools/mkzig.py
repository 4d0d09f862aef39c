#!/usr/bin/env python3
"""Transcribes the ziggurat tables of /repo/expo.go and /repo/normal.go into Coq.
K: hexadecimal literals as written. W, F: the decimal literals as written, as pairs (D, k) meaning D * 10^-k, and the float64
each of them denotes, as (m, e) meaning m * 2^e. That (m, e) is the double nearest to (D, k) is proved in Coq."""
import re, math
def tables(fn, p):
    src = open('/repo/' + fn).read()
    lines = src.split('\n')
    out = {}
    for n in 'KWF':
        m = re.search(r'var ' + p + n + r' = \[1024\]\w+\{(.*?)\n\}', src, re.S)
        a = src[:m.start()].count('\n') + 1; b = src[:m.end()].count('\n') + 1
        out[n] = ([t.strip() for t in m.group(1).replace('\n', ' ').split(',') if t.strip()], a, b)
        assert len(out[n][0]) == 1024
    return out
def dec(t):
    m = re.fullmatch(r'(\d)\.(\d+)e([+-]\d+)', t)
    D = int(m.group(1) + m.group(2)); k = len(m.group(2)) - int(m.group(3))
    assert k >= 0
    return '(%d, %d)' % (D, k)
def binary(t):
    x = float(t); f, e = math.frexp(x)
    return '(%d, %d)' % (int(f * 2**53), e - 53)
def rows(l, n): return ';\n'.join('  ' + '; '.join(l[i:i+n]) for i in range(0, len(l), n))
for fn, p, q in (('expo.go', 'expo', 'Expo'), ('normal.go', 'normal', 'Normal')):
    t = tables(fn, p)
    o = open('/verif/rocq/theories/Model/%sTable.v' % q, 'w')
    o.write('(** Tables of %s, generated by tools/mkzig.py.\n    A pair (m, e) of a _bin table is the float64 m * 2^e; a pair (D, k) of a _dec table is the literal D * 10^-k as\n    written in the source. Proofs/ZigTables.v checks that each _bin entry is the double nearest to its literal. *)\n' % fn)
    o.write('From Coq Require Import NArith ZArith List.\nImport ListNotations.\n\n')
    l, a, b = t['K']
    o.write('(** %s:%d-%d *)\nDefinition %sK : list N := [\n%s]%%N.\n' % (fn, a, b, p, rows(l, 8)))
    for n in 'WF':
        l, a, b = t[n]
        o.write('(** %s:%d-%d, as written *)\nDefinition %s%s_dec : list (Z * Z) := [\n%s]%%Z.\n' % (fn, a, b, p, n, rows([dec(x) for x in l], 4)))
        o.write('(** %s:%d-%d, as float64 *)\nDefinition %s%s_bin : list (Z * Z) := [\n%s]%%Z.\n' % (fn, a, b, p, n, rows([binary(x) for x in l], 4)))
