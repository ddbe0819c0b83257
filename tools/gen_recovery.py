#!/usr/bin/env python3
"""Generates rocq/theories/RecoveryData.v: the tables TR_PINV_HXI of /repo/src/recovery/get_extrap_matrix.rs.
Every number is the binary64 value of the literal, written as an integer multiple of 2^-114."""
import re
from fractions import Fraction
src = open('/repo/src/recovery/get_extrap_matrix.rs').read()
out = ['''(* GENERATED by tools/gen_recovery.py from src/recovery/get_extrap_matrix.rs: do not edit.
   The tables of get_tr_pinv_hxi.  A number z stands for z / 2^114: these are the exact binary64
   values of the literals in the source, which are repeated as comments. *)
From Coq Require Import ZArith List.
Import ListNotations.
Local Open Scope Z_scope.
''']
SCALE = 2 ** 114
for m in re.finditer(r'const (TR_PINV_HXI_(\w+?)_\w+_(\d+)): \[\[f64; 4\]; (\d+)\] = \[(.*?)\n\];', src, re.S):
    line = src[:m.start()].count('\n') + 1
    last = src[:m.end()].count('\n') + 1
    rows = re.findall(r'\[([^\]]*)\]', m.group(5))
    assert len(rows) == int(m.group(4)) == int(m.group(3))
    out.append('(* src/recovery/get_extrap_matrix.rs:%d-%d *)' % (line, last))
    out.append('Definition %s : list (Z * Z * Z * Z) := [' % m.group(1).lower())
    body = []
    for r in rows:
        vals = [Fraction(float(x)) * SCALE for x in r.split(',')]
        assert len(vals) == 4 and all(v.denominator == 1 for v in vals)
        body.append('  (%s) (* %s *)' % (', '.join('%d' % v for v in vals), ', '.join(x.strip() for x in r.split(','))))
    for i in range(len(body) - 1):
        body[i] = body[i].replace(') (*', '); (*', 1)
    out.append('\n'.join(body) + '].\n')
open('/verif/rocq/theories/RecoveryData.v', 'w').write('\n'.join(out))
