#!/usr/bin/env python3
"""Write rocq/theories/RecoveryCert.v: approximate inverses of square submatrices of the interpolation matrices.
Nothing here is trusted: RecoveryRank2.v checks every certificate."""
import re, sys, os
ROOT = os.path.dirname(os.path.dirname(os.path.abspath(__file__)))
POLYS = sys.argv[1]          # output of: Compute map (fun k => (k, npolys k)) ...
T = 4096
DEPENDENT = {("Qua12", 9), ("Qua17", 16), ("Tet20", 15), ("Hex8", 6), ("Hex32", 27)}
src = open("/repo/src/integ/gauss.rs").read()
rules = {}
for m in re.finditer(r'const IP_((\w+?)_\w+_(\d+)): \[\[f64; 4\]; (\d+)\] = \[(.*?)\n\];', src, re.S):
    pts = [[float(eval(x)) for x in r.split(',')] for r in re.findall(r'\[([^\]]*)\]', m.group(5))]
    rules.setdefault(m.group(2).capitalize(), {})[(int(m.group(3)), m.group(1))] = pts
txt = open(POLYS).read()
txt = re.sub(r'\s+', ' ', txt.split(': list (geokind * Z')[1])
polys = {}
for m in re.finditer(r'\((\w+), \[(\[.*?\])\]\)', txt):
    polys[m.group(1)] = [[((int(a), int(b), int(c)), int(z.strip('()')) / int(d)) for a, b, c, z, d in
        re.findall(r'\((\d+), (\d+), (\d+), (\S+?)%Z, (\d+)%positive\)', p)] for p in re.findall(r'\[([^\[\]]*)\]', m.group(2))]
SIZES = {"Lin": [1,2,3,4,5], "Tri": [1,3,4,6,7,12,16], "Qua": [1,4,9,16], "Tet": [1,4,5,8,14,15,24], "Hex": [6,8,14,27,64]}
NAMES = {("Tri",1):"TRI_INTERNAL_1",("Tri",3):"TRI_INTERNAL_3"}
def value(p, x):
    return sum(c * x[0]**a * x[1]**b * x[2]**d for (a, b, d), c in p)
def pick(A, r):
    """indices of r rows of A (rows >= r columns), by elimination with complete pivoting"""
    A = [row[:] for row in A]; used = []; cols = set()
    for _ in range(r):
        best = max(((abs(A[i][j]), i, j) for i in range(len(A)) if i not in used for j in range(r) if j not in cols))
        _, i, j = best; used.append(i); cols.add(j)
        for q in range(len(A)):
            if q in used: continue
            f = A[q][j] / A[i][j]
            for c in range(r): A[q][c] -= f * A[i][c]
    return sorted(used)
def inv(A):
    n = len(A); M = [row[:] + [1.0 if i == j else 0.0 for j in range(n)] for i, row in enumerate(A)]
    for c in range(n):
        p = max(range(c, n), key=lambda q: abs(M[q][c])); M[c], M[p] = M[p], M[c]
        f = M[c][c]; M[c] = [v / f for v in M[c]]
        for q in range(n):
            if q != c and M[q][c] != 0:
                f = M[q][c]; M[q] = [a - f * b for a, b in zip(M[q], M[c])]
    return [row[n:] for row in M]
def rule(cl, n):
    c = [(nm, p) for (m, nm), p in rules[cl].items() if m == n]
    if len(c) > 1:
        body = re.search(r'GeoClass::%s => match ngauss \{(.*?)_ =>' % cl, src, re.S)
        want = re.search(r'\b%d => IP_(\w+)' % n, body.group(1)) if body else None
        c = [x for x in c if want and x[0] == want.group(1)] or c
    return c[0][1]
out = ["(* Generated by tools/gen_recovery_cert.py: the selected points (at least as many points as nodes) or nodes, and",
       "   an approximate inverse of the selected square matrix, multiplied by %d. *)" % T,
       "From Coq Require Import ZArith List.", "From Verif Require Import Kind.", "Import ListNotations.", "Local Open Scope Z_scope.", ""]
cases = []; worst = 0
for k, ps in polys.items():
    cl = k[:3]; nv = len(ps)
    for n in SIZES[cl]:
        if n == 1 or (k, n) in DEPENDENT: continue
        pts = rule(cl, n); assert len(pts) == n
        P = [[value(p, x) for p in ps] for x in pts]
        if n >= nv: sel = pick(P, nv); C = [P[i] for i in sel]
        else:
            PT = [list(c) for c in zip(*P)]; sel = pick(PT, n); C = [PT[i] for i in sel]
        I = inv(C); w = max(sum(map(abs, r)) for r in I); worst = max(worst, w)
        if "-v" in sys.argv: print(k, n, nv, round(w, 2))
        L = [[round(T * v) for v in r] for r in I]
        nm = "cert_%s_%d" % (k.lower(), n)
        out.append("Definition %s : list nat * list (list Z) :=\n  ([%s]%%nat,\n   [%s])." % (nm, "; ".join(map(str, sel)),
            ";\n    ".join("[" + "; ".join(str(v) if v >= 0 else "(%d)" % v for v in r) + "]" for r in L)))
        cases.append("  | %s, %d => %s" % (k, n, nm))
out += ["", "Definition cert (k : geokind) (n : nat) : list nat * list (list Z) :=", "  match k, n with"] + cases + ["  | _, _ => ([], [])", "  end%nat."]
open(os.path.join(ROOT, "rocq/theories/RecoveryCert.v"), "w").write("\n".join(out) + "\n")
print("worst row sum", worst, "certificates", len(cases))
