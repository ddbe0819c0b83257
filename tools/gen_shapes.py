#!/usr/bin/env python3
"""Translates the constant tables and the straight-line arithmetic of /repo/src/shapes/*.rs
into rocq/theories/ShapesData.v and rocq/theories/Kind.v.  Purely syntactic: every Rust
expression becomes a Coq term of type `expr` with the same tree; f64 literals become exact
rationals."""
import re, os, sys
from fractions import Fraction
REPO = "/repo/src/shapes/"
OUT = os.path.join(os.path.dirname(os.path.abspath(__file__)), "..", "rocq", "theories")
KINDS = ["Lin2","Lin3","Lin4","Lin5","Tri3","Tri6","Tri10","Tri15","Qua4","Qua8","Qua9","Qua12","Qua16","Qua17",
         "Tet4","Tet10","Tet20","Hex8","Hex20","Hex32"]

def q(fr):
    return "(%s # %d)" % (("%d" % fr.numerator) if fr.numerator >= 0 else "(%d)" % fr.numerator, fr.denominator)

TOK = re.compile(r"\s*(?:(\d+\.\d*(?:[eE][+-]?\d+)?|\d+)|([A-Za-z_][A-Za-z_0-9]*)|(.))", re.S)
def tokens(s):
    out = []; i = 0; s = s.strip()
    while i < len(s):
        m = TOK.match(s, i); i = m.end()
        if m.group(1): out.append(("num", m.group(1)))
        elif m.group(2): out.append(("id", m.group(2)))
        elif m.group(3).strip(): out.append(("op", m.group(3)))
    return out

class Parser:
    """standard precedence: unary minus binds tighter than * and /, which bind tighter than + and -"""
    def __init__(self, s, consts, names):
        self.t = tokens(s); self.i = 0; self.consts = consts; self.names = names; self.src = s
    def peek(self): return self.t[self.i] if self.i < len(self.t) else None
    def eat(self, v=None):
        x = self.t[self.i]; self.i += 1
        if v is not None: assert x[1] == v, (x, v, self.src)
        return x
    def parse(self):
        e = self.addsub(); assert self.i == len(self.t), (self.src, self.t[self.i:]); return e
    def addsub(self):
        a = self.muldiv()
        while self.peek() and self.peek() in (("op","+"),("op","-")):
            o = self.eat()[1]; b = self.muldiv(); a = ("add" if o == "+" else "sub", a, b)
        return a
    def muldiv(self):
        a = self.unary()
        while self.peek() and self.peek() in (("op","*"),("op","/")):
            o = self.eat()[1]; b = self.unary()
            if o == "*": a = ("mul", a, b)
            else:
                c = const_val(b); assert c is not None and c != 0, self.src
                if a[0] == "c" : a = ("c", a[1] / c)
                else: a = ("divc", a, c)
        return a
    def unary(self):
        if self.peek() == ("op","-"):
            self.eat(); a = self.unary()
            return ("c", -a[1]) if a[0] == "c" else ("neg", a)
        return self.atom()
    def atom(self):
        k, v = self.eat()
        if k == "num": return ("c", Fraction(v))
        if k == "id":
            if v in self.consts: return ("c", self.consts[v])
            assert v in self.names, (v, self.src)
            return ("id", v)
        assert v == "(", (v, self.src)
        e = self.addsub(); self.eat(")"); return e
def const_val(e):
    return e[1] if e[0] == "c" else None

def coq(e, prec=0):
    k = e[0]
    if k == "c": return "C %s" % q(e[1]) if prec < 10 else "(C %s)" % q(e[1])
    if k == "id": return e[1]
    if k in ("add","sub"):
        s = "%s %s %s" % (coq(e[1],1), "+" if k=="add" else "-", coq(e[2],2)); p = 1
    elif k == "mul":
        s = "%s * %s" % (coq(e[1],3), coq(e[2],4)); p = 3
    elif k == "divc":
        s = "%s /c %s" % (coq(e[1],3), q(e[2])); p = 3
    elif k == "neg":
        s = "- %s" % coq(e[1],10); p = 3
    return "(%s)" % s if p < prec else s

def strip_comments(txt):
    txt = re.sub(r"/\*.*?\*/", "", txt)
    return re.sub(r"//[^\n]*", "", txt)

def read(kind):
    txt = open(REPO + kind.lower() + ".rs").read()
    i = txt.find("#[cfg(test)]")
    if i >= 0: txt = txt[:i]
    return txt
def line_of(txt, pat):
    m = re.search(pat, txt); return txt.count("\n", 0, m.start()) + 1

def nested(s):
    """parse nested bracket array; returns nested lists of strings"""
    s = s.strip(); pos = 0
    def arr(i):
        assert s[i] == "["; i += 1; out = []; cur = ""
        while True:
            ch = s[i]
            if ch == "[": v, i = arr(i); out.append(v); cur = None
            elif ch == ",":
                if cur is not None and cur.strip(): out.append(cur.strip())
                cur = ""; i += 1
            elif ch == "]":
                if cur is not None and cur.strip(): out.append(cur.strip())
                return out, i + 1
            else:
                if cur is None:
                    assert ch.isspace()
                else: cur += ch
                i += 1
    v, _ = arr(0); return v

def main():
    o = []
    o.append("(* GENERATED by tools/gen_shapes.py from /repo/src/shapes/{lin2..hex32}.rs -- do not edit.")
    o.append("   Every table and every arithmetic expression is copied term by term; f64 literals are exact")
    o.append("   rationals (1.0/3.0 becomes 1/3), so rounding is not modelled. *)")
    o.append("From Coq Require Import List QArith.\nFrom Verif Require Import Expr.\nImport ListNotations.\nOpen Scope nat_scope.\n")
    info = {}
    for kind in KINDS:
        txt = read(kind); code = strip_comments(txt); k = kind.lower()
        f = "src/shapes/%s.rs" % k
        # russell_lab::math::{ONE_BY_3, TWO_BY_3}
        consts = {"ONE_BY_3": Fraction(1, 3), "TWO_BY_3": Fraction(2, 3)}
        for m in re.finditer(r"const (\w+): f64 = ([^;]+);", code):
            consts[m.group(1)] = const_val(Parser(m.group(2), consts, []).parse())
        nums = {}
        for m in re.finditer(r"pub const (\w+): usize = (\d+);", code): nums[m.group(1)] = int(m.group(2))
        o.append("(** * %s -- %s *)" % (kind, f))
        for nme in sorted(nums):
            o.append("(* %s:%d %s *)" % (f, line_of(txt, r"pub const %s: usize" % nme), nme))
            o.append("Definition %s_%s : nat := %d." % (k, nme.lower(), nums[nme]))
        info[kind] = dict(nums=nums, tables=set())
        for m in re.finditer(r"pub const (\w+): (\[[^=]*\]) = (\[.*?\]);", code, re.S):
            nme, ty, body = m.groups()
            info[kind]["tables"].add(nme)
            ln = line_of(txt, r"pub const %s: \[" % nme)
            v = nested(body)
            isf = "f64" in ty
            def pr(x):
                if isinstance(x, list): return "[" + "; ".join(pr(y) for y in x) + "]"
                if isf:
                    c = const_val(Parser(x, consts, []).parse()); assert c is not None; return q(c)
                return str(int(x))
            depth = 0; w = v
            while isinstance(w, list): depth += 1; w = w[0]
            t = "Q" if isf else "nat"
            for _ in range(depth): t = "list (%s)" % t if " " in t else "list %s" % t
            o.append("(* %s:%d %s *)" % (f, ln, nme))
            o.append("Definition %s_%s : %s :=\n  %s%s." % (k, nme.lower(), t, pr(v).replace("]; [", "];\n   ["), "%Q" if isf else ""))
        # functions
        for fn in ("calc_interp", "calc_deriv"):
            m = re.search(r"pub fn %s\([^)]*\) \{(.*?)\n    \}" % fn, code, re.S)
            ln0 = line_of(txt, r"pub fn %s\(" % fn)
            body = m.group(1)
            lnend = code[:m.end()].count("\n") + 1
            stmts = [s.strip() for s in body.split(";") if s.strip()]
            names = []; lets = []; vals = {}
            for s in stmts:
                mm = re.match(r"let \(([^)]*)\) = \(([^)]*)\)$", s)
                if mm:
                    a = [x.strip() for x in mm.group(1).split(",")]; b = [x.strip() for x in mm.group(2).split(",")]
                    assert len(a) == len(b)
                    for x, y in zip(a, b):
                        mm2 = re.match(r"ksi\[(\d)\]$", y); assert mm2, s
                        lets.append("let %s := X %s in" % (x, mm2.group(1))); names.append(x)
                    continue
                mm = re.match(r"let (\w+) = ksi\[(\d)\]$", s)
                if mm:
                    lets.append("let %s := X %s in" % mm.groups()); names.append(mm.group(1)); continue
                mm = re.match(r"let (\w+) = (.*)$", s, re.S)
                if mm:
                    e = Parser(mm.group(2), consts, names).parse()
                    lets.append("let %s := %s in" % (mm.group(1), coq(e))); names.append(mm.group(1)); continue
                mm = re.match(r"interp\[(\d+)\] = (.*)$", s, re.S)
                if mm:
                    # ksi may be used inline
                    src = mm.group(2)
                    e = Parser(src, consts, names).parse(); i = int(mm.group(1)); assert i not in vals
                    vals[i] = coq(e); continue
                mm = re.match(r"deriv\.set\(\s*(\d+),\s*(\d+),\s*(.*?),?\s*\)$", s, re.S)
                assert mm, (kind, s)
                i, j = int(mm.group(1)), int(mm.group(2)); assert (i, j) not in vals
                e = Parser(mm.group(3), consts, names).parse(); vals[(i, j)] = coq(e)
            nn, nd = nums["NNODE"], nums["GEO_NDIM"]
            o.append("(* %s:%d-%d %s *)" % (f, ln0, lnend, fn))
            if fn == "calc_interp":
                assert sorted(vals) == list(range(nn)), kind
                o.append("Definition %s_interp : list expr := (" % k)
                o += ["  " + l for l in lets]
                o.append("  [ " + ";\n    ".join(vals[i] for i in range(nn)) + " ])%expr.")
            else:
                assert sorted(vals) == [(i, j) for i in range(nn) for j in range(nd)], kind
                o.append("(* row m, column j is deriv.get(m, j) *)")
                o.append("Definition %s_deriv : list (list expr) := (" % k)
                o += ["  " + l for l in lets]
                o.append("  [ " + ";\n    ".join("[" + "; ".join(vals[(i, j)] for j in range(nd)) + "]" for i in range(nn)) + " ])%expr.")
        o.append("")
    open(os.path.join(OUT, "ShapesData.v"), "w").write("\n".join(o) + "\n")

    # ------------------------------------------------------------------ enums.rs
    etxt = open(REPO + "enums.rs").read(); etxt = etxt[:etxt.find("#[cfg(test)]")]
    ecode = strip_comments(etxt)
    g = []
    g.append("(* GENERATED by tools/gen_shapes.py from /repo/src/shapes/enums.rs -- do not edit. *)")
    g.append("From Coq Require Import List QArith String.\nFrom Verif Require Import ShapesData.\nImport ListNotations.\nOpen Scope nat_scope.\n")
    g.append("(* src/shapes/enums.rs:%d GeoClass *)" % line_of(etxt, r"pub enum GeoClass"))
    g.append("Inductive geoclass : Set := CLin | CTri | CQua | CTet | CHex.")
    g.append("(* src/shapes/enums.rs:%d GeoKind *)" % line_of(etxt, r"pub enum GeoKind"))
    g.append("Inductive geokind : Set := " + " | ".join(KINDS) + ".\n")
    def fn_arms(name):
        m = re.search(r"pub fn %s\([^{]*\{(.*?)\n    \}" % name, ecode, re.S)
        body = m.group(1)
        arms = dict(re.findall(r"(?:Self|GeoKind)::(\w+) => ((?:\([^)]*\)|[^,\n])*),?\n", body))
        assert sorted(arms) == sorted(KINDS), (name, set(KINDS) ^ set(arms))
        ln0 = line_of(etxt, r"pub fn %s\(" % name); ln1 = ecode[:m.end()].count("\n") + 1
        # class GeoKind functions come after GeoClass ones: GeoClass::ndim is also called ndim
        return arms, ln0, ln1
    def emit(name, coqname, ty, trans, note="", args=""):
        arms, a, b = fn_arms_k(name)
        g.append("(* src/shapes/enums.rs:%d-%d GeoKind::%s%s *)" % (a, b, name, note))
        g.append("Definition %s (k : geokind)%s : %s :=\n  match k with" % (coqname, args, ty))
        for k in KINDS: g.append("  | %s => %s" % (k, trans(k, arms[k].strip())))
        g.append("  end.\n")
    impl_at = etxt.find("impl GeoKind {")
    def fn_arms_k(name):
        nonlocal ecode
        m = re.compile(r"pub fn %s\([^{]*\{(.*?)\n    \}" % name, re.S).search(ecode, ecode.find("impl GeoKind {"))
        body = m.group(1)
        arms = dict(re.findall(r"(?:Self|GeoKind)::(\w+) => ((?:\([^)]*\)|[^,\n])*),?\n", body))
        assert sorted(arms) == sorted(KINDS), (name, set(KINDS) ^ set(arms))
        ln0 = ecode.count("\n", 0, m.start()) + 1
        return arms, ln0, ln0 + m.group(0).count("\n")
    def own(k, v, const):
        assert v.lstrip("&") == "%s::%s" % (k, const), (k, v, const); return "%s_%s" % (k.lower(), const.lower())
    emit("class", "kind_class", "geoclass", lambda k, v: "C" + v.split("::")[1])
    def num(k, v):
        if re.match(r"^\d+$", v): return v
        c = v.split("::"); assert c[0] == k, (k, v); return "%s_%s" % (k.lower(), c[1].lower())
    for n, c in (("ndim","kind_ndim"),("nnode","kind_nnode"),("nedge","kind_nedge"),("nface","kind_nface"),
                 ("edge_nnode","kind_edge_nnode"),("face_nnode","kind_face_nnode"),("face_nedge","kind_face_nedge")):
        emit(n, c, "nat", num)
    opt = lambda k, v: "None" if v == "None" else "Some " + re.match(r"Some\((?:GeoKind|Self)::(\w+)\)", v).group(1)
    emit("edge_kind", "kind_edge_kind", "option geokind", opt)
    emit("face_kind", "kind_face_kind", "option geokind", opt)
    emit("lower_order", "kind_lower_order", "option geokind", opt)
    def tbl(depth, zero="0"):
        def f(k, v):
            v = v.lstrip("&")
            if v in ("0",): return zero
            m = re.match(r"(\w+)::(\w+)((?:\[\w+\])+)$", v); assert m and m.group(1) == k, (k, v)
            idx = re.findall(r"\[(\w+)\]", m.group(3)); assert len(idx) == depth
            t = "%s_%s" % (k.lower(), m.group(2).lower())
            ds = ["0", "[]", "[]"]
            for n_, ix in enumerate(idx):
                d = "[]" if n_ < depth - 1 else zero
                t = "nth %s %s %s" % (ix, t if n_ == 0 else "(" + t + ")", d)
            return t
        return f
    tot = " (total: indices out of range give 0, where the code panics)"
    emit("edge_node_id", "edge_node_id", "nat", tbl(2), tot, " (e i : nat)")
    emit("edge_node_id_inward", "edge_node_id_inward", "nat", tbl(2), tot, " (e i : nat)")
    emit("face_node_id", "face_node_id", "nat", tbl(2), tot, " (f i : nat)")
    emit("face_edge_node_id", "face_edge_node_id", "nat", tbl(3), tot, " (f k_ i : nat)".replace("k_", "k'"))
    emit("n_interior_nodes", "kind_n_interior_nodes", "nat", num)
    emit("interior_node", "interior_node", "nat", tbl(1), tot, " (i : nat)")
    emit("reference_coords", "reference_coords", "list Q", tbl(1, "[]"), " (total: out of range gives [], where the code panics)", " (m : nat)")
    emit("ksi_min_ksi_del", "ksi_min_ksi_del", "Q * Q",
         lambda k, v: "(%s, %s)%%Q" % tuple(q(Fraction(x.strip())) for x in v.strip("()").split(",")))
    def fns(which):
        def f(k, v):
            a, b = [x.strip() for x in v.strip("()").split(",")]
            assert a == k + "::calc_interp" and b == k + "::calc_deriv", (k, v)
            return "%s_%s" % (k.lower(), which)
        return f
    emit("functions", "kind_interp", "list Expr.expr", fns("interp"), ", first component")
    emit("functions", "kind_deriv", "list (list Expr.expr)", fns("deriv"), ", second component")
    bl = lambda k, v: v
    for n in ("is_lin", "is_tri_or_tet", "is_qua_or_hex"): emit(n, n, "bool", bl)
    # vtk
    vt = dict(re.findall(r"const (VTK_\w+): usize = (\d+);", ecode))
    emit("vtk_type", "vtk_type", "option nat", lambda k, v: "None" if v == "None" else "Some %s" % vt[re.match(r"Some\((\w+)\)", v).group(1)])
    emit("triangulate_ntriangle", "triangulate_ntriangle", "nat", num)
    emit("triangulate_triangle_nodes", "triangulate_triangle_nodes", "option nat",
         lambda k, v: "None" if v == "UNAVAILABLE" else (lambda m: "match nth_error %s_triangulate_triangles t with Some w => nth_error w i | None => None end" % k.lower())(re.match(r"%s::TRIANGULATE_TRIANGLES\[t\]\[i\]$" % k, v) or sys.exit("bad")),
         " (None stands for UNAVAILABLE = usize::MAX and for the out-of-range panic)", " (t i : nat)")
    emit("triangulate_extra_nnode", "triangulate_extra_nnode", "nat", num)
    emit("triangulate_extra_coords", "triangulate_extra_coords", "list Q",
         lambda k, v: "[]" if v == "EMPTY" else tbl(1, "[]")(k, v), "", " (k' : nat)")
    # fix variable name used in last
    g[:] = [s.replace("nth k qua", "nth k' qua") if "triangulate_extra_coords" in s and "nth k qua" in s else s for s in g]
    g[:] = [re.sub(r"nth k \(nth f", "nth k' (nth f", s) for s in g]
    # names
    m = re.compile(r"pub fn to_string\(.*?\n    \}", re.S).search(ecode, ecode.find("impl GeoKind {")); body = m.group(0)
    ln = ecode.count("\n", 0, m.start()) + 1
    names = dict(re.findall(r"Self::(\w+) => \"(\w+)\"\.to_string\(\)", body)); assert sorted(names) == sorted(KINDS)
    g.append("(* src/shapes/enums.rs:%d-%d GeoKind::to_string *)" % (ln, ln + body.count("\n")))
    g.append("Definition kind_to_string (k : geokind) : string :=\n  match k with")
    for k in KINDS: g.append('  | %s => "%s"' % (k, names[k]))
    g.append("  end%string.\n")
    m = re.compile(r"pub fn from\(kind: &str\).*?\n    \}", re.S).search(ecode); body = m.group(0)
    ln = ecode.count("\n", 0, m.start()) + 1
    arms = re.findall(r"\"(\w+)\" => Ok\(Self::(\w+)\)", body)
    g.append("(* src/shapes/enums.rs:%d-%d GeoKind::from; None is the Err *)" % (ln, ln + body.count("\n")))
    g.append("Definition kind_from (s : string) : option geokind :=")
    for a, b in arms: g.append('  if String.eqb s "%s" then Some %s else' % (a, b))
    g.append("  None.\n")
    m = re.search(r"pub const VALUES: \[Self; 20\] = \[(.*?)\];", ecode, re.S)
    vals = re.findall(r"Self::(\w+)", m.group(1))
    g.append("(* src/shapes/enums.rs:%d GeoKind::VALUES *)" % (ecode.count("\n", 0, m.start()) + 1))
    g.append("Definition kind_values : list geokind := [" + "; ".join(vals) + "].\n")
    m = re.search(r"pub const HEX_EDGE_TO_FACE: \[\[usize; 2\]; 12\] = (\[.*?\]);", ecode, re.S)
    g.append("(* src/shapes/enums.rs:%d HEX_EDGE_TO_FACE *)" % (ecode.count("\n", 0, m.start()) + 1))
    g.append("Definition hex_edge_to_face : list (list nat) := [" + "; ".join("[" + "; ".join(r) + "]" for r in nested(m.group(1))) + "].\n")
    open(os.path.join(OUT, "Kind.v"), "w").write("\n".join(g) + "\n")
main()
