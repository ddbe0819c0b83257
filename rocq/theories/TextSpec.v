(* What the text format of meshes is, without the parser: white space, words, lines, numerals, rows,
   and the mesh denoted by a list of rows. *)
From Coq Require Import String Ascii List Arith NArith ZArith Bool Relations.
From Verif Require Import Base Kind MeshModel TextModel.
Import ListNotations.
Open Scope N_scope.

(* Unicode White_Space *)
Definition white (c : N) : Prop :=
  In c [9; 10; 11; 12; 13; 32; 133; 160; 5760; 8192; 8193; 8194; 8195; 8196; 8197; 8198; 8199; 8200; 8201; 8202;
        8232; 8233; 8239; 8287; 12288].
Definition is_word (w : text) : Prop := w <> [] /\ Forall (fun c => ~ white c) w.

(* [spells ws l]: l consists of the words ws separated (and possibly surrounded) by white space *)
Inductive spells : list text -> text -> Prop :=
| spells_end s : Forall white s -> spells [] s
| spells_word s w ws l : Forall white s -> is_word w -> (l = [] \/ exists c r, l = c :: r /\ white c) ->
    spells ws l -> spells (w :: ws) (s ++ w ++ l).

(* [text_lines ls t]: ls are the pieces of t between line feeds *)
Inductive text_lines : list text -> text -> Prop :=
| tl_last l : ~ In 10 l -> text_lines [l] l
| tl_cons l ls t : ~ In 10 l -> text_lines ls t -> text_lines (l :: ls) (l ++ 10 :: t).

(* blank or comment *)
Definition ignored (l : text) : Prop := exists s r, l = s ++ r /\ Forall white s /\ (r = [] \/ exists r', r = 35 :: r').

(* the rows of words in a list of lines *)
Inductive line_rows : list text -> list (list text) -> Prop :=
| lr_nil : line_rows [] []
| lr_skip l ls rows : ignored l -> line_rows ls rows -> line_rows (l :: ls) rows
| lr_row l ls w ws rows : spells (w :: ws) l -> (forall r, w <> 35 :: r) -> line_rows ls rows ->
    line_rows (l :: ls) ((w :: ws) :: rows).
Definition reads (t : text) (rows : list (list text)) : Prop := exists ls, text_lines ls t /\ line_rows ls rows.

(* numerals *)
Inductive decimal : text -> N -> Prop :=
| dec_one d : d < 10 -> decimal [48 + d] d
| dec_snoc t n d : decimal t n -> d < 10 -> decimal (t ++ [48 + d]) (10 * n + d).
Definition unsigned64 (t : text) (n : N) : Prop := (decimal t n \/ exists r, t = 43 :: r /\ decimal r n) /\ n < 2 ^ 64.
Definition usize_numeral (t : text) (n : nat) : Prop := unsigned64 t (N.of_nat n).
Definition i32_numeral (t : text) (z : Z) : Prop :=
  (exists n, z = Z.of_N n /\ (decimal t n \/ exists r, t = 43 :: r /\ decimal r n) \/
             z = (- Z.of_N n)%Z /\ exists r, t = 45 :: r /\ decimal r n) /\
  (-(2 ^ 31) <= z < 2 ^ 31)%Z.
(* the fourth point of a marked face; 2^64 - 1 stands for "none" *)
Definition fourth (t : text) (p4 : option nat) : Prop :=
  match p4 with
  | Some q => usize_numeral t q /\ N.of_nat q <> 2 ^ 64 - 1
  | None => unsigned64 t (2 ^ 64 - 1)
  end.

Section Grammar.
Context {T : Type}.
Variables (zero : T) (parse_f : text -> option T).

Definition header_row (row : list text) (nd np nc ne nf : nat) : Prop :=
  exists a b c d e extra, row = a :: b :: c :: d :: e :: extra /\
    usize_numeral a nd /\ usize_numeral b np /\ usize_numeral c nc /\ usize_numeral d ne /\ usize_numeral e nf.

(* the coordinates given by the words after the marker *)
Definition coord_words (nd : nat) (ws : list text) (xs : list T) : Prop :=
  (nd = 3%nat /\ exists a b c x y z, ws = [a; b; c] /\ parse_f a = Some x /\ parse_f b = Some y /\ parse_f c = Some z /\ xs = [x; y; z]) \/
  (nd <> 3%nat /\ (2 <= nd)%nat /\ exists a b x y, ws = [a; b] /\ parse_f a = Some x /\ parse_f b = Some y /\ xs = x :: y :: repeat zero (nd - 2)).
Definition point_row (nd : nat) (row : list text) (p : point T) : Prop :=
  exists a b ws, row = a :: b :: ws /\ usize_numeral a (pt_id p) /\ i32_numeral b (pt_marker p) /\ coord_words nd ws (pt_coords p).
Definition cell_row (row : list text) (c : cell) : Prop :=
  exists a b ws, row = a :: b :: txt (kind_to_string (c_kind c)) :: ws /\
    usize_numeral a (c_id c) /\ i32_numeral b (c_marker c) /\
    List.length ws = kind_nnode (c_kind c) /\ Forall2 usize_numeral ws (c_points c).
Definition medge_row (row : list text) (e : Z * nat * nat) : Prop :=
  exists a b c, row = [a; b; c] /\ i32_numeral a (fst (fst e)) /\ usize_numeral b (snd (fst e)) /\ usize_numeral c (snd e).
Definition mface_row (row : list text) (e : Z * nat * nat * nat * option nat) : Prop :=
  let '(mk, p1, p2, p3, p4) := e in
  exists a b c d ws, row = a :: b :: c :: d :: ws /\
    i32_numeral a mk /\ usize_numeral b p1 /\ usize_numeral c p2 /\ usize_numeral d p3 /\
    ((ws = [] /\ p4 = None) \/ exists f extra, ws = f :: extra /\ fourth f p4).

(* the mesh written in a list of rows *)
Definition denotes (rows : list (list text)) (m : mesh T) : Prop :=
  exists hdr P C E F rest, rows = hdr :: P ++ C ++ E ++ F ++ rest /\
    header_row hdr (ndim m) (List.length (points m)) (List.length (cells m)) (List.length (marked_edges m)) (List.length (marked_faces m)) /\
    Forall2 (point_row (ndim m)) P (points m) /\ map pt_id (points m) = seq 0 (List.length (points m)) /\
    Forall2 cell_row C (cells m) /\ map c_id (cells m) = seq 0 (List.length (cells m)) /\
    Forall2 medge_row E (marked_edges m) /\ Forall2 mface_row F (marked_faces m) /\
    (points m = [] -> C ++ E ++ F ++ rest = []) /\ (cells m = [] -> E ++ F ++ rest = []).
End Grammar.

(* two texts that differ in layout only *)
Definition spaces (s : text) : Prop := Forall white s /\ ~ In 10 s.
Definition at_line_start (a : text) : Prop := a = [] \/ exists a', a = a' ++ [10].
Definition at_line_end (b : text) : Prop := b = [] \/ exists b', b = 10 :: b'.
Inductive layout_step : text -> text -> Prop :=
| ls_line a l b : at_line_start a -> ignored l -> ~ In 10 l -> layout_step (a ++ b) (a ++ l ++ 10 :: b)
| ls_width a s s' b : spaces s -> spaces s' -> s <> [] -> s' <> [] -> layout_step (a ++ s ++ b) (a ++ s' ++ b)
| ls_indent a s b : at_line_start a -> spaces s -> layout_step (a ++ b) (a ++ s ++ b)
| ls_trail a s b : at_line_end b -> spaces s -> layout_step (a ++ b) (a ++ s ++ b)
| ls_final a : layout_step a (a ++ [10]).
Definition same_layout : text -> text -> Prop := clos_refl_sym_trans text layout_step.

(* the meshes that the format can express *)
Record printable {T} (fmt_f : T -> text) (parse_f : text -> option T) (m : mesh T) : Prop := {
  pr_ndim : ndim m = 2%nat \/ ndim m = 3%nat;
  pr_points : points m <> []; pr_cells : cells m <> [];
  pr_sizes : Forall (fun n => N.of_nat n < 2 ^ 64) [List.length (points m); List.length (cells m); List.length (marked_edges m); List.length (marked_faces m)];
  pr_point : forall i p, nth_error (points m) i = Some p ->
    pt_id p = i /\ (-(2 ^ 31) <= pt_marker p < 2 ^ 31)%Z /\ List.length (pt_coords p) = ndim m /\
    Forall (fun x => parse_f (fmt_f x) = Some x /\ is_word (fmt_f x)) (pt_coords p);
  pr_cell : forall i c, nth_error (cells m) i = Some c ->
    c_id c = i /\ (-(2 ^ 31) <= c_marker c < 2 ^ 31)%Z /\ List.length (c_points c) = kind_nnode (c_kind c) /\
    Forall (fun q => N.of_nat q < 2 ^ 64) (c_points c);
  pr_medge : forall mk p q, In (mk, p, q) (marked_edges m) ->
    (-(2 ^ 31) <= mk < 2 ^ 31)%Z /\ N.of_nat p < 2 ^ 64 /\ N.of_nat q < 2 ^ 64;
  pr_mface : forall mk p q r o, In (mk, p, q, r, o) (marked_faces m) ->
    (-(2 ^ 31) <= mk < 2 ^ 31)%Z /\ N.of_nat p < 2 ^ 64 /\ N.of_nat q < 2 ^ 64 /\ N.of_nat r < 2 ^ 64 /\
    forall s, o = Some s -> N.of_nat s < 2 ^ 64 - 1 }.
