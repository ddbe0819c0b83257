(* Numerical integration of element vectors and matrices.  Models
   - CommonArgs                                          (src/integ/common_args.rs:5-43)
   - vec_01_ns, vec_01_ns_bry, vec_02_nv, vec_02_nv_bry, vec_03_bv, vec_04_bt
   - mat_01_nsn, mat_01_nsn_bry, mat_02_bvn, mat_03_btb, mat_04_nsb, mat_05_btn, mat_06_nvn, mat_07_bsn,
     mat_08_ntn, mat_09_nvb, mat_10_bdb, mat_10_bdb_alt
   - scalar_field
   (files of the same names in src/integ; lines are given at each definition).
   f64 is modelled by R.  The closure (FnMut) is a function of the index of the integration point, N
   and B: in one run its results are determined by the index, hence every run is covered although
   a closure may have a state.  A closure that fills a vector, tensor or matrix given by reference
   returns the contents after the call; Tensor2 and Tensor4 (crate russell_tensor) are their Mandel
   vector and matrix.  A function returns the new vector or matrix together with the new pad; what
   they contain after an Err is not modelled. *)
From Coq Require Import String Reals List Arith Bool.
From Verif Require Import Base Kind ShapesModel GeomModel PadModel GaussModel.
Import ListNotations.
Local Open Scope string_scope.
Local Open Scope list_scope.
Local Open Scope R_scope.

(* russell_lab: v[i], v[i] += x, Matrix::add, Matrix::set, Matrix::dims, fill(0.0) *)
Definition vat (v : list R) (i : nat) : R := nth i v 0.
Definition vec_add_at (l : list R) (i : nat) (x : R) : res (list R) :=
  let! y := get l i in
  set l i (y + x).
Definition mat_add_at (a : mat) (i j : nat) (x : R) : res mat :=
  let! row := get a i in
  let! row' := vec_add_at row j x in
  set a i row'.
Definition mat_set_at (a : mat) (i j : nat) (x : R) : res mat :=
  let! row := get a i in
  let! row' := set row j x in
  set a i row'.
Definition nrow (a : mat) : nat := List.length a.
Definition ncol (a : mat) : nat := match a with [] => 0%nat | row :: _ => List.length row end.
Definition vec_zero (l : list R) : list R := map (fun _ => 0) l.
Definition mat_zero (a : mat) : mat := map vec_zero a.

(* the additions of a loop, in order *)
Definition vec_adds (l : list R) (c : list (nat * R)) : res (list R) :=
  foldM (fun (l : list R) (e : nat * R) => vec_add_at l (fst e) (snd e)) c l.
Definition mat_adds (a : mat) (c : list (nat * nat * R)) : res mat :=
  foldM (fun (a : mat) (e : nat * nat * R) => mat_add_at a (fst (fst e)) (snd (fst e)) (snd e)) c a.
Definition mat_sets (a : mat) (c : list (nat * nat * R)) : res mat :=
  foldM (fun (a : mat) (e : nat * nat * R) => mat_set_at a (fst (fst e)) (snd (fst e)) (snd e)) c a.

(* common_args.rs:5-43 *)
Record args := mkArgs {
  a_pad : pad; a_gauss : gauss; a_clear : bool; a_axi : bool; a_alpha : R; a_ii0 : nat; a_jj0 : nat
}.
Definition args_new (p : pad) (g : gauss) : args := mkArgs p g true false 1 0 0.
Definition a_nnode (A : args) : nat := kind_nnode (p_kind (a_pad A)).
Definition a_space (A : args) : nat := p_space (a_pad A).

(* r += nn[m] * pad.xxt[0][m] *)
Definition radius (nnode : nat) (nn : list R) (p : pad) : R :=
  fold_left (fun r m => r + vat nn m * ent (p_xxt p) 0 m) (seq 0 nnode) 0.

(* the loop over the integration points; [eval] sets the Jacobian, gradient or normal of the pad and
   returns what the body needs *)
Definition gauss_loop {X S} (eval : pad -> list R -> res (X * pad))
    (body : nat -> list R -> R -> list R -> X -> pad -> S -> res S) (g : gauss) (p0 : pad) (s0 : S) : res (S * pad) :=
  foldM (fun (st : S * pad) p =>
      let! iota := g_coords g p in
      let! weight := g_weight g p in
      let nn := calc_interp (p_kind (snd st)) iota in
      let! r := eval (with_interp (snd st) nn) iota in
      let! s := body p iota weight nn (fst r) (snd r) (fst st) in
      Ok (s, snd r))
    (seq 0 (npoint g)) (s0, p0).

Section Integ.
Variable zdet : R.

Definition eval_jac (p : pad) (iota : list R) : res (R * pad) := calc_jacobian zdet p iota.
Definition eval_grad (p : pad) (iota : list R) : res (R * mat * pad) :=
  let! r := calc_gradient zdet p iota in
  Ok (fst r, p_grad (snd r), snd r).
Definition eval_normal (p : pad) (iota : list R) : res (R * list R * pad) :=
  calc_normal_vector p (p_space p) iota.

(* the coefficient c, times the radius in axisymmetric problems *)
Definition coef (A : args) (c : R) (nn : list R) (p : pad) : R :=
  if a_axi A then c * radius (a_nnode A) nn p else c.

Definition vec_start (A : args) (a : list R) : list R := if a_clear A then vec_zero a else a.
Definition mat_start (A : args) (a : mat) : mat := if a_clear A then mat_zero a else a.

(* scalar_field.rs:31-54 *)
Definition scalar_field (p0 : pad) (g : gauss) (fn_s : nat -> res R) : res (R * pad) :=
  foldM (fun (st : R * pad) p =>
      let! iota := g_coords g p in
      let! weight := g_weight g p in
      let! r := eval_jac (snd st) iota in
      let! s := fn_s p in
      Ok (fst st + s * fst r * weight, snd r))
    (seq 0 (npoint g)) (0, p0).

(* vec_01_ns.rs:83-130 *)
Definition vec_01_ns (A : args) (a : list R) (fn_s : nat -> list R -> res R) : res (list R * pad) :=
  let nnode := a_nnode A in
  let ii0 := a_ii0 A in
  if (List.length a <? ii0 + nnode)%nat then Err "a.len() must be >= ii0 + nnode" else
  gauss_loop eval_jac (fun p iota weight nn det_jac pd a =>
      let! s := fn_s p nn in
      let coef := coef A (s * det_jac * weight * a_alpha A) nn pd in
      vec_adds a (map (fun m => ((ii0 + m)%nat, vat nn m * coef)) (seq 0 nnode)))
    (a_gauss A) (a_pad A) (vec_start A a).

(* the checks of the integrals over boundaries *)
Definition bry_check (A : args) : res unit :=
  if (a_space A =? 2)%nat && negb (p_geo (a_pad A) =? 1)%nat
  then Err "in 2D, geometry ndim must be equal to 1 (a line)" else
  if (a_space A =? 3)%nat && negb (p_geo (a_pad A) =? 2)%nat
  then Err "in 3D, geometry ndim must be equal to 2 (a surface)" else Ok tt.

(* vec_01_ns_bry.rs:54-111 *)
Definition vec_01_ns_bry (A : args) (a : list R) (fn_s : nat -> list R -> list R -> res R) : res (list R * pad) :=
  let nnode := a_nnode A in
  let ii0 := a_ii0 A in
  let! _ := bry_check A in
  if (List.length a <? ii0 + nnode)%nat then Err "a.len() must be >= ii0 + nnode" else
  gauss_loop eval_normal (fun p iota weight nn x pd a =>
      let '(mag_n, un) := x in
      let! s := fn_s p un nn in
      let coef := coef A (s * mag_n * weight * a_alpha A) nn pd in
      vec_adds a (map (fun m => ((ii0 + m)%nat, vat nn m * coef)) (seq 0 nnode)))
    (a_gauss A) (a_pad A) (vec_start A a).

(* vec_02_nv.rs:128-141 and vec_02_nv_bry.rs:112-125: the additions at one integration point *)
Definition nv_contrib (nd ii0 nnode : nat) (coef : R) (nn v : list R) : list (nat * R) :=
  if (nd =? 2)%nat then
    flat_map (fun m => [
        ((ii0 + 0 + m * 2)%nat, coef * vat nn m * vat v 0);
        ((ii0 + 1 + m * 2)%nat, coef * vat nn m * vat v 1)]) (seq 0 nnode)
  else
    flat_map (fun m => [
        ((ii0 + 0 + m * 3)%nat, coef * vat nn m * vat v 0);
        ((ii0 + 1 + m * 3)%nat, coef * vat nn m * vat v 1);
        ((ii0 + 2 + m * 3)%nat, coef * vat nn m * vat v 2)]) (seq 0 nnode).

(* vec_02_nv.rs:85-144 *)
Definition vec_02_nv (A : args) (b : list R) (fn_v : nat -> list R -> res (list R)) : res (list R * pad) :=
  let nnode := a_nnode A in
  let nd := a_space A in
  if (List.length b <? a_ii0 A + nnode * nd)%nat then Err "b.len() must be >= ii0 + nnode * space_ndim" else
  gauss_loop eval_jac (fun p iota weight nn det_jac pd b =>
      let! v := fn_v p nn in
      vec_adds b (nv_contrib nd (a_ii0 A) nnode (coef A (det_jac * weight * a_alpha A) nn pd) nn v))
    (a_gauss A) (a_pad A) (vec_start A b).

(* vec_02_nv_bry.rs:61-128 *)
Definition vec_02_nv_bry (A : args) (b : list R) (fn_v : nat -> list R -> list R -> res (list R)) : res (list R * pad) :=
  let nnode := a_nnode A in
  let nd := a_space A in
  let! _ := bry_check A in
  if (List.length b <? a_ii0 A + nnode * nd)%nat then Err "b.len() must be >= ii0 + nnode * space_ndim" else
  gauss_loop eval_normal (fun p iota weight nn x pd b =>
      let '(mag_n, un) := x in
      let! v := fn_v p un nn in
      vec_adds b (nv_contrib nd (a_ii0 A) nnode (coef A (mag_n * weight * a_alpha A) nn pd) nn v))
    (a_gauss A) (a_pad A) (vec_start A b).

(* vec_03_bv.rs:84-141 *)
Definition vec_03_bv (A : args) (c : list R) (fn_w : nat -> list R -> mat -> res (list R)) : res (list R * pad) :=
  let nnode := a_nnode A in
  let nd := a_space A in
  let ii0 := a_ii0 A in
  if (List.length c <? ii0 + nnode)%nat then Err "c.len() must be >= ii0 + nnode" else
  gauss_loop eval_grad (fun p iota weight nn x pd c =>
      let '(det_jac, bb) := x in
      let! w := fn_w p nn bb in
      let coef := coef A (det_jac * weight * a_alpha A) nn pd in
      vec_adds c (map (fun m => ((ii0 + m)%nat,
          if (nd =? 2)%nat then coef * (vat w 0 * ent bb m 0 + vat w 1 * ent bb m 1)
          else coef * (vat w 0 * ent bb m 0 + vat w 1 * ent bb m 1 + vat w 2 * ent bb m 2))) (seq 0 nnode)))
    (a_gauss A) (a_pad A) (vec_start A c).

(* vec_04_bt.rs:146-163 *)
Definition bt_contrib (nd ii0 nnode : nat) (c : R) (t : list R) (b : mat) : list (nat * R) :=
  let s := sqrt 2 in
  if (nd =? 2)%nat then
    flat_map (fun m => [
        ((ii0 + 0 + m * 2)%nat, c * (vat t 0 * ent b m 0 + vat t 3 * ent b m 1 / s));
        ((ii0 + 1 + m * 2)%nat, c * (vat t 3 * ent b m 0 / s + vat t 1 * ent b m 1))]) (seq 0 nnode)
  else
    flat_map (fun m => [
        ((ii0 + 0 + m * 3)%nat, c * (vat t 0 * ent b m 0 + vat t 3 * ent b m 1 / s + vat t 5 * ent b m 2 / s));
        ((ii0 + 1 + m * 3)%nat, c * (vat t 3 * ent b m 0 / s + vat t 1 * ent b m 1 + vat t 4 * ent b m 2 / s));
        ((ii0 + 2 + m * 3)%nat, c * (vat t 5 * ent b m 0 / s + vat t 4 * ent b m 1 / s + vat t 2 * ent b m 2))])
      (seq 0 nnode).

(* vec_04_bt.rs:167-177 *)
Definition bt_contrib_axi (ii0 nnode : nat) (c r : R) (t nn : list R) (b : mat) : list (nat * R) :=
  let s := sqrt 2 in
  flat_map (fun m => [
      ((ii0 + 0 + m * 2)%nat, c * r * (vat t 0 * ent b m 0 + vat t 3 * ent b m 1 / s) + c * vat nn m * vat t 2);
      ((ii0 + 1 + m * 2)%nat, c * r * (vat t 3 * ent b m 0 / s + vat t 1 * ent b m 1))]) (seq 0 nnode).

(* vec_04_bt.rs:93-142 *)
Definition vec_04_bt (A : args) (d : list R) (fn_sig : nat -> list R -> mat -> res (list R)) : res (list R * pad) :=
  let nnode := a_nnode A in
  let nd := a_space A in
  if (List.length d <? a_ii0 A + nnode * nd)%nat then Err "d.len() must be >= ii0 + nnode * space_ndim" else
  if a_axi A && negb (nd =? 2)%nat then Err "axisymmetric requires space_ndim = 2" else
  gauss_loop eval_grad (fun p iota weight nn x pd d =>
      let '(det_jac, bb) := x in
      let! t := fn_sig p nn bb in
      let c := det_jac * weight * a_alpha A in
      vec_adds d (if a_axi A then bt_contrib_axi (a_ii0 A) nnode c (radius nnode nn pd) t nn bb
                  else bt_contrib nd (a_ii0 A) nnode c t bb))
    (a_gauss A) (a_pad A) (vec_start A d).

(* the checks of the dimensions of K *)
Definition kk_check (A : args) (kk : mat) (nr nc : nat) : res unit :=
  if (nrow kk <? a_ii0 A + nr)%nat then Err "nrow(K) is too small" else
  if (ncol kk <? a_jj0 A + nc)%nat then Err "ncol(K) is too small" else Ok tt.

(* for m in 0..M { for n in 0..N { .. } } *)
Definition for_mn {E} (M N : nat) (f : nat -> nat -> list E) : list E :=
  flat_map (fun m => flat_map (f m) (seq 0 N)) (seq 0 M).

(* mat_01_nsn.rs:48-102 *)
Definition mat_01_nsn (A : args) (kk : mat) (fn_s : nat -> list R -> mat -> res R) : res (mat * pad) :=
  let nnode := a_nnode A in
  let ii0 := a_ii0 A in
  let jj0 := a_jj0 A in
  let! _ := kk_check A kk nnode nnode in
  gauss_loop eval_grad (fun p iota weight nn x pd kk =>
      let '(det_jac, bb) := x in
      let! s := fn_s p nn bb in
      let c := coef A (s * det_jac * weight * a_alpha A) nn pd in
      mat_adds kk (for_mn nnode nnode (fun m n => [((ii0 + m, jj0 + n)%nat, vat nn m * c * vat nn n)])))
    (a_gauss A) (a_pad A) (mat_start A kk).

(* mat_01_nsn_bry.rs:48-111; an Err of calc_normal_vector is unwrapped *)
Definition mat_01_nsn_bry (A : args) (kk : mat) (fn_s : nat -> list R -> list R -> res R) : res (mat * pad) :=
  let nnode := a_nnode A in
  let ii0 := a_ii0 A in
  let jj0 := a_jj0 A in
  let! _ := bry_check A in
  let! _ := kk_check A kk nnode nnode in
  gauss_loop (fun p iota => match eval_normal p iota with Ok x => Ok x | _ => Panic end)
    (fun p iota weight nn x pd kk =>
      let '(mag_n, un) := x in
      let! s := fn_s p un nn in
      let c := coef A (s * mag_n * weight * a_alpha A) nn pd in
      mat_adds kk (for_mn nnode nnode (fun m n => [((ii0 + m, jj0 + n)%nat, vat nn m * c * vat nn n)])))
    (a_gauss A) (a_pad A) (mat_start A kk).

(* mat_02_bvn.rs:48-121 *)
Definition mat_02_bvn (A : args) (kk : mat) (fn_v : nat -> list R -> mat -> res (list R)) : res (mat * pad) :=
  let nnode := a_nnode A in
  let ii0 := a_ii0 A in
  let jj0 := a_jj0 A in
  let! _ := kk_check A kk nnode nnode in
  gauss_loop eval_grad (fun p iota weight nn x pd kk =>
      let '(det_jac, bb) := x in
      let! v := fn_v p nn bb in
      let c := coef A (det_jac * weight * a_alpha A) nn pd in
      mat_adds kk
        (if (a_space A =? 2)%nat then
           for_mn nnode nnode (fun m n => [
             ((ii0 + m, jj0 + n)%nat, c * (ent bb m 0 * vat v 0 + ent bb m 1 * vat v 1) * vat nn n)])
         else
           for_mn nnode nnode (fun m n => [
             ((ii0 + m, jj0 + n)%nat,
               c * (ent bb m 0 * vat v 0 + ent bb m 1 * vat v 1 + ent bb m 2 * vat v 2) * vat nn n)])))
    (a_gauss A) (a_pad A) (mat_start A kk).

(* mat_03_btb.rs:50-131 *)
Definition mat_03_btb (A : args) (kk : mat) (fn_tt : nat -> list R -> mat -> res (list R)) : res (mat * pad) :=
  let nnode := a_nnode A in
  let ii0 := a_ii0 A in
  let jj0 := a_jj0 A in
  let! _ := kk_check A kk nnode nnode in
  let s := sqrt 2 in
  gauss_loop eval_grad (fun p iota weight nn x pd kk =>
      let '(det_jac, bb) := x in
      let! t := fn_tt p nn bb in
      let c := coef A (det_jac * weight * a_alpha A) nn pd in
      mat_adds kk
        (if (a_space A =? 2)%nat then
           for_mn nnode nnode (fun m n => [
             ((ii0 + m, jj0 + n)%nat,
               c * (ent bb n 1 * (vat t 1 * ent bb m 1 + (vat t 3 * ent bb m 0) / s)
                  + ent bb n 0 * (vat t 0 * ent bb m 0 + (vat t 3 * ent bb m 1) / s)))])
         else
           for_mn nnode nnode (fun m n => [
             ((ii0 + m, jj0 + n)%nat,
               c * (ent bb n 2 * (vat t 2 * ent bb m 2 + (vat t 5 * ent bb m 0) / s + (vat t 4 * ent bb m 1) / s)
                  + ent bb n 1 * (vat t 1 * ent bb m 1 + (vat t 3 * ent bb m 0) / s + (vat t 4 * ent bb m 2) / s)
                  + ent bb n 0 * (vat t 0 * ent bb m 0 + (vat t 3 * ent bb m 1) / s + (vat t 5 * ent bb m 2) / s)))])))
    (a_gauss A) (a_pad A) (mat_start A kk).

(* Functions with a second pad.  Only its interpolation functions or its gradient are used; what it
   contains afterwards is not modelled. *)
(* mat_04_nsb.rs:66-139 *)
Definition mat_04_nsb (A : args) (kk : mat) (pad_b : pad) (fn_s : nat -> list R -> list R -> mat -> res R) : res (mat * pad) :=
  let nnode_b := kind_nnode (p_kind pad_b) in
  let nnode := a_nnode A in
  let nd := a_space A in
  let ii0 := a_ii0 A in
  let jj0 := a_jj0 A in
  let! _ := kk_check A kk nnode_b (nnode * nd) in
  gauss_loop eval_grad (fun p iota weight nn x pd kk =>
      let '(det_jac, bb) := x in
      let nnb := calc_interp (p_kind pad_b) iota in
      let! s := fn_s p nnb nn bb in
      let c := coef A (s * det_jac * weight * a_alpha A) nn pd in
      mat_adds kk
        (if (nd =? 2)%nat then
           for_mn nnode_b nnode (fun m n => [
             ((ii0 + m, jj0 + 0 + n * 2)%nat, vat nnb m * c * ent bb n 0);
             ((ii0 + m, jj0 + 1 + n * 2)%nat, vat nnb m * c * ent bb n 1)])
         else
           for_mn nnode_b nnode (fun m n => [
             ((ii0 + m, jj0 + 0 + n * 3)%nat, vat nnb m * c * ent bb n 0);
             ((ii0 + m, jj0 + 1 + n * 3)%nat, vat nnb m * c * ent bb n 1);
             ((ii0 + m, jj0 + 2 + n * 3)%nat, vat nnb m * c * ent bb n 2)])))
    (a_gauss A) (a_pad A) (mat_start A kk).

(* mat_05_btn.rs:68-166 *)
Definition mat_05_btn (A : args) (kk : mat) (pad_b : pad) (fn_tt : nat -> mat -> list R -> mat -> res (list R)) : res (mat * pad) :=
  let nnode_b := kind_nnode (p_kind pad_b) in
  let nnode := a_nnode A in
  let nd := a_space A in
  let ii0 := a_ii0 A in
  let jj0 := a_jj0 A in
  let! _ := kk_check A kk nnode_b (nnode * nd) in
  let s := sqrt 2 in
  gauss_loop (fun pd iota =>
        let! rb := eval_grad pad_b iota in
        let! r := eval_grad pd iota in
        Ok (fst r, snd (fst rb), snd r))
    (fun p iota weight nn x pd kk =>
      let '(det_jac, bb, ggb) := x in
      let! t := fn_tt p ggb nn bb in
      let c := coef A (det_jac * weight * a_alpha A) nn pd in
      mat_adds kk
        (if (nd =? 2)%nat then
           for_mn nnode_b nnode (fun m n => [
             ((ii0 + m, jj0 + 0 + n * 2)%nat, c * (ent ggb m 0 * vat t 0 + ent ggb m 1 * vat t 3 / s) * vat nn n);
             ((ii0 + m, jj0 + 1 + n * 2)%nat, c * (ent ggb m 0 * vat t 3 / s + ent ggb m 1 * vat t 1) * vat nn n)])
         else
           for_mn nnode_b nnode (fun m n => [
             ((ii0 + m, jj0 + 0 + n * 3)%nat,
               c * (ent ggb m 0 * vat t 0 + ent ggb m 1 * vat t 3 / s + ent ggb m 2 * vat t 5 / s) * vat nn n);
             ((ii0 + m, jj0 + 1 + n * 3)%nat,
               c * (ent ggb m 0 * vat t 3 / s + ent ggb m 1 * vat t 1 + ent ggb m 2 * vat t 4 / s) * vat nn n);
             ((ii0 + m, jj0 + 2 + n * 3)%nat,
               c * (ent ggb m 0 * vat t 5 / s + ent ggb m 1 * vat t 4 / s + ent ggb m 2 * vat t 2) * vat nn n)])))
    (a_gauss A) (a_pad A) (mat_start A kk).

(* mat_06_nvn.rs:69-145 *)
Definition mat_06_nvn (A : args) (kk : mat) (pad_b : pad) (fn_v : nat -> list R -> mat -> list R -> res (list R)) : res (mat * pad) :=
  let nnode_b := kind_nnode (p_kind pad_b) in
  let nnode := a_nnode A in
  let nd := a_space A in
  let ii0 := a_ii0 A in
  let jj0 := a_jj0 A in
  let! _ := kk_check A kk (nnode * nd) nnode_b in
  gauss_loop eval_grad (fun p iota weight nn x pd kk =>
      let '(det_jac, bb) := x in
      let nnb := calc_interp (p_kind pad_b) iota in
      let! v := fn_v p nn bb nnb in
      let c := coef A (det_jac * weight * a_alpha A) nn pd in
      mat_adds kk
        (if (nd =? 2)%nat then
           for_mn nnode nnode_b (fun m n => [
             ((ii0 + 0 + m * 2, jj0 + n)%nat, c * vat nn m * vat v 0 * vat nnb n);
             ((ii0 + 1 + m * 2, jj0 + n)%nat, c * vat nn m * vat v 1 * vat nnb n)])
         else
           for_mn nnode nnode_b (fun m n => [
             ((ii0 + 0 + m * 3, jj0 + n)%nat, c * vat nn m * vat v 0 * vat nnb n);
             ((ii0 + 1 + m * 3, jj0 + n)%nat, c * vat nn m * vat v 1 * vat nnb n);
             ((ii0 + 2 + m * 3, jj0 + n)%nat, c * vat nn m * vat v 2 * vat nnb n)])))
    (a_gauss A) (a_pad A) (mat_start A kk).

(* mat_07_bsn.rs:69-142 *)
Definition mat_07_bsn (A : args) (kk : mat) (pad_b : pad) (fn_s : nat -> list R -> mat -> list R -> res R) : res (mat * pad) :=
  let nnode_b := kind_nnode (p_kind pad_b) in
  let nnode := a_nnode A in
  let nd := a_space A in
  let ii0 := a_ii0 A in
  let jj0 := a_jj0 A in
  let! _ := kk_check A kk (nnode * nd) nnode_b in
  gauss_loop eval_grad (fun p iota weight nn x pd kk =>
      let '(det_jac, bb) := x in
      let nnb := calc_interp (p_kind pad_b) iota in
      let! s := fn_s p nn bb nnb in
      let c := coef A (s * det_jac * weight * a_alpha A) nn pd in
      mat_adds kk
        (if (nd =? 2)%nat then
           for_mn nnode nnode_b (fun m n => [
             ((ii0 + 0 + m * 2, jj0 + n)%nat, ent bb m 0 * c * vat nnb n);
             ((ii0 + 1 + m * 2, jj0 + n)%nat, ent bb m 1 * c * vat nnb n)])
         else
           for_mn nnode nnode_b (fun m n => [
             ((ii0 + 0 + m * 3, jj0 + n)%nat, ent bb m 0 * c * vat nnb n);
             ((ii0 + 1 + m * 3, jj0 + n)%nat, ent bb m 1 * c * vat nnb n);
             ((ii0 + 2 + m * 3, jj0 + n)%nat, ent bb m 2 * c * vat nnb n)])))
    (a_gauss A) (a_pad A) (mat_start A kk).

(* mat_08_ntn.rs:56-137 *)
Definition mat_08_ntn (A : args) (kk : mat) (fn_tt : nat -> list R -> mat -> res (list R)) : res (mat * pad) :=
  let nnode := a_nnode A in
  let nd := a_space A in
  let ii0 := a_ii0 A in
  let jj0 := a_jj0 A in
  let! _ := kk_check A kk (nnode * nd) (nnode * nd) in
  let s := sqrt 2 in
  gauss_loop eval_grad (fun p iota weight nn x pd kk =>
      let '(det_jac, bb) := x in
      let! t := fn_tt p nn bb in
      let c := coef A (det_jac * weight * a_alpha A) nn pd in
      mat_adds kk
        (if (nd =? 2)%nat then
           for_mn nnode nnode (fun m n => [
             ((ii0 + 0 + m * 2, jj0 + 0 + n * 2)%nat, c * vat nn m * vat t 0 * vat nn n);
             ((ii0 + 0 + m * 2, jj0 + 1 + n * 2)%nat, c * vat nn m * vat t 3 * vat nn n / s);
             ((ii0 + 1 + m * 2, jj0 + 0 + n * 2)%nat, c * vat nn m * vat t 3 * vat nn n / s);
             ((ii0 + 1 + m * 2, jj0 + 1 + n * 2)%nat, c * vat nn m * vat t 1 * vat nn n)])
         else
           for_mn nnode nnode (fun m n => [
             ((ii0 + 0 + m * 3, jj0 + 0 + n * 3)%nat, c * vat nn m * vat t 0 * vat nn n);
             ((ii0 + 0 + m * 3, jj0 + 1 + n * 3)%nat, c * vat nn m * vat t 3 * vat nn n / s);
             ((ii0 + 0 + m * 3, jj0 + 2 + n * 3)%nat, c * vat nn m * vat t 5 * vat nn n / s);
             ((ii0 + 1 + m * 3, jj0 + 0 + n * 3)%nat, c * vat nn m * vat t 3 * vat nn n / s);
             ((ii0 + 1 + m * 3, jj0 + 1 + n * 3)%nat, c * vat nn m * vat t 1 * vat nn n);
             ((ii0 + 1 + m * 3, jj0 + 2 + n * 3)%nat, c * vat nn m * vat t 4 * vat nn n / s);
             ((ii0 + 2 + m * 3, jj0 + 0 + n * 3)%nat, c * vat nn m * vat t 5 * vat nn n / s);
             ((ii0 + 2 + m * 3, jj0 + 1 + n * 3)%nat, c * vat nn m * vat t 4 * vat nn n / s);
             ((ii0 + 2 + m * 3, jj0 + 2 + n * 3)%nat, c * vat nn m * vat t 2 * vat nn n)])))
    (a_gauss A) (a_pad A) (mat_start A kk).

(* mat_09_nvb.rs:54-133 *)
Definition mat_09_nvb (A : args) (kk : mat) (fn_v : nat -> list R -> mat -> res (list R)) : res (mat * pad) :=
  let nnode := a_nnode A in
  let nd := a_space A in
  let ii0 := a_ii0 A in
  let jj0 := a_jj0 A in
  let! _ := kk_check A kk (nnode * nd) (nnode * nd) in
  gauss_loop eval_grad (fun p iota weight nn x pd kk =>
      let '(det_jac, bb) := x in
      let! v := fn_v p nn bb in
      let c := coef A (det_jac * weight * a_alpha A) nn pd in
      mat_adds kk
        (if (nd =? 2)%nat then
           for_mn nnode nnode (fun m n => [
             ((ii0 + 0 + m * 2, jj0 + 0 + n * 2)%nat, c * vat nn m * vat v 0 * ent bb n 0);
             ((ii0 + 0 + m * 2, jj0 + 1 + n * 2)%nat, c * vat nn m * vat v 0 * ent bb n 1);
             ((ii0 + 1 + m * 2, jj0 + 0 + n * 2)%nat, c * vat nn m * vat v 1 * ent bb n 0);
             ((ii0 + 1 + m * 2, jj0 + 1 + n * 2)%nat, c * vat nn m * vat v 1 * ent bb n 1)])
         else
           for_mn nnode nnode (fun m n => [
             ((ii0 + 0 + m * 3, jj0 + 0 + n * 3)%nat, c * vat nn m * vat v 0 * ent bb n 0);
             ((ii0 + 0 + m * 3, jj0 + 1 + n * 3)%nat, c * vat nn m * vat v 0 * ent bb n 1);
             ((ii0 + 0 + m * 3, jj0 + 2 + n * 3)%nat, c * vat nn m * vat v 0 * ent bb n 2);
             ((ii0 + 1 + m * 3, jj0 + 0 + n * 3)%nat, c * vat nn m * vat v 1 * ent bb n 0);
             ((ii0 + 1 + m * 3, jj0 + 1 + n * 3)%nat, c * vat nn m * vat v 1 * ent bb n 1);
             ((ii0 + 1 + m * 3, jj0 + 2 + n * 3)%nat, c * vat nn m * vat v 1 * ent bb n 2);
             ((ii0 + 2 + m * 3, jj0 + 0 + n * 3)%nat, c * vat nn m * vat v 2 * ent bb n 0);
             ((ii0 + 2 + m * 3, jj0 + 1 + n * 3)%nat, c * vat nn m * vat v 2 * ent bb n 1);
             ((ii0 + 2 + m * 3, jj0 + 2 + n * 3)%nat, c * vat nn m * vat v 2 * ent bb n 2)])))
    (a_gauss A) (a_pad A) (mat_start A kk).

(* mat_10_bdb.rs:179-208 *)
Definition bdb_contrib (nd ii0 jj0 nnode : nat) (c : R) (d b : mat) : list (nat * nat * R) :=
  let s := sqrt 2 in
  if (nd =? 2)%nat then
    for_mn nnode nnode (fun m n => [
        ((ii0 + 0 + m * 2, jj0 + 0 + n * 2)%nat,
          c * (ent b m 1 * ent b n 1 * ent d 3 3 + s * ent b m 1 * ent b n 0 * ent d 3 0 + s * ent b m 0 * ent b n 1 * ent d 0 3 + 2 * ent b m 0 * ent b n 0 * ent d 0 0) / 2);
        ((ii0 + 0 + m * 2, jj0 + 1 + n * 2)%nat,
          c * (ent b m 1 * ent b n 0 * ent d 3 3 + s * ent b m 1 * ent b n 1 * ent d 3 1 + s * ent b m 0 * ent b n 0 * ent d 0 3 + 2 * ent b m 0 * ent b n 1 * ent d 0 1) / 2);
        ((ii0 + 1 + m * 2, jj0 + 0 + n * 2)%nat,
          c * (ent b m 0 * ent b n 1 * ent d 3 3 + s * ent b m 0 * ent b n 0 * ent d 3 0 + s * ent b m 1 * ent b n 1 * ent d 1 3 + 2 * ent b m 1 * ent b n 0 * ent d 1 0) / 2);
        ((ii0 + 1 + m * 2, jj0 + 1 + n * 2)%nat,
          c * (ent b m 0 * ent b n 0 * ent d 3 3 + s * ent b m 0 * ent b n 1 * ent d 3 1 + s * ent b m 1 * ent b n 0 * ent d 1 3 + 2 * ent b m 1 * ent b n 1 * ent d 1 1) / 2)])
  else
    for_mn nnode nnode (fun m n => [
        ((ii0 + 0 + m * 3, jj0 + 0 + n * 3)%nat,
          c * (ent b m 2 * ent b n 2 * ent d 5 5 + ent b m 2 * ent b n 1 * ent d 5 3 + s * ent b m 2 * ent b n 0 * ent d 5 0 + ent b m 1 * ent b n 2 * ent d 3 5 + ent b m 1 * ent b n 1 * ent d 3 3 + s * ent b m 1 * ent b n 0 * ent d 3 0 + s * ent b m 0 * ent b n 2 * ent d 0 5 + s * ent b m 0 * ent b n 1 * ent d 0 3 + 2 * ent b m 0 * ent b n 0 * ent d 0 0) / 2);
        ((ii0 + 0 + m * 3, jj0 + 1 + n * 3)%nat,
          c * (ent b m 2 * ent b n 2 * ent d 5 4 + ent b m 2 * ent b n 0 * ent d 5 3 + s * ent b m 2 * ent b n 1 * ent d 5 1 + ent b m 1 * ent b n 2 * ent d 3 4 + ent b m 1 * ent b n 0 * ent d 3 3 + s * ent b m 1 * ent b n 1 * ent d 3 1 + s * ent b m 0 * ent b n 2 * ent d 0 4 + s * ent b m 0 * ent b n 0 * ent d 0 3 + 2 * ent b m 0 * ent b n 1 * ent d 0 1) / 2);
        ((ii0 + 0 + m * 3, jj0 + 2 + n * 3)%nat,
          c * (ent b m 2 * ent b n 0 * ent d 5 5 + ent b m 2 * ent b n 1 * ent d 5 4 + s * ent b m 2 * ent b n 2 * ent d 5 2 + ent b m 1 * ent b n 0 * ent d 3 5 + ent b m 1 * ent b n 1 * ent d 3 4 + s * ent b m 1 * ent b n 2 * ent d 3 2 + s * ent b m 0 * ent b n 0 * ent d 0 5 + s * ent b m 0 * ent b n 1 * ent d 0 4 + 2 * ent b m 0 * ent b n 2 * ent d 0 2) / 2);
        ((ii0 + 1 + m * 3, jj0 + 0 + n * 3)%nat,
          c * (ent b m 2 * ent b n 2 * ent d 4 5 + ent b m 2 * ent b n 1 * ent d 4 3 + s * ent b m 2 * ent b n 0 * ent d 4 0 + ent b m 0 * ent b n 2 * ent d 3 5 + ent b m 0 * ent b n 1 * ent d 3 3 + s * ent b m 0 * ent b n 0 * ent d 3 0 + s * ent b m 1 * ent b n 2 * ent d 1 5 + s * ent b m 1 * ent b n 1 * ent d 1 3 + 2 * ent b m 1 * ent b n 0 * ent d 1 0) / 2);
        ((ii0 + 1 + m * 3, jj0 + 1 + n * 3)%nat,
          c * (ent b m 2 * ent b n 2 * ent d 4 4 + ent b m 2 * ent b n 0 * ent d 4 3 + s * ent b m 2 * ent b n 1 * ent d 4 1 + ent b m 0 * ent b n 2 * ent d 3 4 + ent b m 0 * ent b n 0 * ent d 3 3 + s * ent b m 0 * ent b n 1 * ent d 3 1 + s * ent b m 1 * ent b n 2 * ent d 1 4 + s * ent b m 1 * ent b n 0 * ent d 1 3 + 2 * ent b m 1 * ent b n 1 * ent d 1 1) / 2);
        ((ii0 + 1 + m * 3, jj0 + 2 + n * 3)%nat,
          c * (ent b m 2 * ent b n 0 * ent d 4 5 + ent b m 2 * ent b n 1 * ent d 4 4 + s * ent b m 2 * ent b n 2 * ent d 4 2 + ent b m 0 * ent b n 0 * ent d 3 5 + ent b m 0 * ent b n 1 * ent d 3 4 + s * ent b m 0 * ent b n 2 * ent d 3 2 + s * ent b m 1 * ent b n 0 * ent d 1 5 + s * ent b m 1 * ent b n 1 * ent d 1 4 + 2 * ent b m 1 * ent b n 2 * ent d 1 2) / 2);
        ((ii0 + 2 + m * 3, jj0 + 0 + n * 3)%nat,
          c * (ent b m 0 * ent b n 2 * ent d 5 5 + ent b m 0 * ent b n 1 * ent d 5 3 + s * ent b m 0 * ent b n 0 * ent d 5 0 + ent b m 1 * ent b n 2 * ent d 4 5 + ent b m 1 * ent b n 1 * ent d 4 3 + s * ent b m 1 * ent b n 0 * ent d 4 0 + s * ent b m 2 * ent b n 2 * ent d 2 5 + s * ent b m 2 * ent b n 1 * ent d 2 3 + 2 * ent b m 2 * ent b n 0 * ent d 2 0) / 2);
        ((ii0 + 2 + m * 3, jj0 + 1 + n * 3)%nat,
          c * (ent b m 0 * ent b n 2 * ent d 5 4 + ent b m 0 * ent b n 0 * ent d 5 3 + s * ent b m 0 * ent b n 1 * ent d 5 1 + ent b m 1 * ent b n 2 * ent d 4 4 + ent b m 1 * ent b n 0 * ent d 4 3 + s * ent b m 1 * ent b n 1 * ent d 4 1 + s * ent b m 2 * ent b n 2 * ent d 2 4 + s * ent b m 2 * ent b n 0 * ent d 2 3 + 2 * ent b m 2 * ent b n 1 * ent d 2 1) / 2);
        ((ii0 + 2 + m * 3, jj0 + 2 + n * 3)%nat,
          c * (ent b m 0 * ent b n 0 * ent d 5 5 + ent b m 0 * ent b n 1 * ent d 5 4 + s * ent b m 0 * ent b n 2 * ent d 5 2 + ent b m 1 * ent b n 0 * ent d 4 5 + ent b m 1 * ent b n 1 * ent d 4 4 + s * ent b m 1 * ent b n 2 * ent d 4 2 + s * ent b m 2 * ent b n 0 * ent d 2 5 + s * ent b m 2 * ent b n 1 * ent d 2 4 + 2 * ent b m 2 * ent b n 2 * ent d 2 2) / 2)]).

(* mat_10_bdb.rs:213-233 *)
Definition bdb_contrib_axi (ii0 jj0 nnode : nat) (c r : R) (d : mat) (nn : list R) (b : mat) : list (nat * nat * R) :=
  let s := sqrt 2 in
  for_mn nnode nnode (fun m n => [
        ((ii0 + 0 + m * 2, jj0 + 0 + n * 2)%nat,
          c * r * (ent b m 1 * ent b n 1 * ent d 3 3 + s * ent b m 1 * ent b n 0 * ent d 3 0 + s * ent b m 0 * ent b n 1 * ent d 0 3 + 2 * ent b m 0 * ent b n 0 * ent d 0 0) / 2 + c * (r * vat nn n * (2 * ent d 0 2 * ent b m 0 + s * ent d 3 2 * ent b m 1) + vat nn m * (2 * vat nn n * ent d 2 2 + 2 * r * ent d 2 0 * ent b n 0 + s * r * ent d 2 3 * ent b n 1)) / (2 * r));
        ((ii0 + 0 + m * 2, jj0 + 1 + n * 2)%nat,
          c * r * (ent b m 1 * ent b n 0 * ent d 3 3 + s * ent b m 1 * ent b n 1 * ent d 3 1 + s * ent b m 0 * ent b n 0 * ent d 0 3 + 2 * ent b m 0 * ent b n 1 * ent d 0 1) / 2 + c * (vat nn m * (s * ent d 2 3 * ent b n 0 + 2 * ent d 2 1 * ent b n 1)) / 2);
        ((ii0 + 1 + m * 2, jj0 + 0 + n * 2)%nat,
          c * r * (ent b m 0 * ent b n 1 * ent d 3 3 + s * ent b m 0 * ent b n 0 * ent d 3 0 + s * ent b m 1 * ent b n 1 * ent d 1 3 + 2 * ent b m 1 * ent b n 0 * ent d 1 0) / 2 + c * (vat nn n * (s * ent d 3 2 * ent b m 0 + 2 * ent d 1 2 * ent b m 1)) / 2);
        ((ii0 + 1 + m * 2, jj0 + 1 + n * 2)%nat,
          c * r * (ent b m 0 * ent b n 0 * ent d 3 3 + s * ent b m 0 * ent b n 1 * ent d 3 1 + s * ent b m 1 * ent b n 0 * ent d 1 3 + 2 * ent b m 1 * ent b n 1 * ent d 1 1) / 2)]).

Definition bdb_check (A : args) (kk : mat) : res unit :=
  let! _ := kk_check A kk (a_nnode A * a_space A) (a_nnode A * a_space A) in
  if a_axi A && negb (a_space A =? 2)%nat then Err "axisymmetric requires space_ndim = 2" else Ok tt.

(* mat_10_bdb.rs:121-174 *)
Definition mat_10_bdb (A : args) (kk : mat) (fn_dd : nat -> list R -> mat -> res mat) : res (mat * pad) :=
  let nnode := a_nnode A in
  let! _ := bdb_check A kk in
  gauss_loop eval_grad (fun p iota weight nn x pd kk =>
      let '(det_jac, bb) := x in
      let! dd := fn_dd p nn bb in
      let c := det_jac * weight * a_alpha A in
      mat_adds kk (if a_axi A then bdb_contrib_axi (a_ii0 A) (a_jj0 A) nnode c (radius nnode nn pd) dd nn bb
                   else bdb_contrib (a_space A) (a_ii0 A) (a_jj0 A) nnode c dd bb))
    (a_gauss A) (a_pad A) (mat_start A kk).

(* mat_10_bdb.rs:238-278: the values set in the B matrix, and the radius *)
Definition bb_sets (nd nnode : nat) (axi : bool) (r : R) (nn : list R) (bb : mat) : list (nat * nat * R) :=
  let s := sqrt 2 in
  if (nd =? 3)%nat then
    flat_map (fun i => [
      ((0, 0 + i * 3)%nat, ent bb i 0); ((1, 1 + i * 3)%nat, ent bb i 1); ((2, 2 + i * 3)%nat, ent bb i 2);
      ((3, 0 + i * 3)%nat, ent bb i 1 / s); ((4, 1 + i * 3)%nat, ent bb i 2 / s); ((5, 2 + i * 3)%nat, ent bb i 0 / s);
      ((3, 1 + i * 3)%nat, ent bb i 0 / s); ((4, 2 + i * 3)%nat, ent bb i 1 / s); ((5, 0 + i * 3)%nat, ent bb i 2 / s)])
      (seq 0 nnode)
  else if axi then
    flat_map (fun i => [
      ((0, 0 + i * 2)%nat, ent bb i 0); ((1, 1 + i * 2)%nat, ent bb i 1); ((2, 0 + i * 2)%nat, vat nn i / r);
      ((3, 0 + i * 2)%nat, ent bb i 1 / s); ((3, 1 + i * 2)%nat, ent bb i 0 / s)]) (seq 0 nnode)
  else
    flat_map (fun i => [
      ((0, 0 + i * 2)%nat, ent bb i 0); ((1, 1 + i * 2)%nat, ent bb i 1);
      ((3, 0 + i * 2)%nat, ent bb i 1 / s); ((3, 1 + i * 2)%nat, ent bb i 0 / s)]) (seq 0 nnode).
Definition bb_radius (nd nnode : nat) (axi : bool) (nn : list R) (pd : pad) : R :=
  if (nd =? 3)%nat then 1 else if axi then radius nnode nn pd else 1.
Definition calc_bb_matrix (bb_mat : mat) (nd nnode : nat) (axi : bool) (nn : list R) (bb : mat) (pd : pad) : res (R * mat) :=
  let r := bb_radius nd nnode axi nn pd in
  let! m := mat_sets bb_mat (bb_sets nd nnode axi r nn bb) in
  Ok (r, m).

(* mat_10_bdb.rs:288-301 *)
Definition add_to_stiff_mat (kk : mat) (alpha : R) (bb dd : mat) : res mat :=
  let m := nrow bb in
  let n := ncol bb in
  if negb ((nrow dd =? m)%nat && (ncol dd =? m)%nat) then Panic else
  if negb ((nrow kk =? n)%nat && (ncol kk =? n)%nat) then Panic else
  mat_adds kk (for_mn n n (fun i j => for_mn m m (fun k l => [((i, j), alpha * ent bb k i * ent dd k l * ent bb l j)]))).

(* mat_10_bdb.rs:304-354 *)
Definition mat_10_bdb_alt (A : args) (kk : mat) (fn_dd : nat -> list R -> mat -> res mat) : res (mat * pad) :=
  let nnode := a_nnode A in
  let nd := a_space A in
  let! _ := bdb_check A kk in
  let! r := gauss_loop eval_grad (fun p iota weight nn x pd (st : mat * mat) =>
      let '(det_jac, bb) := x in
      let! dd := fn_dd p nn bb in
      let! rb := calc_bb_matrix (snd st) nd nnode (a_axi A) nn bb pd in
      let coef := det_jac * weight * a_alpha A * fst rb in
      let! kk := add_to_stiff_mat (fst st) coef (snd rb) dd in
      Ok (kk, snd rb))
    (a_gauss A) (a_pad A) (mat_start A kk, zeros (2 * nd) (nnode * nd)) in
  Ok (fst (fst r), snd r).
End Integ.
