(* C16, C17, C18: the text format of meshes. *)
From Coq Require Import String Ascii List Arith NArith ZArith Bool Relations Lia.
From Verif Require Import Base Kind MeshModel TextModel TextSpec TextProof TextProof2 TextProof3 TextProof4.
Import ListNotations.
Open Scope N_scope.

(* the examples use integers in the place of floats *)
Definition zread := @from_text Z 0%Z parse_i32.
Definition zshow := @to_text Z fmt_i32.
Definition t_lines (ls : list string) : text := flat_map (fun l => txt l ++ [10]) ls.

(** C16: printing a mesh and reading the text gives the mesh back *)
Theorem C16_round_trip : forall T (zero : T) fmt_f parse_f (m : mesh T), printable fmt_f parse_f m ->
  exists t, to_text fmt_f m = Ok t /\ from_text zero parse_f t = Ok m.
Proof. exact (fun T zero f p m H => round_trip zero f p m H). Qed.
Print Assumptions C16_round_trip.
Theorem C16_file : forall T (zero : T) fmt_f parse_f (m : mesh T), printable fmt_f parse_f m ->
  exists t, write_file fmt_f m = Ok t /\ read_file zero parse_f t = Ok m.
Proof. exact (fun T zero f p m H => file_round_trip zero f p m H). Qed.
Print Assumptions C16_file.
(* every mesh read from a text can be printed and read again *)
Theorem C16_reprint : forall T (zero : T) fmt_f parse_f t (m : mesh T), from_text zero parse_f t = Ok m ->
  (ndim m = 2 \/ ndim m = 3)%nat -> points m <> [] -> cells m <> [] ->
  (forall p x, In p (points m) -> In x (pt_coords p) -> parse_f (fmt_f x) = Some x /\ is_word (fmt_f x)) ->
  exists t', to_text fmt_f m = Ok t' /\ from_text zero parse_f t' = Ok m.
Proof. intros T zero f p t m H D P C X. exact (round_trip zero f p m (parsed_printable zero p f t m H D P C X)). Qed.
Print Assumptions C16_reprint.
Definition m_ex : mesh Z :=
  mkMesh 3 [mkPoint 0 (-7)%Z [0%Z; 0%Z; 0%Z]; mkPoint 1 0%Z [10%Z; 0%Z; 0%Z]; mkPoint 2 3%Z [0%Z; 10%Z; 0%Z]; mkPoint 3 0%Z [0%Z; 0%Z; (-12)%Z]]
    [mkCell 0 1%Z Tet4 [0; 1; 2; 3]%nat; mkCell 1 2%Z Lin2 [0; 1]%nat] [((-5)%Z, 0, 1)%nat] [((-9)%Z, 0, 1, 2, None)%nat; (4%Z, 0, 1, 2, Some 3)%nat].
Example C16_ex : printable fmt_i32 parse_i32 m_ex.
Proof.
  constructor.
  - right; reflexivity.
  - discriminate.
  - discriminate.
  - repeat (constructor; [reflexivity|]). constructor.
  - intros i p H. do 4 (destruct i as [|i]; [injection H as <-; split; [reflexivity|]; split; [split; [intros K; discriminate K|reflexivity]|]; split; [reflexivity|];
      repeat (constructor; [split; [reflexivity|apply fmt_i32_word]|]); constructor|]). destruct i; discriminate.
  - intros i c H. do 2 (destruct i as [|i]; [injection H as <-; split; [reflexivity|]; split; [split; [intros K; discriminate K|reflexivity]|]; split; [reflexivity|];
      repeat (constructor; [reflexivity|]); constructor|]). destruct i; discriminate.
  - intros mk p q [H|[]]. injection H as <- <- <-. split; [split; [intros K; discriminate K|reflexivity]|split; reflexivity].
  - intros mk p q r o [H|[H|[]]]; injection H as <- <- <- <- <-; (split; [split; [intros K; discriminate K|reflexivity]|]);
      (split; [reflexivity|]); (split; [reflexivity|]); (split; [reflexivity|]); intros s K; [discriminate|injection K as <-; reflexivity].
Qed.
Example C16_ex2 : zshow m_ex = Ok (t_lines ["# header"; "# ndim npoint ncell nmarked_edge nmarked_face"; "3 4 2 1 2"; ""; "# points"; "# id marker x y {z}";
  "0 -7 0 0 0"; "1 0 10 0 0"; "2 3 0 10 0"; "3 0 0 0 -12"; ""; "# cells"; "# id marker kind points"; "0 1 tet4 0 1 2 3"; "1 2 lin2 0 1"; "";
  "# marked edges"; "# marker p1 p2"; "-5 0 1"; ""; "# marked faces"; "# marker p1 p2 p3 {p4}"; "-9 0 1 2"; "4 0 1 2 3"]%string).
Proof. vm_compute. reflexivity. Qed.
(* a mesh without cells but with a marked edge is printed but cannot be read back *)
Theorem C16_no_cells_refuted : exists m t e, ndim m = 2%nat /\ points m <> [] /\ cells m = [] /\ zshow m = Ok t /\ zread t = Err e.
Proof.
  exists (mkMesh 2 [mkPoint 0 0%Z [0%Z; 0%Z]; mkPoint 1 0%Z [1%Z; 0%Z]] [] [((-1)%Z, 0, 1)%nat] []).
  exists (t_lines ["# header"; "# ndim npoint ncell nmarked_edge nmarked_face"; "2 2 0 1 0"; ""; "# points"; "# id marker x y {z}";
    "0 0 0 0"; "1 0 1 0"; ""; "# cells"; "# id marker kind points"; ""; "# marked edges"; "# marker p1 p2"; "-1 0 1"]%string), "cannot parse cell id"%string.
  split; [reflexivity|]. split; [discriminate|]. split; [reflexivity|]. split; vm_compute; reflexivity.
Qed.
Print Assumptions C16_no_cells_refuted.

(** C17: what from_text accepts.  Every text has exactly one list of rows; it is accepted iff its
   rows denote a mesh, and that mesh is the result *)
Theorem C17_rows : forall t, exists rows, reads t rows /\ forall rows', reads t rows' -> rows' = rows.
Proof. intros t. destruct (reads_total t) as [rows R]. exists rows. split; [exact R|]. intros r' R'. exact (reads_unique t r' rows R' R). Qed.
Print Assumptions C17_rows.
Theorem C17_accepts : forall T (zero : T) parse_f t rows m, reads t rows ->
  (from_text zero parse_f t = Ok m <-> denotes zero parse_f rows m) /\ (read_file zero parse_f t = Ok m <-> denotes zero parse_f rows m).
Proof. intros T zero p t rows m R. split; [exact (from_text_iff zero p t rows m R)|exact (read_file_iff zero p t rows m R)]. Qed.
Print Assumptions C17_accepts.
(* the counts are those of the header, ids are positions, coordinates and nodes are complete *)
Theorem C17_valid : forall T (zero : T) parse_f t m, from_text zero parse_f t = Ok m ->
  (exists hdr rows, reads t (hdr :: rows) /\
     header_row hdr (ndim m) (List.length (points m)) (List.length (cells m)) (List.length (marked_edges m)) (List.length (marked_faces m))) /\
  (forall i p, nth_error (points m) i = Some p -> pt_id p = i /\ (-(2 ^ 31) <= pt_marker p < 2 ^ 31)%Z /\ List.length (pt_coords p) = ndim m) /\
  (forall i c, nth_error (cells m) i = Some c ->
     c_id c = i /\ (-(2 ^ 31) <= c_marker c < 2 ^ 31)%Z /\ List.length (c_points c) = kind_nnode (c_kind c) /\ Forall (fun q => N.of_nat q < 2 ^ 64) (c_points c)) /\
  (forall mk p q, In (mk, p, q) (marked_edges m) -> (-(2 ^ 31) <= mk < 2 ^ 31)%Z /\ N.of_nat p < 2 ^ 64 /\ N.of_nat q < 2 ^ 64) /\
  (forall mk p q r o, In (mk, p, q, r, o) (marked_faces m) ->
    (-(2 ^ 31) <= mk < 2 ^ 31)%Z /\ N.of_nat p < 2 ^ 64 /\ N.of_nat q < 2 ^ 64 /\ N.of_nat r < 2 ^ 64 /\ forall s, o = Some s -> N.of_nat s < 2 ^ 64 - 1).
Proof.
  intros T zero p t m H. destruct (reads_total t) as [rows R]. apply (from_text_iff zero p t rows m R) in H.
  destruct (denotes_valid zero p rows m H) as [_ V]. split; [|exact V].
  destruct H as [hdr [P [C [E [F [rest [-> [HS _]]]]]]]]. eauto.
Qed.
Print Assumptions C17_valid.
(* from_text panics only when the header announces less than two dimensions *)
Theorem C17_no_panic : forall T (zero : T) parse_f t,
  (forall hdr rows nd np nc ne nf, reads t (hdr :: rows) -> header_row hdr nd np nc ne nf -> (2 <= nd)%nat) ->
  (exists m, from_text zero parse_f t = Ok m) \/ (exists e, from_text zero parse_f t = Err e).
Proof.
  intros T zero p t H. destruct (from_text zero p t) as [m|e| |] eqn:E; [eauto|eauto|exfalso|exfalso].
  - destruct (from_text_soft zero p t) as [hdr [rows [nd [np [nc [ne [nf [R [K L]]]]]]]]]; [unfold soft; rewrite E; intros [X _]; apply X; reflexivity|].
    specialize (H _ _ _ _ _ _ _ R K). lia.
  - destruct (from_text_soft zero p t) as [hdr [rows [nd [np [nc [ne [nf [R [K L]]]]]]]]]; [unfold soft; rewrite E; intros [_ X]; apply X; reflexivity|].
    specialize (H _ _ _ _ _ _ _ R K). lia.
Qed.
Print Assumptions C17_no_panic.
Definition t_ex : text := t_lines ["# a comment"; "  2  3 1 1 1 77"; ""; "0 0 +5 6"; " # note"; "1 -1 7 8"; "2 0 9 -1"; "0 +3 tri3 0 1 2"; "-10 0 1"; "-20 0 1 2 18446744073709551615 x y"; "ignored"]%string.
Definition r_ex : mesh Z := mkMesh 2 [mkPoint 0 0%Z [5%Z; 6%Z]; mkPoint 1 (-1)%Z [7%Z; 8%Z]; mkPoint 2 0%Z [9%Z; (-1)%Z]] [mkCell 0 3%Z Tri3 [0; 1; 2]%nat]
  [((-10)%Z, 0, 1)%nat] [((-20)%Z, 0, 1, 2, None)%nat].
Example C17_ex : zread t_ex = Ok r_ex /\ zread (t_lines ["2 1 0 0 0"; "1 0 5 6"]%string) = Err "the id and index of points must equal each other" /\
  zread (t_lines ["2 2 0 0 0"; "0 0 5 6"]%string) = Err "not all points have been found" /\
  zread (t_lines ["2 1 0 0 0"; "0 0 5 6 7"]%string) = Err "point data contains extra values" /\
  zread (t_lines ["2 1 1 0 0"; "0 0 5 6"; "0 1 lin2 0"]%string) = Err "cannot read cell point id" /\
  zread (t_lines ["# nothing"; ""]%string) = Err "text string is empty or header is missing".
Proof. vm_compute. repeat split. Qed.
Theorem C17_panic_refuted : exists t, zread t = Panic.
Proof. exists (t_lines ["1 1 1 0 0"; "0 0 5 6"; "0 1 lin2 0 0"]%string). vm_compute. reflexivity. Qed.
Print Assumptions C17_panic_refuted.
(* the point ids of a cell are not compared with the number of points *)
Theorem C17_dangling_refuted : exists t m c q, zread t = Ok m /\ In c (cells m) /\ In q (c_points c) /\ (List.length (points m) <= q)%nat.
Proof.
  exists (t_lines ["2 1 1 0 0"; "0 0 5 6"; "0 1 lin2 0 8"]%string), (mkMesh 2 [mkPoint 0 0%Z [5%Z; 6%Z]] [mkCell 0 1%Z Lin2 [0; 8]%nat] [] []), (mkCell 0 1%Z Lin2 [0; 8]%nat), 8%nat.
  split; [vm_compute; reflexivity|]. split; [left; reflexivity|]. split; [right; left; reflexivity|]. cbn. lia.
Qed.
Print Assumptions C17_dangling_refuted.
(* superfluous words after a point, a cell or a marked edge are errors, but not after a marked face *)
Theorem C17_face_extra_refuted : exists t m, zread t = Ok m /\ marked_faces m = [((-20)%Z, 0, 0, 0, Some 0)%nat] /\
  reads t [map txt ["2"; "1"; "1"; "0"; "1"]; map txt ["0"; "0"; "5"; "6"]; map txt ["0"; "1"; "lin2"; "0"; "0"]; map txt ["-20"; "0"; "0"; "0"; "0"; "junk"]]%string.
Proof.
  exists (t_lines ["2 1 1 0 1"; "0 0 5 6"; "0 1 lin2 0 0"; "-20 0 0 0 0 junk"]%string), (mkMesh 2 [mkPoint 0 0%Z [5%Z; 6%Z]] [mkCell 0 1%Z Lin2 [0; 0]%nat] [] [((-20)%Z, 0, 0, 0, Some 0)%nat]). split; [vm_compute; reflexivity|].
  split; [reflexivity|]. apply reads_iff. vm_compute. reflexivity.
Qed.
Print Assumptions C17_face_extra_refuted.

(** C18: the layout of the text does not matter *)
Theorem C18_layout : forall T (zero : T) parse_f t t', same_layout t t' ->
  from_text zero parse_f t = from_text zero parse_f t' /\ read_file zero parse_f t = read_file zero parse_f t'.
Proof. intros T zero p t t' H. split; [exact (from_text_layout zero p t t' H)|exact (read_file_layout zero p t t' H)]. Qed.
Print Assumptions C18_layout.
(* and more: only the rows matter *)
Theorem C18_rows : forall T (zero : T) parse_f t t' rows, reads t rows -> reads t' rows -> from_text zero parse_f t = from_text zero parse_f t'.
Proof.
  intros T zero p t t' rows R R'. apply reads_iff in R, R'. unfold from_text. rewrite !parse_mesh_rows. congruence.
Qed.
Print Assumptions C18_rows.
Example C18_ex : same_layout (txt "2 1" ++ [10] ++ txt "0") (txt "2    1" ++ [9; 10] ++ txt " # note" ++ [13; 10] ++ txt "0" ++ [10]).
Proof.
  eapply rst_trans.
  { apply rst_step. apply (ls_width (txt "2") (txt " ") (txt "    ") (txt "1" ++ [10] ++ txt "0")); try discriminate.
    all: split; [repeat (constructor; [apply space_white; reflexivity|]); constructor|cbn; intuition discriminate]. }
  eapply rst_trans.
  { apply rst_step. apply (ls_trail (txt "2    1") [9] ([10] ++ txt "0")); [right; exists (txt "0"); reflexivity|].
    split; [constructor; [apply space_white; reflexivity|constructor]|intros [H|[]]; discriminate]. }
  eapply rst_trans.
  { apply rst_step. apply (ls_line (txt "2    1" ++ [9; 10]) (txt " # note" ++ [13]) (txt "0")).
    - right. exists (txt "2    1" ++ [9]). reflexivity.
    - exists [32], (txt "# note" ++ [13]). split; [reflexivity|]. split; [constructor; [apply space_white; reflexivity|constructor]|]. right. eexists. reflexivity.
    - cbn. intuition discriminate. }
  apply rst_step. apply (ls_final (txt "2    1" ++ [9; 10] ++ txt " # note" ++ [13; 10] ++ txt "0")).
Qed.
(* a '#' after the first word of a line does not begin a comment *)
Example C18_ex2 : zread (t_lines ["2 1 0 0 0"; "0 0 5 6 # comment"]%string) = Err "point data contains extra values".
Proof. vm_compute. reflexivity. Qed.
