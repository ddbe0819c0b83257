(* Model of the text format of meshes: impl Display for Mesh (src/mesh/mesh.rs), Mesh::from_text and
   Mesh::read (src/mesh/read_text_mesh.rs), Mesh::write (src/mesh/write_text_file.rs).
   A text is a list of Unicode code points.  Files: only the contents, no I/O.
   usize has 64 bits.  f64 parsing and Debug formatting are parameters (fmt_f, parse_f). *)
From Coq Require Import String Ascii List Arith NArith ZArith Bool.
From Verif Require Import Base Kind MeshModel.
Import ListNotations.
Open Scope N_scope.

Definition text : Type := list N.
Definition txt (s : string) : text := map N_of_ascii (list_ascii_of_string s).

Definition nl : N := 10. Definition cr : N := 13. Definition sp : N := 32. Definition hash : N := 35.
Definition plus_sign : N := 43. Definition minus_sign : N := 45.

(* char::is_whitespace: the Unicode property White_Space *)
Definition is_space (c : N) : bool :=
  ((9 <=? c) && (c <=? 13)) || (c =? 32) || (c =? 133) || (c =? 160) || (c =? 5760) ||
  ((8192 <=? c) && (c <=? 8202)) || (c =? 8232) || (c =? 8233) || (c =? 8239) || (c =? 8287) || (c =? 12288).

(* str::lines: split after each \n, remove the \n and one \r before it; no empty last line *)
Definition strip_cr (l : text) : text := match rev l with c :: r => if c =? cr then rev r else l | [] => l end.
Fixpoint lines_from (cur : text) (t : text) : list text :=       (* cur: reversed current line *)
  match t with
  | [] => match cur with [] => [] | _ => [rev cur] end
  | c :: t' => if c =? nl then strip_cr (rev cur) :: lines_from [] t' else lines_from (c :: cur) t'
  end.
Definition lines (t : text) : list text := lines_from [] t.

(* str::trim_start, str::trim_end_matches("\n"), str::split_whitespace *)
Fixpoint trim_start (t : text) : text := match t with c :: t' => if is_space c then trim_start t' else t | [] => [] end.
Fixpoint drop_nl (t : text) : text := match t with c :: t' => if c =? nl then drop_nl t' else t | [] => [] end.
Definition trim_end_nl (t : text) : text := rev (drop_nl (rev t)).
Fixpoint words_from (cur : text) (t : text) : list text :=       (* cur: reversed current word *)
  match t with
  | [] => match cur with [] => [] | _ => [rev cur] end
  | c :: t' => if is_space c then match cur with [] => words_from [] t' | _ => rev cur :: words_from [] t' end
               else words_from (c :: cur) t'
  end.
Definition split_whitespace (t : text) : list text := words_from [] t.

(* usize::from_str and i32::from_str: optional sign, at least one digit, value in range *)
Definition USIZE_MAX : N := 18446744073709551615.
Fixpoint parse_digits (acc : N) (t : text) : option N :=
  match t with
  | [] => Some acc
  | c :: t' => if (48 <=? c) && (c <=? 57) then parse_digits (acc * 10 + (c - 48)) t' else None
  end.
Definition parse_unsigned (t : text) : option N := match t with [] => None | _ => parse_digits 0 t end.
Definition parse_usize (t : text) : option N :=
  let ds := match t with c :: r => if c =? plus_sign then r else t | [] => [] end in
  match parse_unsigned ds with Some n => if n <=? USIZE_MAX then Some n else None | None => None end.
Definition parse_i32 (t : text) : option Z :=
  let v := match t with
    | c :: r => if c =? plus_sign then option_map Z.of_N (parse_unsigned r)
                else if c =? minus_sign then option_map (fun n => Z.opp (Z.of_N n)) (parse_unsigned r)
                else option_map Z.of_N (parse_unsigned t)
    | [] => None
    end in
  match v with Some z => if ((-2147483648 <=? z) && (z <=? 2147483647))%Z then Some z else None | None => None end.

(* Display for usize and i32: decimal digits *)
Fixpoint digits (fuel : nat) (n : N) (acc : text) : text :=
  match fuel with
  | O => acc
  | S f => let d := 48 + n mod 10 in if n / 10 =? 0 then d :: acc else digits f (n / 10) (d :: acc)
  end.
Definition fmt_usize (n : N) : text := digits (S (N.size_nat n)) n [].
Definition fmt_i32 (z : Z) : text := match z with Z.neg p => minus_sign :: fmt_usize (N.pos p) | _ => fmt_usize (Z.to_N z) end.

(* GeoKind::from on a token (enums.rs:217-246) *)
Fixpoint as_string (t : text) : option string :=
  match t with
  | [] => Some EmptyString
  | c :: t' => if c <? 256 then option_map (String (ascii_of_N c)) (as_string t') else None
  end.
Definition kind_of_token (t : text) : res geokind :=
  match (match as_string t with Some s => kind_from s | None => None end) with
  | Some k => Ok k | None => Err "string representation of GeoKind is incorrect"%string
  end.

Section Codec.
Context {T : Type}.
Variables (zero : T) (fmt_f : T -> text) (parse_f : text -> option T).

Definition want {A} (o : option A) (msg : string) : res A := match o with Some a => Ok a | None => Err msg end.
(* the token iterator: next() *)
Definition next {A} (data : list text) (missing : string) (parse : text -> option A) (bad : string) : res (A * list text) :=
  match data with
  | [] => Err missing
  | v :: rest => let! a := want (parse v) bad in Ok (a, rest)
  end.
Definition to_nat_opt (o : option N) : option nat := option_map N.to_nat o.
Definition usize_tok (t : text) : option nat := to_nat_opt (parse_usize t).

(* the beginning of all parse functions (read_text_mesh.rs:37-42, 74-79, 127-132, 184-189, 218-223):
   None: comment or blank *)
Definition data_of (line : text) : option (list text) :=
  let maybe := trim_end_nl (trim_start line) in
  match maybe with
  | [] => None
  | c :: _ => if c =? hash then None else Some (split_whitespace maybe)
  end.
(* data.next().unwrap() *)
Definition first_tok (data : list text) : res (text * list text) := match data with v :: r => Ok (v, r) | [] => Panic end.

(* a parse function: Ok None: nothing to parse on the line (Ok(false) in the code) *)
Definition with_data {A} (f : list text -> res A) (line : text) : res (option A) :=
  match data_of line with
  | None => Ok None
  | Some data => let! a := f data in Ok (Some a)
  end.

Record sizes := mkSizes { s_ndim : nat; s_npoint : nat; s_ncell : nat; s_medge : nat; s_mface : nat }.
(* read_text_mesh.rs:36-70 *)
Definition sizes_data (data : list text) : res sizes :=
  let! (v, data) := first_tok data in
  let! ndim := want (usize_tok v) "cannot parse ndim" in
  let! (npoint, data) := next data "cannot read npoint" usize_tok "cannot parse npoint" in
  let! (ncell, data) := next data "cannot read ncell" usize_tok "cannot parse ncell" in
  let! (nme, data) := next data "cannot read nmarked_edge" usize_tok "cannot parse nmarked_edge" in
  let! (nmf, data) := next data "cannot read nmarked_face" usize_tok "cannot parse nmarked_face" in
  Ok (mkSizes ndim npoint ncell nme nmf).
Definition parse_sizes (line : text) : res (option sizes) := with_data sizes_data line.

Definition no_more (data : list text) (msg : string) : res unit := match data with [] => Ok tt | _ => Err msg end.

(* read_text_mesh.rs:73-124; [current] = self.current_npoint *)
Definition point_data (ndim current : nat) (data : list text) : res (point T) :=
  let! (v, data) := first_tok data in
  let! id := want (usize_tok v) "cannot parse point id" in
  if negb (id =? current)%nat then Err "the id and index of points must equal each other"%string else
  let! (marker, data) := next data "cannot read point marker" parse_i32 "cannot parse point marker" in
  let coords := repeat zero ndim in
  let! (x, data) := next data "cannot read point x coordinate" parse_f "cannot parse point x coordinate" in
  let! coords := set coords 0 x in
  let! (y, data) := next data "cannot read point y coordinate" parse_f "cannot parse point y coordinate" in
  let! coords := set coords 1 y in
  let! (coords, data) :=
    (if (ndim =? 3)%nat then
       let! (z, data) := next data "cannot read point z coordinate" parse_f "cannot parse point z coordinate" in
       let! coords := set coords 2 z in Ok (coords, data)
     else Ok (coords, data)) in
  let! _ := no_more data "point data contains extra values" in
  Ok (mkPoint id marker coords).
Definition parse_point (ndim current : nat) (line : text) : res (option (point T)) := with_data (point_data ndim current) line.

(* read_text_mesh.rs:153-161 *)
Fixpoint parse_ids (n : nat) (data : list text) : res (list nat * list text) :=
  match n with
  | O => Ok ([], data)
  | S k =>
      let! (p, data) := next data "cannot read cell point id" usize_tok "cannot parse cell point id" in
      let! (ps, data) := parse_ids k data in Ok (p :: ps, data)
  end.
(* read_text_mesh.rs:126-180 *)
Definition cell_data (current : nat) (data : list text) : res cell :=
  let! (v, data) := first_tok data in
  let! id := want (usize_tok v) "cannot parse cell id" in
  if negb (id =? current)%nat then Err "the id and index of cells must equal each other"%string else
  let! (marker, data) := next data "cannot read cell marker" parse_i32 "cannot parse cell marker" in
  let! (str_kind, data) := next data "cannot read cell kind" Some "" in
  let! kind := kind_of_token str_kind in
  let! (ps, data) := parse_ids (kind_nnode kind) data in
  let! _ := no_more data "cell data contains extra values" in
  Ok (mkCell id marker kind ps).
Definition parse_cell (current : nat) (line : text) : res (option cell) := with_data (cell_data current) line.

(* read_text_mesh.rs:183-215 *)
Definition marked_edge_data (data : list text) : res (Z * nat * nat) :=
  let! (v, data) := first_tok data in
  let! marker := want (parse_i32 v) "cannot parse marked edge" in
  let! (p1, data) := next data "cannot read p1 of marked edge" usize_tok "cannot parse p1 of marked edge" in
  let! (p2, data) := next data "cannot read p2 of marked edge" usize_tok "cannot parse p2 of marked edge" in
  let! _ := no_more data "marked edge data contains extra values" in
  Ok (marker, p1, p2).
Definition parse_marked_edge (line : text) : res (option (Z * nat * nat)) := with_data marked_edge_data line.

(* read_text_mesh.rs:217-255; p4 = usize::MAX is None; further values are ignored *)
Definition p4_of (n : N) : option nat := if n =? USIZE_MAX then None else Some (N.to_nat n).
Definition marked_face_data (data : list text) : res (Z * nat * nat * nat * option nat) :=
  let! (v, data) := first_tok data in
  let! marker := want (parse_i32 v) "cannot parse marked face" in
  let! (p1, data) := next data "cannot read p1 of marked face" usize_tok "cannot parse p1 of marked face" in
  let! (p2, data) := next data "cannot read p2 of marked face" usize_tok "cannot parse p2 of marked face" in
  let! (p3, data) := next data "cannot read p3 of marked face" usize_tok "cannot parse p3 of marked face" in
  let! p4 := (match data with
    | [] => Ok None
    | v :: _ => let! n := want (parse_usize v) "cannot parse p4 of marked face" in Ok (p4_of n)
    end) in
  Ok (marker, p1, p2, p3, p4).
Definition parse_marked_face (line : text) : res (option (Z * nat * nat * nat * option nat)) := with_data marked_face_data line.

(* the loop that reads the header (read_text_mesh.rs:324-335, 510-521) *)
Fixpoint read_sizes (msg : string) (ls : list text) : res (sizes * list text) :=
  match ls with
  | [] => Err msg
  | l :: rest => let! r := parse_sizes l in
      match r with Some s => Ok (s, rest) | None => read_sizes msg rest end
  end.
(* the loops that read points, cells, marked edges and marked faces (read_text_mesh.rs:346-424, 532-607):
   stop after the n-th item; the count is compared only after an item has been read *)
Fixpoint read_items {A} (parse : nat -> text -> res (option A)) (n : nat) (acc : list A) (ls : list text) : res (list A * list text) :=
  match ls with
  | [] => Ok (acc, [])
  | l :: rest => let! r := parse (List.length acc) l in
      match r with
      | None => read_items parse n acc rest
      | Some a => if (S (List.length acc) =? n)%nat then Ok (acc ++ [a], rest) else read_items parse n (acc ++ [a]) rest
      end
  end.
Definition read_all {A} (parse : nat -> text -> res (option A)) (n : nat) (msg : string) (ls : list text) : res (list A * list text) :=
  let! (items, rest) := read_items parse n [] ls in
  if negb (List.length items =? n)%nat then Err msg else Ok (items, rest).

(* read_text_mesh.rs:506-610 (from_text), 312-428 (read: the same on the lines of the file) *)
Definition parse_mesh (msg : string) (t : text) : res (mesh T) :=
  let! (s, ls) := read_sizes msg (lines t) in
  let! (pts, ls) := read_all (parse_point (s_ndim s)) (s_npoint s) "not all points have been found" ls in
  let! (cs, ls) := read_all parse_cell (s_ncell s) "not all cells have been found" ls in
  let! (mes, ls) := (if (0 <? s_medge s)%nat then read_all (fun _ => parse_marked_edge) (s_medge s) "not all marked edges have been found" ls else Ok ([], ls)) in
  let! (mfs, ls) := (if (0 <? s_mface s)%nat then read_all (fun _ => parse_marked_face) (s_mface s) "not all marked faces have been found" ls else Ok ([], ls)) in
  Ok (mkMesh (s_ndim s) pts cs mes mfs).
Definition from_text (t : text) : res (mesh T) := parse_mesh "text string is empty or header is missing" t.
Definition read_file (contents : text) : res (mesh T) := parse_mesh "file is empty or header is missing" contents.

(* ---- writing ---- *)
Definition fmt_nat (n : nat) : text := fmt_usize (N.of_nat n).
Definition line_of (ws : list text) : text := 
  (fix go (ws : list text) : text := match ws with [] => [] | [w] => w | w :: r => w ++ [sp] ++ go r end) ws ++ [nl].
(* mesh.rs:641-659 *)
Definition fmt_point (nd : nat) (p : point T) : res text :=
  let! x := get (pt_coords p) 0 in let! y := get (pt_coords p) 1 in
  if (nd =? 2)%nat then Ok (line_of [fmt_nat (pt_id p); fmt_i32 (pt_marker p); fmt_f x; fmt_f y])
  else let! z := get (pt_coords p) 2 in Ok (line_of [fmt_nat (pt_id p); fmt_i32 (pt_marker p); fmt_f x; fmt_f y; fmt_f z]).
(* mesh.rs:664-677 *)
Definition fmt_cell (c : cell) : text :=
  line_of (fmt_nat (c_id c) :: fmt_i32 (c_marker c) :: txt (kind_to_string (c_kind c)) :: map fmt_nat (c_points c)).
(* mesh.rs:683-685, 692-698 *)
Definition fmt_medge (e : Z * nat * nat) : text := let '(mk, p1, p2) := e in line_of [fmt_i32 mk; fmt_nat p1; fmt_nat p2].
Definition fmt_mface (e : Z * nat * nat * nat * option nat) : text :=
  let '(mk, p1, p2, p3, p4) := e in
  match p4 with
  | None => line_of [fmt_i32 mk; fmt_nat p1; fmt_nat p2; fmt_nat p3]
  | Some q => line_of [fmt_i32 mk; fmt_nat p1; fmt_nat p2; fmt_nat p3; fmt_nat q]
  end.
(* mesh.rs:623-702 *)
Definition to_text (m : mesh T) : res text :=
  let! pts := foldM (fun (acc : text) p => let! l := fmt_point (ndim m) p in Ok (acc ++ l)) (points m) [] in
  Ok (txt "# header" ++ [nl] ++ txt "# ndim npoint ncell nmarked_edge nmarked_face" ++ [nl] ++
      line_of (map fmt_nat [ndim m; List.length (points m); List.length (cells m); List.length (marked_edges m); List.length (marked_faces m)]) ++
      [nl] ++ txt "# points" ++ [nl] ++ txt "# id marker x y {z}" ++ [nl] ++ pts ++
      [nl] ++ txt "# cells" ++ [nl] ++ txt "# id marker kind points" ++ [nl] ++ flat_map fmt_cell (cells m) ++
      (if (0 <? List.length (marked_edges m))%nat then [nl] ++ txt "# marked edges" ++ [nl] ++ txt "# marker p1 p2" ++ [nl] ++ flat_map fmt_medge (marked_edges m) else []) ++
      (if (0 <? List.length (marked_faces m))%nat then [nl] ++ txt "# marked faces" ++ [nl] ++ txt "# marker p1 p2 p3 {p4}" ++ [nl] ++ flat_map fmt_mface (marked_faces m) else [])).
(* write_text_file.rs:63-89: the contents of the written file *)
Definition write_file (m : mesh T) : res text :=
  if (List.length (cells m) <? 1)%nat then Err "there are no cells to write"%string else to_text m.
End Codec.
