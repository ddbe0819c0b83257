(* The command line tools qua2msh and hex2msh (src/bin/qua2msh.rs, src/bin/hex2msh.rs). Not modelled: the command line
   (structopt), the input file (the blocks are given as read, see StructModel), messages on the screen and the figure
   (option svg_figure). Writing a text to a file always succeeds. *)
From Coq Require Import String Reals List Arith.
From Verif Require Import Base Kind MeshModel TopoModel GridModel SearchModel StructModel TextModel VtuModel.
Import ListNotations.
Local Open Scope string_scope.
Local Open Scope list_scope.
Local Open Scope nat_scope.

(* the result and the written files: extension and contents *)
Definition outcome : Type := (res unit * list (string * text))%type.
(* the error that is returned *)
Definition failed {A} (r : res A) : res unit := match r with Ok _ => Ok tt | Err e => Err e | Panic => Panic | NoFuel => NoFuel end.

Section Tools.
Variables (zdet : R) (shp : list nat -> list nat) (shuffle : emap -> emap) (sh : container -> container) (shc : list (nat * nat) -> list (nat * nat)).
Variable fmt_f : R -> text.

(* qua2msh.rs:63-73, hex2msh.rs:60-70 *)
Definition write_files (do_vtu : bool) (m : mesh R) : outcome :=
  match write_file fmt_f m with
  | Ok msh =>
      if do_vtu then
        match write_vtu fmt_f m with
        | Ok vtu => (Ok tt, [(".msh", msh); (".vtu", vtu)])
        | r => (failed r, [(".msh", msh)])
        end
      else (Ok tt, [(".msh", msh)])
  | r => (failed r, [])
  end.

(* qua2msh.rs:52-60 *)
Definition qua_target (nnode : nat) : res (geokind * bool) :=
  match nnode with
  | 4 => Ok (Qua4, true) | 8 => Ok (Qua8, true) | 9 => Ok (Qua9, true)
  | 12 => Ok (Qua12, false) | 16 => Ok (Qua16, false) | 17 => Ok (Qua17, false)
  | _ => Err "invalid number of nodes for quadrilateral cell"
  end.
(* qua2msh.rs:38-85 *)
Definition qua2msh (bl : blocks2d) (nnode : nat) (renumber : bool) : outcome :=
  match qua_target nnode with
  | Ok (target, do_vtu) =>
      match from_blocks_2d zdet shp shuffle sh shc bl target renumber with
      | Ok m => write_files do_vtu m
      | r => (failed r, [])
      end
  | r => (failed r, [])
  end.

(* hex2msh.rs:52-57 *)
Definition hex_target (nnode : nat) : res (geokind * bool) :=
  match nnode with
  | 8 => Ok (Hex8, true) | 20 => Ok (Hex20, true) | 32 => Ok (Hex32, false)
  | _ => Err "invalid number of nodes for hexahedral cell"
  end.
(* hex2msh.rs:38-82 *)
Definition hex2msh (bl : blocks3d) (nnode : nat) (renumber : bool) : outcome :=
  match hex_target nnode with
  | Ok (target, do_vtu) =>
      match from_blocks_3d zdet shp shuffle sh shc bl target renumber with
      | Ok m => write_files do_vtu m
      | r => (failed r, [])
      end
  | r => (failed r, [])
  end.
End Tools.
