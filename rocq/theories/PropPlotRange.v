(* C104: the range of a plot. *)
From Coq Require Import String List Arith Bool QArith Lia Lqa.
From Verif Require Import Base Kind MeshModel MeshQueryModel MeshQuerySpec PlotRangeModel PlotRangeSpec PlotRangeProof.
Import ListNotations.
Open Scope Q_scope.

(* no point of the mesh is outside the plot *)
Theorem C104_contains : forall mr m, coords_complete m -> points m <> [] -> (2 <= ndim m)%nat -> 0 <= mr ->
  exists r, config_plot_range mr m = Ok r /\ forall p, In p (points m) -> shows r (coord 0 p) (coord 1 p).
Proof. exact range_contains. Qed.
Print Assumptions C104_contains.

(* the margins are the given multiple of the extent, on all four sides; meshes without extent in x or y keep the automatic range *)
Theorem C104_exact : forall mr m p q s t, coords_complete m -> points m <> [] -> (2 <= ndim m)%nat ->
  lowest 0 m p -> highest 0 m q -> lowest 1 m s -> highest 1 m t ->
  (flat 0 m \/ flat 1 m -> config_plot_range mr m = Ok Auto) /\
  (~ flat 0 m -> ~ flat 1 m -> exists a b c d, config_plot_range mr m = Ok (Range2 a b c d) /\
     a == coord 0 p - mr * (coord 0 q - coord 0 p) /\ b == coord 0 q + mr * (coord 0 q - coord 0 p) /\
     c == coord 1 s - mr * (coord 1 t - coord 1 s) /\ d == coord 1 t + mr * (coord 1 t - coord 1 s)).
Proof. exact range_exact. Qed.
Print Assumptions C104_exact.

(* a range set by the user is used instead, in its own dimension only *)
Theorem C104_choice : forall r2 r3 mr m,
  (forall a b c d, ndim m = 2%nat -> r2 = Some (a, b, c, d) -> plot_range r2 r3 mr m = Ok (Range2 a b c d)) /\
  (forall a b c d e f, ndim m = 3%nat -> r3 = Some (a, b, c, d, e, f) -> plot_range r2 r3 mr m = Ok (Range3 a b c d e f)) /\
  ((ndim m = 2%nat /\ r2 = None) \/ (ndim m = 3%nat /\ r3 = None) -> plot_range r2 r3 mr m = config_plot_range mr m).
Proof. exact range_choice. Qed.
Print Assumptions C104_choice.

Example C104_ex : coords_complete slab /\ config_plot_range (1#5) slab = Ok (Range2 (1 - (1#5) * (3 - 1)) (3 + (1#5) * (3 - 1)) (-(1) - (1#5) * (4 - -(1))) (4 + (1#5) * (4 - -(1)))) /\
  ~ flat 0 slab /\ ~ flat 1 slab /\ flat 1 line_mesh /\ config_plot_range (1#5) line_mesh = Ok Auto.
Proof.
  split; [intros p H; cbn in H; repeat (destruct H as [<-|H]; [reflexivity|]); destruct H|]. split; [reflexivity|].
  split; [|split; [|split]].
  - intros F. specialize (F (mkPoint 0 0%Z [1; -(1)]) (mkPoint 1 0%Z [3; -(1)]) (or_introl eq_refl) (or_intror (or_introl eq_refl))). vm_compute in F. discriminate.
  - intros F. specialize (F (mkPoint 0 0%Z [1; -(1)]) (mkPoint 2 0%Z [3; 4]) (or_introl eq_refl) (or_intror (or_intror (or_introl eq_refl)))). vm_compute in F. discriminate.
  - intros p q Hp Hq. cbn in Hp, Hq. destruct Hp as [<-|[<-|[]]], Hq as [<-|[<-|[]]]; reflexivity.
  - reflexivity.
Qed.

(* set_m_range accepts negative numbers; then points of the mesh are cut off *)
Theorem C104_negative_refuted : exists mr m r p, coords_complete m /\ config_plot_range mr m = Ok r /\ In p (points m) /\ ~ shows r (coord 0 p) (coord 1 p).
Proof.
  exists (-(1#5)), slab, (Range2 (1 - -(1#5) * (3 - 1)) (3 + -(1#5) * (3 - 1)) (-(1) - -(1#5) * (4 - -(1))) (4 + -(1#5) * (4 - -(1)))), (mkPoint 0 0%Z [1; -(1)]).
  split; [apply C104_ex|]. split; [reflexivity|]. split; [left; reflexivity|]. cbn [shows coord pt_coords nth]. intros ((A & _) & _). vm_compute in A. apply A. reflexivity.
Qed.
Print Assumptions C104_negative_refuted.
