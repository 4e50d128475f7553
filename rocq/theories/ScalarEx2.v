(** * More concrete scalar problems over the rationals, used by the examples. *)
From Coq Require Import List ZArith QArith Qcanon Lia Bool Permutation.
From Verif Require Import Ops Sums Grid Stencil DualNum ScalarModel ScalarRefine ScalarForward
  ScalarBackward ScalarAdjoint ScalarFunc ScalarApi ScalarGrad ScalarEx ScalarMore PyBackend ScalarPhys ScalarReach.
Import ListNotations.

Definition ex_store0 : Z -> arr Qc_ops := fun _ _ => qz 9.

(** Runs of the 1-D problem [exP]. *)
Definition ex_run (vrg : bool) (sr : Z) (F : Z -> list Qc) (nt : Z) (cb : option Z) (U : st Qc_ops) :=
  scalar_forward Qc_ops exP expw ex_v ex_visF vrg sr F nt cb ex_store0 U.

Lemma ex_run_some vrg sr F nt cb U : (0 < sr)%Z -> cb_ok nt sr cb ->
  exists U' R' S', ex_run vrg sr F nt cb U = Some (U', R', S').
Proof.
  intros Hs Hc.
  destruct (scalar_forward_spec Qc_ops Qc_is_ring exP expw ex_geom ex_src ex_rec ex_v ex_visF vrg sr F nt cb
     ex_store0 U (Permutation_refl _) Hs Hc) as (U' & R' & S' & E & _).
  exists U', R', S'. exact E.
Qed.

Lemma ex_src_py : Forall (loc_ok_py Qc_ops exP) (p_src exP).
Proof.
  constructor; [right; split; [cbn; lia|reflexivity]|].
  constructor; [left; reflexivity|constructor].
Qed.
Lemma ex_rec_py : Forall (loc_ok_py Qc_ops exP) (p_rec exP).
Proof.
  constructor; [right; split; [cbn; lia|reflexivity]|].
  constructor; [left; reflexivity|].
  constructor; [right; split; [cbn; lia|reflexivity]|constructor].
Qed.

(** A two-dimensional problem without PML: 5 x 6 cells (7 x 8 with the padding), accuracy 2,
    source in cell (1, 1), receiver in cell (3, 4). *)
Definition nN : list Z := [7%Z; 8%Z].
Definition exN (l1 l2 : Z) : par Qc_ops :=
  @mkpar Qc_ops A2 nN (fun d => qz 1) (fun d => qz 1) (fun _ _ => qz 0) (fun _ _ => qz 0)
    (fun _ _ => qz 0) (qq 1 4) [l1] [l2].
Definition la0 : Z := idx nN [2%Z; 2%Z].
Definition lb0 : Z := idx nN [3%Z; 4%Z].
Definition pwN (d : nat) : Z * Z := (0, 0)%Z.
Definition visN := visits Qc_ops (exN la0 lb0) (pml_begin Qc_ops (exN la0 lb0) 2 pwN) (pml_end Qc_ops (exN la0 lb0) 2 pwN).
Definition vN : arr Qc_ops := fun i => qq (1 + i mod 3) 2.

Lemma exN_no_pml l1 l2 : no_pml (exN l1 l2).
Proof. intros d y. repeat split. Qed.
Lemma exN_geom l1 l2 : geom_ok Qc_ops (exN l1 l2) pwN.
Proof.
  intros [|[|d]] Hd; [| |cbn in Hd; lia]; cbn; (split; [lia|]); (split; [lia|]); (split; [reflexivity|]);
    (split; [intros; split; reflexivity|]); intros; apply Qc_is_canon; reflexivity.
Qed.
Lemma exN_la l1 l2 : loc_ok Qc_ops (exN l1 l2) la0.
Proof. right. split; [cbn; lia|reflexivity]. Qed.
Lemma exN_lb l1 l2 : loc_ok Qc_ops (exN l1 l2) lb0.
Proof. right. split; [cbn; lia|reflexivity]. Qed.

Lemma exN_some (P := exN la0 lb0) (v : arr Qc_ops) sr F nt cb U : (0 < sr)%Z -> cb_ok nt sr cb ->
  exists U' R' S', scalar_forward Qc_ops P pwN v visN false sr F nt cb ex_store0 U = Some (U', R', S').
Proof.
  intros Hs Hc.
  destruct (scalar_forward_spec Qc_ops Qc_is_ring P pwN (exN_geom _ _) (Forall_cons _ (exN_la _ _) (Forall_nil _))
     (Forall_cons _ (exN_lb _ _) (Forall_nil _)) v visN false sr F nt cb
     ex_store0 U (Permutation_refl _) Hs Hc) as (U' & R' & S' & E & _).
  exists U', R', S'. exact E.
Qed.

(** Initial wavefields of the 2-D problem. *)
Definition UN : st Qc_ops :=
  mkst Qc_ops (fun q => qz (coord 0 q - coord 1 q)) (fun q => qz (coord 0 q * coord 1 q))
    (fun d q => qz 0) (fun d q => qz 0).

(** The same survey in a model with two more columns on the left and one row less at the
    bottom, other wavespeeds far away: cells move by (0, 2). *)
Definition exM : par Qc_ops :=
  @mkpar Qc_ops A2 [6%Z; 10%Z] (fun d => qz 1) (fun d => qz 1) (fun _ _ => qz 0) (fun _ _ => qz 0)
    (fun _ _ => qz 0) (qq 1 4) [idx [6%Z; 10%Z] [2%Z; 4%Z]] [idx [6%Z; 10%Z] [3%Z; 6%Z]].
Definition visM := visits Qc_ops exM (pml_begin Qc_ops exM 2 pwN) (pml_end Qc_ops exM 2 pwN).
Definition vM : arr Qc_ops := fun i =>
  let p := unidx [6%Z; 10%Z] i in
  if (coord 1 p <? 4)%Z then qz 5 else vN (idx nN [coord 0 p; coord 1 p - 2]%Z).
Lemma exM_geom : geom_ok Qc_ops exM pwN.
Proof.
  intros [|[|d]] Hd; [| |cbn in Hd; lia]; cbn; (split; [lia|]); (split; [lia|]); (split; [reflexivity|]);
    (split; [intros; split; reflexivity|]); intros; apply Qc_is_canon; reflexivity.
Qed.
Lemma exM_src : Forall (loc_ok Qc_ops exM) (p_src exM).
Proof. constructor; [right; split; [cbn; lia|reflexivity]|constructor]. Qed.
Lemma exM_rec : Forall (loc_ok Qc_ops exM) (p_rec exM).
Proof. constructor; [right; split; [cbn; lia|reflexivity]|constructor]. Qed.
Lemma exM_some sr F nt cb U : (0 < sr)%Z -> cb_ok nt sr cb ->
  exists U' R' S', scalar_forward Qc_ops exM pwN vM visM false sr F nt cb ex_store0 U = Some (U', R', S').
Proof.
  intros Hs Hc.
  destruct (scalar_forward_spec Qc_ops Qc_is_ring exM pwN exM_geom
     exM_src
     exM_rec vM visM false sr F nt cb
     ex_store0 U (Permutation_refl _) Hs Hc) as (U' & R' & S' & E & _).
  exists U', R', S'. exact E.
Qed.
