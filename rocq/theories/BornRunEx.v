(** * Examples of Born runs. *)
From Coq Require Import List ZArith QArith Qcanon Lia Bool Permutation.
From Verif Require Import Ops Sums Grid Stencil DualNum ScalarModel ScalarRefine ScalarForward
  ScalarBackward ScalarAdjoint ScalarFunc ScalarApi ScalarGrad ScalarMore ScalarPhys ScalarEx ScalarEx2 PyBackend GeomModel
  BornModel BornSim BornBack BornThm BornPy BornEx BornRun BornRun2.
Import ListNotations.

Definition exb_run (scat : arr Qc_ops) sr f fsc nt cb u usc :=
  born_forward Qc_ops exP exb_recsc expw ex_v scat ex_visF false false sr f fsc nt cb ex_store0 ex_store0 u usc.
Lemma exb_some scat sr f fsc nt cb u usc : (forall t, length (fsc t) = length (f t)) -> (0 < sr)%Z -> cb_ok nt sr cb ->
  exists B, exb_run scat sr f fsc nt cb u usc = Some B.
Proof.
  intros Hl Hs C. apply (born_exists Qc_ops Qc_is_ring exP exb_recsc expw ex_geom ex_src ex_rec exb_recsc_ok); auto. apply Permutation_refl.
Qed.

(** Without PML. *)
Definition scN : arr Qc_ops := fun i => qz (i mod 4 - 1).
Definition UscN : st Qc_ops :=
  mkst Qc_ops (fun q => qz (coord 0 q + 1)) (fun q => qz (coord 1 q - 2)) (fun d q => qz 0) (fun d q => qz 0).
Definition exbN_run (l1 l2 : Z) f fsc nt u usc :=
  born_forward Qc_ops (exN l1 l2) [l2] pwN vN scN visN false false 1 f fsc nt None ex_store0 ex_store0 u usc.
Lemma exbN_some f fsc nt u usc : (forall t, length (fsc t) = length (f t)) -> (0 <= nt)%Z ->
  (exists B, exbN_run la0 lb0 f fsc nt u usc = Some B) /\ (exists B, exbN_run lb0 la0 f fsc nt u usc = Some B).
Proof.
  intros Hl Hn. assert (C : cb_ok nt 1 None) by (cbn; lia).
  split.
  - apply (born_exists Qc_ops Qc_is_ring (exN la0 lb0) [lb0] pwN (exN_geom _ _) (Forall_cons _ (exN_la _ _) (Forall_nil _))
      (Forall_cons _ (exN_lb _ _) (Forall_nil _)) (Forall_cons _ (exN_lb _ _) (Forall_nil _))); auto; try lia. apply Permutation_refl.
  - apply (born_exists Qc_ops Qc_is_ring (exN lb0 la0) [la0] pwN (exN_geom _ _) (Forall_cons _ (exN_lb _ _) (Forall_nil _))
      (Forall_cons _ (exN_la _ _) (Forall_nil _)) (Forall_cons _ (exN_la _ _) (Forall_nil _))); auto; try lia. apply Permutation_refl.
Qed.

(** The other model of [C28_example], with a scattering potential that agrees near the source and
    the receiver. *)
Definition scM : arr Qc_ops := fun i =>
  let p := unidx [6%Z; 10%Z] i in
  if (coord 1 p <? 4)%Z then qz 7 else scN (idx nN [coord 0 p; coord 1 p - 2]%Z).
