(** * The example of [ScalarEx] extended to the Born propagator. *)
From Coq Require Import List ZArith QArith Qcanon Lia Bool Permutation.
From Verif Require Import Ops Sums Grid Stencil DualNum ScalarModel ScalarRefine ScalarForward
  ScalarBackward ScalarAdjoint ScalarFunc ScalarApi ScalarGrad ScalarEx PyBackend GeomModel BornModel BornSim BornBack BornThm.
Import ListNotations.

(** Receivers of the scattered wavefield. *)
Definition exb_recsc : list Z := [5%Z; IGNORE].
Lemma exb_recsc_ok : Forall (loc_ok Qc_ops exP) exb_recsc.
Proof.
  constructor; [right; split; [cbn; lia|reflexivity]|].
  constructor; [left; reflexivity|constructor].
Qed.

Definition exb_amps (t : Z) : list Qc := [qz (t + 1); qz 5].
Definition exb_scat : arr Qc_ops := fun i => qz (2 - i).
Definition exb_usc : st Qc_ops :=
  mkst Qc_ops (fun q => qz (coord 0 q - 1)) (fun q => qz 2) (fun d q => qz 1) (fun d q => qz (coord 0 q)).
Definition exb_Fsc (t : Z) : list Qc := [qz (2 - t); qz 3].
Definition exb_Gsc : st Qc_ops :=
  mkst Qc_ops (fun q => qz (coord 0 q)) (fun q => qz 1) (fun d q => qz (1 + coord 0 q)) (fun d q => qz (2 - coord 0 q)).
Definition exb_grsc (t : Z) : list Qc := [qz (t - 1); qz 2].

(** Perturbed inputs of the Born propagator. *)
Definition exb_V : arr (dual Qc_ops) := perturb (K := Qc_ops) ex_v ex_dv.
Definition exb_S : arr (dual Qc_ops) := perturb (K := Qc_ops) exb_scat (fun i => qz (i mod 2 + 1)).
Definition exb_DFsc (t : Z) : list (dual Qc_ops) := [(qz (2 - t), qz 1); (qz 3, qz 2)].
Definition exb_DUsc : st (dual Qc_ops) :=
  mkst (dual Qc_ops) (fun q => (qz (coord 0 q - 1), qz 1)) (fun q => (qz 2, qz (coord 0 q)))
    (fun d q => (qz 1, qz 2)) (fun d q => (qz (coord 0 q), qz 1)).

(** A model of three cells without padding ([exP] adds one cell of stencil padding and two and
    one PML cells). *)
Definition exb_v3 : tens Qc := mktens [3%Z] (fun p => qz (1 + coord 0 p)).
Definition exb_s3 : tens Qc := mktens [3%Z] (fun p => qz (2 - coord 0 p)).

(** Flat view of a padded model of one shot. *)
Definition flat_model {X} (m : tens X) : Z -> X := fun i => t_at m (0%Z :: unidx [8%Z] i).
Definition exb_zero (K : ops) : st K :=
  mkst K (fun _ => o0 K) (fun _ => o0 K) (fun _ _ => o0 K) (fun _ _ => o0 K).
Lemma exb_recsc_py : Forall (loc_ok_py Qc_ops exP) exb_recsc.
Proof.
  constructor; [right; split; [cbn; lia|reflexivity]|].
  constructor; [left; reflexivity|constructor].
Qed.
