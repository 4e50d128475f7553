(** * Two shots on the 1-D problem of [ScalarEx], used by the examples. *)
From Coq Require Import List ZArith QArith Qcanon Lia Bool Permutation.
From Verif Require Import Ops Sums Grid Stencil ScalarModel ScalarRefine ScalarForward ScalarBackward ScalarFunc ScalarEx
  ShotsModel Shots ShotsThm.
Import ListNotations.

(** Two sources and two receivers per shot, one location ignored. *)
Definition ex2_srcs (j : Z) : Z := nth (Z.to_nat j) [3; IGNORE; 5; 2]%Z 0%Z.
Definition ex2_recs (j : Z) : Z := nth (Z.to_nat j) [2; 6; 4; 4]%Z 0%Z.
Definition ex2_f (t : Z) : arr Qc_ops := fun j => qz (t + 1 + j).
Definition ex2_gr (t : Z) : arr Qc_ops := fun j => qz (2 * t + 1 - j).
Definition ex2_u (k : Z) : st Qc_ops := ex_U.
Definition ex2_g (k : Z) : st Qc_ops := ex_G.
Definition ex2_store (s : Z) : arr Qc_ops := fun i => qz (1 + i mod 3 + s).
Definition ex2_N (nt sr : Z) (cb : option Z) : Z := match cb with Some c => c | None => nt / sr end.
(** The shots take turns. *)
Definition ex2_fsched sr nt cb (s : Z) : list (Z * action) :=
  turns 2 (fprog ex_visF (Z.min (nt / sr - s) (ex2_N nt sr cb) * sr) (s * sr)).
Definition ex2_bsched sr nt cb (s : Z) : list (Z * action) :=
  turns 2 (bprog ex_visB (Z.min s (ex2_N nt sr cb) * sr) (s * sr)).
(** Shot [k] on thread [k], swapped in odd calls. *)
Definition ex2_th (s k : Z) : Z := if Z.odd s then (1 - k)%Z else k.

Lemma ex2_fsched_ok sr nt cb : fsched_ok 2 ex_visF sr nt cb (ex2_fsched sr nt cb).
Proof. intros s. apply turns_ok. Qed.
Lemma ex2_bsched_ok sr nt cb : bsched_ok 2 ex_visB sr nt cb (ex2_bsched sr nt cb).
Proof. intros s. apply turns_ok. Qed.

Lemma ex2_cases j : (0 <= j < 2 * 2)%Z -> (j = 0 \/ j = 1 \/ j = 2 \/ j = 3)%Z.
Proof. lia. Qed.
Lemma ex2_src j : (0 <= j < 2 * 2)%Z -> loc_ok Qc_ops exP (ex2_srcs j).
Proof.
  intros H. apply ex2_cases in H. destruct H as [->|[->|[->| ->]]];
    [right|left; reflexivity|right|right]; (split; [split; [discriminate|reflexivity]|reflexivity]).
Qed.
Lemma ex2_rec j : (0 <= j < 2 * 2)%Z -> loc_ok Qc_ops exP (ex2_recs j).
Proof.
  intros H. apply ex2_cases in H. destruct H as [->|[->|[->| ->]]]; right; (split; [split; [discriminate|reflexivity]|reflexivity]).
Qed.

Lemma ex2_th_ok s k : (0 <= k < 2)%Z -> (0 <= ex2_th s k < 2)%Z.
Proof. unfold ex2_th. destruct (Z.odd s); lia. Qed.

Lemma ex_visF_ok : fvis Qc_ops exP expw ex_visF.
Proof. apply Permutation_refl. Qed.
Lemma ex_visB_ok : bvis Qc_ops exP expw ex_visB.
Proof. apply Permutation_refl. Qed.

(** Forward and backward runs of the batch; [nthr] threads. *)
Definition ex2_forward batched sr nt cb :=
  batch_forward Qc_ops exP 2 2 ex2_srcs ex2_recs batched expw ex_v true sr ex2_f nt cb (ex2_fsched sr nt cb) (fun _ _ => qz 0) ex2_u.
Definition ex2_backward batched nthr th sr nt cb :=
  batch_backward Qc_ops exP 2 2 ex2_srcs ex2_recs batched expw nthr th ex_v ex2_store true sr ex2_gr nt cb (ex2_bsched sr nt cb) ex2_g.
Definition ex2_gv batched nthr th sr nt cb (i : Z) : Qc :=
  match ex2_backward batched nthr th sr nt cb with Some (_, _, gv) => gv i | None => qz 0 end.
