(** * A concrete scalar problem over the rationals, used by the examples.

    One dimension, accuracy 2, 8 cells (6 after removing the padding), PML widths 2 and 1,
    two sources (one of them ignored), three receivers (one of them ignored). *)
From Coq Require Import List ZArith QArith Qcanon Lia Bool Permutation.
From Verif Require Import Ops Sums Grid Stencil DualNum ScalarModel ScalarRefine ScalarForward
  ScalarBackward ScalarAdjoint ScalarFunc ScalarApi ScalarGrad.
Import ListNotations.

Definition qz (z : Z) : Qc := Q2Qc (inject_Z z).
Definition qq (n : Z) (d : positive) : Qc := Q2Qc (n # d).

Definition nz (x : Qc) : bool := negb (Qeq_bool (this x) 0).
Lemma nz_spec x : nz x = true -> x <> qz 0.
Proof.
  unfold nz. intros H ->. cbn in H. discriminate.
Qed.

Definition ex_b (d : nat) (y : Z) : Qc :=
  if (y =? 1)%Z then qq (-1) 2 else if (y =? 2)%Z then qq (-1) 4 else if (y =? 6)%Z then qq (-1) 3
  else qz 0.
Definition ex_a (d : nat) (y : Z) : Qc :=
  if (y =? 1)%Z then qq 1 2 else if (y =? 2)%Z then qq 3 4 else if (y =? 6)%Z then qq 2 3
  else qz 0.

Definition exP : par Qc_ops :=
  @mkpar Qc_ops A2 [8%Z] (fun _ => qz 1) (fun _ => qz 1) ex_a ex_b
    (fun d y => DIFF1 (K := Qc_ops) A2 (qz 1) (fun k => ex_b d (y + k)%Z))
    (qq 1 4) [3%Z; IGNORE] [2%Z; IGNORE; 6%Z].

Definition expw (d : nat) : Z * Z := (2, 1)%Z.

Definition ex_visF := visits Qc_ops exP (pml_begin Qc_ops exP 2 expw) (pml_end Qc_ops exP 2 expw).
Definition ex_visB := visits Qc_ops exP (pml_begin Qc_ops exP 3 expw) (pml_end Qc_ops exP 3 expw).

(** Wavespeed and a perturbation of it. *)
Definition ex_v : arr Qc_ops := fun i => qz (1 + i mod 3).
Definition ex_dv : arr Qc_ops := fun i => qz (i - 3).

(** Source series, initial wavefields, upstream gradients. *)
Definition ex_F (t : Z) : list Qc := [qz (t + 1); qz 5].
Definition ex_U : st Qc_ops :=
  mkst Qc_ops (fun q => qz (coord 0 q + 1)) (fun q => qz (2 - coord 0 q))
    (fun d q => qz (coord 0 q - 2)) (fun d q => qz (3 * coord 0 q)).
Definition ex_G : st Qc_ops :=
  mkst Qc_ops (fun q => qz (1 - coord 0 q)) (fun q => qz (coord 0 q))
    (fun d q => qz (2 + coord 0 q)) (fun d q => qz (5 - coord 0 q)).
Definition ex_gr (t : Z) : list Qc := [qz (t + 2); qz 7; qz (1 - t)].

Definition ex_V : arr (dual Qc_ops) := perturb (K := Qc_ops) ex_v ex_dv.
Definition ex_DF (t : Z) : list (dual Qc_ops) := [(qz (t + 1), qz (t - 2)); (qz 5, qz 4)].
Definition ex_DU : st (dual Qc_ops) :=
  mkst (dual Qc_ops) (fun q => (qz (coord 0 q + 1), qz (coord 0 q))) (fun q => (qz (2 - coord 0 q), qz 1))
    (fun d q => (qz (coord 0 q - 2), qz (coord 0 q))) (fun d q => (qz (3 * coord 0 q), qz (1 - coord 0 q))).

Lemma ex_geom : geom_ok Qc_ops exP expw.
Proof.
  intros [|d] Hd; [|cbn in Hd; lia]. cbn.
  split; [lia|]. split; [lia|]. split; [reflexivity|]. split; [|reflexivity].
  intros y Hy. assert (H : (y = 3 \/ y = 4 \/ y = 5)%Z) by lia.
  destruct H as [->|[->| ->]]; split; reflexivity.
Qed.

Lemma ex_src : Forall (loc_ok Qc_ops exP) (p_src exP).
Proof.
  constructor; [right; split; [cbn; lia|reflexivity]|].
  constructor; [left; reflexivity|constructor].
Qed.
Lemma ex_rec : Forall (loc_ok Qc_ops exP) (p_rec exP).
Proof.
  constructor; [right; split; [cbn; lia|reflexivity]|].
  constructor; [left; reflexivity|].
  constructor; [right; split; [cbn; lia|reflexivity]|constructor].
Qed.

(** Both sides of the derivative identity for [nt] steps and interval [sr], computed by
    running the model. *)
Definition ex_sides (sr nt : Z) : option (Qc * Qc) :=
  match scalar_forward (dual Qc_ops) (dpar exP) expw ex_V ex_visF false sr ex_DF nt None (fun _ _ => o0 (dual Qc_ops)) ex_DU,
        scalar_forward Qc_ops exP expw (are ex_V) ex_visF true sr (fun t => lre (ex_DF t)) nt None (fun _ _ => o0 Qc_ops) (sre ex_DU)
  with
  | Some (U', R', _), Some (_, _, S') =>
      match scalar_backward Qc_ops exP expw (are ex_V) ex_visB S' true sr ex_gr nt None ex_G with
      | Some (G0, gf, gv) =>
          Some (udot Qc_ops exP ex_G (sep U') + tdot (K := Qc_ops) nt ex_gr (fun t => lep (R' t)),
                udot Qc_ops exP G0 (sep ex_DU) + tdot (K := Qc_ops) nt gf (fun t => lep (ex_DF t))
                + adot (K := Qc_ops) 8 gv (aep ex_V))%Qc
      | None => None
      end
  | _, _ => None
  end.

