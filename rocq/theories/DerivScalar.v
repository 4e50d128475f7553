(** * Gradients of the scalar propagator are derivatives of real functions. *)
From Coq Require Import List ZArith QArith Qreals Reals Lia Lra Bool Permutation FunctionalExtensionality.
From Verif Require Import Ops Sums Grid Stencil StencilOrder DualNum ScalarModel ScalarRefine ScalarForward ScalarBackward ScalarAdjoint
  ScalarFunc ScalarApi ScalarGrad Param ShotsThm BornGrad Deriv.
Import ListNotations.

(** [G], [gr]: gradient of the objective function [obj] of the outputs at [U0], [R0] (what PyTorch passes to the backward function). *)
Definition obj_gradient (P : par R_ops) (nt : Z) (obj : st R_ops -> (Z -> list R) -> R) (U0 : st R_ops) (R0 : Z -> list R)
    (G : st R_ops) (gr : Z -> list R) : Prop :=
  forall u r du dr, u 0%R = U0 -> r 0%R = R0 -> scurve P u du -> rcurve nt r dr ->
    derivable_pt_lim (fun h => obj (u h) (r h)) 0 (udot R_ops P G du + tdot (K := R_ops) nt gr dr)%R.

Section Grad.
Variable P : par R_ops.
Variable pw : nat -> Z * Z.
Hypothesis Hg : geom_ok R_ops P pw.
Hypothesis Hsrc : Forall (loc_ok R_ops P) (p_src P).
Hypothesis Hrec : Forall (loc_ok R_ops P) (p_rec P).
Notation n := (prodZ (p_shape P)).

Lemma oq1 : oq R_ops (inject_Z 1) = o1 R_ops.
Proof. cbn. apply RMicromega.Q2R_1. Qed.

Theorem scalar_gradient_real obj (V : R -> arr R_ops) dV (F : R -> Z -> list R) dF (U : R -> st R_ops) dU G gr nt visF visB cbF cbB store U0 R0 S0 :
  (0 <= nt)%Z -> cb_ok nt 1 cbF -> cb_ok nt 1 cbB -> fvis R_ops P pw visF -> bvis R_ops P pw visB ->
  acurve n V dV -> rcurve nt F dF -> scurve P U dU ->
  scalar_forward R_ops P pw (V 0%R) visF true 1 (F 0%R) nt cbF store (U 0%R) = Some (U0, R0, S0) -> obj_gradient P nt obj U0 R0 G gr ->
  exists J G0 gf gv,
    (forall h, exists Uh Rh Sh, scalar_forward R_ops P pw (V h) visF true 1 (F h) nt cbF store (U h) = Some (Uh, Rh, Sh) /\ J h = obj Uh Rh) /\
    scalar_backward R_ops P pw (V 0%R) visB S0 true 1 gr nt cbB G = Some (G0, gf, gv) /\
    derivable_pt_lim J 0 (udot R_ops P G0 dU + tdot (K := R_ops) nt gf dF + adot (K := R_ops) n gv dV)%R.
Proof.
  intros Hnt HcF HcB HvF HvB HV HF HU E0 Hobj.
  destruct (scalar_gradient_exact R_ops R_is_ring P pw Hg Hsrc Hrec (fun i => (V 0%R i, dV i)) (drow (F 0%R) dF) (dst_of (U 0%R) dU) G gr
     nt visF visF visB true cbF cbF cbB (fun s i => dconst (K := R_ops) (store s i)) store oq1 Hnt HcF HcF HcB HvF HvF HvB)
    as (UD & RD & SD & UK & RK & S' & G0 & gf & gv & E1 & E2 & E3 & E4).
  assert (EF : (fun t => lre (drow (F 0%R) dF t)) = F 0%R) by (apply functional_extensionality; intros t; apply lre_drow).
  change (are (fun i => (V 0%R i, dV i))) with (fun i => V 0%R i) in E2, E3. change (fun i => V 0%R i) with (V 0%R) in E2, E3.
  rewrite EF in E2. change (sre (dst_of (U 0%R) dU)) with (mkst R_ops (s_wfc R_ops (U 0%R)) (s_wfp R_ops (U 0%R)) (s_psi R_ops (U 0%R)) (s_zeta R_ops (U 0%R))) in E2.
  assert (EU : mkst R_ops (s_wfc R_ops (U 0%R)) (s_wfp R_ops (U 0%R)) (s_psi R_ops (U 0%R)) (s_zeta R_ops (U 0%R)) = U 0%R) by (destruct (U 0%R); reflexivity).
  rewrite EU, E0 in E2. injection E2 as <- <- <-.
  destruct (forward_curve P pw (locs_lt R_ops P pw Hg _ Hsrc) (locs_lt R_ops P pw Hg _ Hrec) V dV F dF U dU visF true 1 nt cbF store UD RD SD ltac:(lia)
     (fun reg p Hi => fvis_in R_ops P pw Hg visF reg p HvF Hi)
     ltac:(intros c ->; exact HcF) HV HF HU E1) as (Uh & Rh & Sh & C1 & C2 & C3).
  exists (fun h => obj (Uh h) (Rh h)), G0, gf, gv. split; [|split].
  - intros h. exists (Uh h), (Rh h), (Sh h). split; [apply C1|reflexivity].
  - exact E3.
  - pose proof (C1 0%R) as C0. rewrite E0 in C0. injection C0 as A1 A2 _.
    pose proof (Hobj Uh Rh _ _ (eq_sym A1) (eq_sym A2) C2 C3) as H.
    eapply derivable_eq; [|exact H]. etransitivity; [exact E4|]. cbn [oadd R_ops].
    f_equal. f_equal. unfold tdot. apply sumf_ext. intros t Ht. apply In_zrange in Ht.
    rewrite lep_drow by (apply (HF t Ht)). reflexivity.
Qed.
End Grad.
