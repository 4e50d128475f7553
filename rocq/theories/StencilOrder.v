(** * Polynomials and the order of the finite difference stencils. *)
From Coq Require Import List ZArith QArith Qcanon Reals Qreals Ring Ring_theory Lia.
From Verif Require Import Ops Sums Grid Stencil.
Import ListNotations.
Local Open Scope K_scope.

(** The literals [oq q] behave like rational numbers. *)
Notation is_qalg K :=
  (ring_morph (o0 K) (o1 K) (oadd K) (omul K) (osub K) (oopp K) (@eq (car K))
              0%Q 1%Q Qplus Qmult Qminus Qopp Qeq_bool (oq K)).

Lemma Qc_is_qalg : is_qalg Qc_ops.
Proof.
  split; intros; try reflexivity.
  all: apply Qc_is_canon; cbn -[Qred Qplus Qmult Qopp Qminus]; rewrite ?Qred_correct;
    try reflexivity; try (apply Qeq_bool_eq; assumption).
  all: unfold Qcopp, Q2Qc, Qminus; cbn -[Qred Qplus Qmult Qopp]; rewrite ?Qred_correct; try reflexivity.
Qed.

(** Real numbers. *)
Definition R_ops : ops := mkops R 0%R 1%R Rplus Rmult Rminus Ropp Q2R.

Lemma R_is_ring : is_ring R_ops.
Proof. split; cbn; intros; ring. Qed.

Lemma R_is_qalg : is_qalg R_ops.
Proof.
  split; cbn; intros.
  - apply RMicromega.Q2R_0.
  - apply RMicromega.Q2R_1.
  - apply Q2R_plus.
  - apply Q2R_minus.
  - apply Q2R_mult.
  - apply Q2R_opp.
  - apply Qeq_eqR, Qeq_bool_eq; assumption.
Qed.

Ltac qcst t :=
  match t with
  | oq _ ?q => match isQcst q with true => q | _ => constr:(InitialRing.NotConstant) end
  | _ => constr:(InitialRing.NotConstant)
  end.

Section Order.
Variable K : ops.

(** [c0 + c1 x + c2 x^2 + ...] *)
Fixpoint peval (cs : list K) (x : K) : K :=
  match cs with [] => 0 | c :: r => c + x * peval r x end.

(** Formal derivative: the coefficients [c1, 2 c2, 3 c3, ...]. *)
Fixpoint pder_from (n : Z) (cs : list K) : list K :=
  match cs with [] => [] | c :: r => oq K (inject_Z n) * c :: pder_from (n + 1)%Z r end.

Definition pder (cs : list K) : list K :=
  match cs with [] => [] | _ :: r => pder_from 1%Z r end.

(** Samples of a polynomial at the grid points [x0 + k h]. *)
Definition samples (cs : list K) (x0 h : K) (k : Z) : K :=
  peval cs (x0 + oq K (inject_Z k) * h).

Hypothesis Kr : is_ring K.
Hypothesis Kq : is_qalg K.
Add Ring KRingQ : Kr (morphism Kq, constants [qcst]).

Ltac lits :=
  repeat match goal with
         | |- context [oq K ?q] =>
             let q' := eval vm_compute in q in
             progress change (oq K q) with (oq K q')
         end.
Ltac pol := cbn; lits; ring.

Lemma order1 a h rd x0 cs :
  h * rd = 1 -> (Z.of_nat (length cs) <= acc_Z a + 1)%Z ->
  DIFF1 a rd (samples cs x0 h) = peval (pder cs) x0.
Proof.
  intros Hh L. unfold DIFF1.
  assert (E : st_odd (coef1 a) 1 (samples cs x0 h) = h * peval (pder cs) x0).
  2:{ rewrite E. transitivity (peval (pder cs) x0 * (h * rd)); [ring|rewrite Hh; ring]. }
  clear Hh rd. unfold samples.
  destruct a; cbn [acc_Z] in L; cbn.
  all: do 10 (destruct cs; [pol | cbn [length] in L; try lia]).
Qed.

Lemma order2 a h rd2 x0 cs :
  h * h * rd2 = 1 -> (Z.of_nat (length cs) <= acc_Z a + 2)%Z ->
  DIFF2 a rd2 (samples cs x0 h) = peval (pder (pder cs)) x0.
Proof.
  intros Hh L. unfold DIFF2.
  assert (E : oq K (coef2c a) * samples cs x0 h 0 + st_even (coef2 a) 1 (samples cs x0 h)
              = h * h * peval (pder (pder cs)) x0).
  2:{ rewrite E. transitivity (peval (pder (pder cs)) x0 * (h * h * rd2)); [ring|rewrite Hh; ring]. }
  clear Hh rd2. unfold samples.
  destruct a; cbn [acc_Z] in L; cbn.
  all: do 11 (destruct cs; [pol | cbn [length] in L; try lia]).
Qed.

Lemma order_int a h rd x0 cs :
  h * rd = 1 -> (Z.of_nat (length cs) <= acc_Z a + 1)%Z ->
  SDIFF1 a rd (samples cs x0 h) = peval (pder cs) (x0 - oq K (1#2) * h).
Proof.
  intros Hh L. unfold SDIFF1. set (y := x0 - oq K (1#2) * h).
  assert (E : st_int (coefs a) 1 (samples cs x0 h) = h * peval (pder cs) y).
  2:{ rewrite E. transitivity (peval (pder cs) y * (h * rd)); [ring|rewrite Hh; ring]. }
  assert (Ex : x0 = y + oq K (1#2) * h) by (unfold y; ring).
  clearbody y. subst x0.
  clear Hh rd. unfold samples.
  destruct a; cbn [acc_Z] in L; cbn.
  all: do 10 (destruct cs; [pol | cbn [length] in L; try lia]).
Qed.

Lemma order_half a h rd x0 cs :
  h * rd = 1 -> (Z.of_nat (length cs) <= acc_Z a + 1)%Z ->
  SDIFFH1 a rd (samples cs x0 h) = peval (pder cs) (x0 + oq K (1#2) * h).
Proof.
  intros Hh L. unfold SDIFFH1. set (y := x0 + oq K (1#2) * h).
  assert (E : st_half (coefs a) 1 (samples cs x0 h) = h * peval (pder cs) y).
  2:{ rewrite E. transitivity (peval (pder cs) y * (h * rd)); [ring|rewrite Hh; ring]. }
  assert (Ex : x0 = y - oq K (1#2) * h) by (unfold y; ring).
  clearbody y. subst x0.
  clear Hh rd. unfold samples.
  destruct a; cbn [acc_Z] in L; cbn.
  all: do 10 (destruct cs; [pol | cbn [length] in L; try lia]).
Qed.
End Order.
Arguments peval {K}. Arguments pder {K}. Arguments samples {K}.

(** The orders are not higher: monomials of the next relevant degree, unit spacing. *)
Definition mono (n : Z) : list Qc_ops := repeat (Q2Qc 0) (Z.to_nat n) ++ [Q2Qc 1].

Lemma order_sharp a :
  DIFF1 (K:=Qc_ops) a (Q2Qc 1) (samples (mono (acc_Z a + 1)) (Q2Qc 0) (Q2Qc 1))
    <> peval (pder (mono (acc_Z a + 1))) (Q2Qc 0) /\
  DIFF2 (K:=Qc_ops) a (Q2Qc 1) (samples (mono (acc_Z a + 2)) (Q2Qc 0) (Q2Qc 1))
    <> peval (pder (pder (mono (acc_Z a + 2)))) (Q2Qc 0) /\
  SDIFF1 (K:=Qc_ops) a (Q2Qc 1) (samples (mono (acc_Z a + 1)) (Q2Qc (1#2)) (Q2Qc 1))
    <> peval (pder (mono (acc_Z a + 1))) (Q2Qc 0) /\
  SDIFFH1 (K:=Qc_ops) a (Q2Qc 1) (samples (mono (acc_Z a + 1)) (Q2Qc (-1#2)) (Q2Qc 1))
    <> peval (pder (mono (acc_Z a + 1))) (Q2Qc 0).
Proof.
  repeat split; intros E; apply (f_equal this) in E; destruct a; vm_compute in E; discriminate.
Qed.
