(** * Numbers: operations without laws, ring laws, dual numbers.

    The numeric part of deepwave computes with floating point tensors.  The model is
    polymorphic in a record of operations [ops]; no rounding is modelled.  Theorems
    assume [is_ring]. *)
From Coq Require Import List ZArith QArith Qcanon Ring Ring_theory Lia.
Import ListNotations.

(** Operations used by the kernels.  [oq] injects the rational literals that appear as
    stencil coefficients (e.g. [(DW_DTYPE)(8.0 / 12.0)], regular_grid.h:24) and small
    integer constants such as the [2] of [2 * wfc_t[i]] (scalar.c:392). *)
Record ops := mkops {
  car :> Type;
  o0 : car; o1 : car;
  oadd : car -> car -> car;
  omul : car -> car -> car;
  osub : car -> car -> car;
  oopp : car -> car;
  oq : Q -> car
}.

Notation is_ring K :=
  (ring_theory (o0 K) (o1 K) (oadd K) (omul K) (osub K) (oopp K) (@eq (car K))).

Declare Scope K_scope.
Delimit Scope K_scope with K.
Notation "x + y" := (oadd _ x y) : K_scope.
Notation "x * y" := (omul _ x y) : K_scope.
Notation "x - y" := (osub _ x y) : K_scope.
Notation "- x" := (oopp _ x) : K_scope.
Notation "0" := (o0 _) : K_scope.
Notation "1" := (o1 _) : K_scope.

(** The constant 2 in the kernels. *)
Definition two (K : ops) : K := oadd K (o1 K) (o1 K).
Arguments two {K}.

(** ** Instances *)

Definition Qc_ops : ops :=
  mkops Qc (Q2Qc 0) (Q2Qc 1) Qcplus Qcmult Qcminus Qcopp (fun q => Q2Qc q).

Lemma Qc_is_ring : is_ring Qc_ops.
Proof. exact Qcrt. Qed.

(** ** Dual numbers [x + eps y], [eps^2 = 0] *)

Section Dual.
Variable K : ops.
Local Open Scope K_scope.

Definition dual : ops := {|
  car := (K * K)%type;
  o0 := (0, 0);
  o1 := (1, 0);
  oadd := fun x y => (fst x + fst y, snd x + snd y);
  omul := fun x y => (fst x * fst y, fst x * snd y + snd x * fst y);
  osub := fun x y => (fst x - fst y, snd x - snd y);
  oopp := fun x => (- fst x, - snd x);
  oq := fun q => (oq K q, 0)
|}.

Hypothesis Kr : is_ring K.
Add Ring KRing : Kr.

Lemma dual_is_ring : is_ring dual.
Proof.
  split; cbn; intros;
    repeat match goal with x : (_ * _)%type |- _ => destruct x end; cbn;
    f_equal; ring.
Qed.

End Dual.

(** Embedding of a constant. *)
Definition dconst {K : ops} (x : K) : dual K := (x, o0 K).
