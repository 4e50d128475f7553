(** * Projections of dual-number computations. *)
From Coq Require Import List ZArith QArith Ring Ring_theory Lia Bool.
From Verif Require Import Ops Sums Grid Stencil.
Import ListNotations.
Local Open Scope K_scope.

Section DualNum.
Variable K : ops.
Hypothesis Kr : is_ring K.
Add Ring KRing : Kr.

Lemma dual_eq (x y : dual K) : fst x = fst y -> snd x = snd y -> x = y.
Proof. destruct x, y; cbn; congruence. Qed.

Lemma fst_sumf {A} (l : list A) (f : A -> dual K) : fst (sumf l f) = sumf l (fun x => fst (f x)).
Proof. induction l as [|x l IH]; cbn; [reflexivity|]. rewrite IH. reflexivity. Qed.
Lemma snd_sumf {A} (l : list A) (f : A -> dual K) : snd (sumf l f) = sumf l (fun x => snd (f x)).
Proof. induction l as [|x l IH]; cbn; [reflexivity|]. rewrite IH. reflexivity. Qed.

Lemma fst_st_odd cs k (g : Z -> dual K) : fst (st_odd cs k g) = st_odd cs k (fun j => fst (g j)).
Proof. revert k; induction cs as [|c cs IH]; intros k; cbn; [reflexivity|]. rewrite IH. reflexivity. Qed.
Lemma snd_st_odd cs k (g : Z -> dual K) : snd (st_odd cs k g) = st_odd cs k (fun j => snd (g j)).
Proof. revert k; induction cs as [|c cs IH]; intros k; cbn; [reflexivity|]. rewrite IH. ring. Qed.
Lemma fst_st_even cs k (g : Z -> dual K) : fst (st_even cs k g) = st_even cs k (fun j => fst (g j)).
Proof. revert k; induction cs as [|c cs IH]; intros k; cbn; [reflexivity|]. rewrite IH. reflexivity. Qed.
Lemma snd_st_even cs k (g : Z -> dual K) : snd (st_even cs k g) = st_even cs k (fun j => snd (g j)).
Proof. revert k; induction cs as [|c cs IH]; intros k; cbn; [reflexivity|]. rewrite IH. ring. Qed.
Lemma fst_st_int cs k (g : Z -> dual K) : fst (st_int cs k g) = st_int cs k (fun j => fst (g j)).
Proof. revert k; induction cs as [|c cs IH]; intros k; cbn; [reflexivity|]. rewrite IH. reflexivity. Qed.
Lemma snd_st_int cs k (g : Z -> dual K) : snd (st_int cs k g) = st_int cs k (fun j => snd (g j)).
Proof. revert k; induction cs as [|c cs IH]; intros k; cbn; [reflexivity|]. rewrite IH. ring. Qed.
Lemma fst_st_half cs k (g : Z -> dual K) : fst (st_half cs k g) = st_half cs k (fun j => fst (g j)).
Proof. revert k; induction cs as [|c cs IH]; intros k; cbn; [reflexivity|]. rewrite IH. reflexivity. Qed.
Lemma snd_st_half cs k (g : Z -> dual K) : snd (st_half cs k g) = st_half cs k (fun j => snd (g j)).
Proof. revert k; induction cs as [|c cs IH]; intros k; cbn; [reflexivity|]. rewrite IH. ring. Qed.

Variable rd : K.
Notation drd := (dconst rd).

Lemma fst_DIFF1 a (g : Z -> dual K) : fst (DIFF1 a drd g) = DIFF1 a rd (fun j => fst (g j)).
Proof. unfold DIFF1. cbn. rewrite fst_st_odd. reflexivity. Qed.
Lemma snd_DIFF1 a (g : Z -> dual K) : snd (DIFF1 a drd g) = DIFF1 a rd (fun j => snd (g j)).
Proof. unfold DIFF1. cbn. rewrite snd_st_odd. ring. Qed.
Lemma fst_DIFF2 a (g : Z -> dual K) : fst (DIFF2 a drd g) = DIFF2 a rd (fun j => fst (g j)).
Proof. unfold DIFF2. cbn. rewrite fst_st_even. reflexivity. Qed.
Lemma snd_DIFF2 a (g : Z -> dual K) : snd (DIFF2 a drd g) = DIFF2 a rd (fun j => snd (g j)).
Proof. unfold DIFF2. cbn. rewrite snd_st_even. ring. Qed.
Lemma fst_SDIFF1 a (g : Z -> dual K) : fst (SDIFF1 a drd g) = SDIFF1 a rd (fun j => fst (g j)).
Proof. unfold SDIFF1. cbn. rewrite fst_st_int. reflexivity. Qed.
Lemma snd_SDIFF1 a (g : Z -> dual K) : snd (SDIFF1 a drd g) = SDIFF1 a rd (fun j => snd (g j)).
Proof. unfold SDIFF1. cbn. rewrite snd_st_int. ring. Qed.
Lemma fst_SDIFFH1 a (g : Z -> dual K) : fst (SDIFFH1 a drd g) = SDIFFH1 a rd (fun j => fst (g j)).
Proof. unfold SDIFFH1. cbn. rewrite fst_st_half. reflexivity. Qed.
Lemma snd_SDIFFH1 a (g : Z -> dual K) : snd (SDIFFH1 a drd g) = SDIFFH1 a rd (fun j => snd (g j)).
Proof. unfold SDIFFH1. cbn. rewrite snd_st_half. ring. Qed.

End DualNum.
