(** * Finite sums over lists, in any ring of operations. *)
From Coq Require Import List ZArith QArith Ring Ring_theory Permutation Lia.
From Verif Require Import Ops.
Import ListNotations.
Local Open Scope K_scope.

(** [sumf l f] = sum of [f x] over the elements of [l]. *)
Fixpoint sumf {K : ops} {A : Type} (l : list A) (f : A -> K) : K :=
  match l with [] => 0 | x :: l' => f x + sumf l' f end.

Section Sums.
Variable K : ops.
Hypothesis Kr : is_ring K.
Add Ring KRing : Kr.

Lemma sumf_ext {A} (l : list A) (f g : A -> K) :
  (forall x, In x l -> f x = g x) -> sumf l f = sumf l g.
Proof.
  induction l as [|x l IH]; cbn; intros H; [reflexivity|].
  rewrite (H x) by auto. rewrite IH; auto.
Qed.

Lemma sumf_add {A} (l : list A) (f g : A -> K) :
  sumf l (fun x => f x + g x) = sumf l f + sumf l g.
Proof. induction l as [|x l IH]; cbn in *; [ring|]. rewrite IH. ring. Qed.

Lemma sumf_sub {A} (l : list A) (f g : A -> K) :
  sumf l (fun x => f x - g x) = sumf l f - sumf l g.
Proof. induction l as [|x l IH]; cbn in *; [ring|]. rewrite IH. ring. Qed.

Lemma sumf_opp {A} (l : list A) (f : A -> K) :
  sumf l (fun x => - f x) = - sumf l f.
Proof. induction l as [|x l IH]; cbn in *; [ring|]. rewrite IH. ring. Qed.

Lemma sumf_scal {A} (l : list A) (c : K) (f : A -> K) :
  sumf l (fun x => c * f x) = c * sumf l f.
Proof. induction l as [|x l IH]; cbn in *; [ring|]. rewrite IH. ring. Qed.

Lemma sumf_scal_r {A} (l : list A) (c : K) (f : A -> K) :
  sumf l (fun x => f x * c) = sumf l f * c.
Proof. induction l as [|x l IH]; cbn in *; [ring|]. rewrite IH. ring. Qed.

Lemma sumf_zero {A} (l : list A) (f : A -> K) :
  (forall x, In x l -> f x = 0) -> sumf l f = 0.
Proof.
  induction l as [|x l IH]; cbn; intros H; [reflexivity|].
  rewrite H by auto. rewrite IH by auto. ring.
Qed.

Lemma sumf_app {A} (l1 l2 : list A) (f : A -> K) :
  sumf (l1 ++ l2) f = sumf l1 f + sumf l2 f.
Proof. induction l1 as [|x l IH]; cbn in *; [ring|]. rewrite IH. ring. Qed.

Lemma sumf_map {A B} (g : A -> B) (l : list A) (f : B -> K) :
  sumf (map g l) f = sumf l (fun x => f (g x)).
Proof. induction l as [|x l IH]; cbn in *; [reflexivity|]. rewrite IH. reflexivity. Qed.

Lemma sumf_perm {A} (l1 l2 : list A) (f : A -> K) :
  Permutation l1 l2 -> sumf l1 f = sumf l2 f.
Proof.
  induction 1 as [|x l l' _ IH|x y l|l1 l2 l3 _ IH1 _ IH2]; cbn in *.
  - reflexivity.
  - rewrite IH. reflexivity.
  - ring.
  - congruence.
Qed.

Lemma sumf_swap {A B} (l : list A) (m : list B) (f : A -> B -> K) :
  sumf l (fun x => sumf m (f x)) = sumf m (fun y => sumf l (fun x => f x y)).
Proof.
  induction l as [|x l IH]; cbn in *.
  - symmetry. apply sumf_zero. reflexivity.
  - rewrite IH, <- sumf_add. apply sumf_ext. reflexivity.
Qed.

Lemma sumf_filter {A} (P : A -> bool) (l : list A) (f : A -> K) :
  (forall x, In x l -> P x = false -> f x = 0) ->
  sumf l f = sumf (filter P l) f.
Proof.
  induction l as [|x l IH]; cbn; intros H; [reflexivity|].
  rewrite IH by auto.
  destruct (P x) eqn:E; cbn; [reflexivity|].
  rewrite (H x) by auto. ring.
Qed.

(** Exactly one non-zero term. *)
Lemma sumf_single {A} (l : list A) (a : A) (f : A -> K) :
  NoDup l -> In a l -> (forall x, In x l -> x <> a -> f x = 0) -> sumf l f = f a.
Proof.
  intros Hnd Hin Hz. induction l as [|x l IH]; [contradiction|].
  inversion Hnd as [|? ? Hx Hnd']; subst. cbn.
  destruct Hin as [->|Hin].
  - rewrite sumf_zero; [ring|]. intros y Hy. apply Hz; [right; exact Hy|].
    intros ->. contradiction.
  - rewrite IH; auto.
    + rewrite Hz; [ring|left; reflexivity|]. intros ->. contradiction.
    + intros y Hy. apply Hz. right; exact Hy.
Qed.

(** Two lists without duplicates and with the same relevant elements. *)
Lemma NoDup_map_inj {A B} (g : A -> B) (l : list A) :
  (forall x y, In x l -> In y l -> g x = g y -> x = y) -> NoDup l -> NoDup (map g l).
Proof.
  induction l as [|x l IH]; cbn; intros Hi Hn; constructor; inversion Hn; subst.
  - intros Hin. apply in_map_iff in Hin. destruct Hin as (y & E & Hy).
    assert (x = y) by (apply Hi; auto). subst. contradiction.
  - apply IH; auto.
Qed.

(** Change of variables by a bijection [s]/[s'] for functions supported in [l]. *)
Lemma sumf_shift {A} (eqd : forall x y : A, {x = y} + {x <> y})
  (s s' : A -> A) (l : list A) (f g : A -> K) :
  (forall x, s' (s x) = x) -> (forall x, s (s' x) = x) -> NoDup l ->
  (forall x, ~ In x l -> f x = 0) -> (forall x, ~ In x l -> g x = 0) ->
  sumf l (fun x => f x * g (s x)) = sumf l (fun x => f (s' x) * g x).
Proof.
  intros H1 H2 Hnd Hf Hg.
  set (P := fun x => if in_dec eqd (s x) l then true else false).
  set (P' := fun x => if in_dec eqd (s' x) l then true else false).
  rewrite (sumf_filter P).
  2:{ intros x _ E. unfold P in E. destruct (in_dec eqd (s x) l); [discriminate|].
      rewrite (Hg (s x)) by assumption. ring. }
  rewrite (sumf_filter P' l (fun x => f (s' x) * g x)).
  2:{ intros x _ E. unfold P' in E. destruct (in_dec eqd (s' x) l); [discriminate|].
      rewrite (Hf (s' x)) by assumption. ring. }
  transitivity (sumf (map s (filter P l)) (fun x => f (s' x) * g x)).
  - rewrite sumf_map. apply sumf_ext. intros x _. rewrite H1. reflexivity.
  - apply sumf_perm. apply NoDup_Permutation.
    + apply NoDup_map_inj.
      * intros x y _ _ E. rewrite <- (H1 x), <- (H1 y), E. reflexivity.
      * apply NoDup_filter. exact Hnd.
    + apply NoDup_filter. exact Hnd.
    + intros x. rewrite in_map_iff, filter_In. unfold P'.
      split.
      * intros (y & <- & Hy). apply filter_In in Hy. destruct Hy as [Hy Hp].
        unfold P in Hp. destruct (in_dec eqd (s y) l); [|discriminate].
        split; [assumption|]. rewrite H1. destruct (in_dec eqd y l); [reflexivity|contradiction].
      * intros [Hx Hp]. exists (s' x). split; [apply H2|]. apply filter_In.
        destruct (in_dec eqd (s' x) l); [|discriminate]. split; [assumption|].
        unfold P. rewrite H2. destruct (in_dec eqd x l); [reflexivity|contradiction].
Qed.

End Sums.
