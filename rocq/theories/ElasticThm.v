(** * Elastic propagator: the instance satisfies the laws of [StagCell.v]; gradients (proofs). *)
From Coq Require Import List ZArith QArith Ring Ring_theory Lia Bool Permutation.
From Verif Require Import Ops Sums Grid Stencil DualNum ScalarModel ScalarRefine ScalarAdjoint ScalarApi
  Stag StagAdj StagKernel StagCell StagRefine StagGrad AcousticThm ElasticModel.
Import ListNotations.
Local Open Scope K_scope.

Lemma In_above nd i j : In j (above nd i) <-> (i < j < nd)%nat.
Proof. unfold above. rewrite in_seq. lia. Qed.
Lemma In_pairs nd i j : In (i, j) (pairs nd) <-> (i < j < nd)%nat.
Proof.
  unfold pairs. rewrite in_flat_map. split.
  - intros (k & Hk & H). apply in_map_iff in H. destruct H as (l & E & H). injection E as <- <-.
    apply In_above in H. lia.
  - intros H. exists i. split; [apply in_seq; lia|]. apply in_map_iff. exists j. split; [reflexivity|]. apply In_above. lia.
Qed.
Lemma NoDup_flat_map_i {A B} (f : A -> list B) (l : list A) : NoDup l -> (forall a, In a l -> NoDup (f a)) ->
  (forall a b x, In a l -> In b l -> In x (f a) -> In x (f b) -> a = b) -> NoDup (flat_map f l).
Proof.
  induction 1 as [|a l Ha Hl IH]; intros Hf Hd; cbn; [constructor|]. apply NoDup_app.
  - apply Hf. left. reflexivity.
  - apply IH; [intros b Hb; apply Hf; right; exact Hb|]. intros b c x Hb Hc. apply Hd; right; assumption.
  - intros x Hx Hx'. apply in_flat_map in Hx'. destruct Hx' as (b & Hb & Hx').
    assert (a = b) by (apply (Hd a b x); [left; reflexivity|right; exact Hb|exact Hx|exact Hx']). subst b. contradiction.
Qed.
Lemma NoDup_pairs nd : NoDup (pairs nd).
Proof.
  unfold pairs. apply NoDup_flat_map_i.
  - apply seq_NoDup.
  - intros i _. apply NoDup_map_i; [congruence|apply seq_NoDup].
  - intros a b x _ _ Ha Hb. apply in_map_iff in Ha, Hb. destruct Ha as (j & <- & _), Hb as (k & E & _). congruence.
Qed.

Lemma In_el_allX nd x : In x (el_allX nd) <-> match x with VL d => (d < nd)%nat | Sg i j => (i <= j < nd)%nat end.
Proof.
  unfold el_allX. rewrite !in_app_iff, !in_map_iff. split.
  - intros [(d & <- & H)|[(d & <- & H)|([i j] & <- & H)]]; cbn; [apply in_seq in H; lia|apply in_seq in H; lia|apply In_pairs in H; lia].
  - destruct x as [d|i j]; intros H.
    + left. exists d. split; [reflexivity|apply in_seq; lia].
    + destruct (Nat.eq_dec i j) as [<-|Hn].
      * right. left. exists i. split; [reflexivity|apply in_seq; lia].
      * right. right. exists (i, j). split; [reflexivity|]. apply In_pairs. lia.
Qed.
Lemma In_el_allE nd e : In e (el_allE nd) <-> match e with DS i j => (i < nd /\ j < nd)%nat | DV i j => (i < nd /\ j < nd)%nat end.
Proof.
  unfold el_allE. rewrite !in_app_iff, in_map_iff, !in_flat_map. split.
  - intros [(d & Hd & H)|[(d & <- & H)|([i j] & Hp & H)]].
    + apply in_map_iff in H. destruct H as (j & <- & H). apply in_seq in H, Hd. lia.
    + apply in_seq in H. lia.
    + apply In_pairs in Hp. destruct H as [<-|[<-|[]]]; cbn; lia.
  - destruct e as [i j|i j]; intros H.
    + left. exists i. split; [apply in_seq; lia|]. apply in_map_iff. exists j. split; [reflexivity|apply in_seq; lia].
    + destruct (Nat.eq_dec i j) as [<-|Hn].
      * right. left. exists i. split; [reflexivity|apply in_seq; lia].
      * right. right. destruct (Nat.lt_ge_cases i j).
        -- exists (i, j). split; [apply In_pairs; lia|]. right. left. reflexivity.
        -- exists (j, i). split; [apply In_pairs; lia|]. left. reflexivity.
Qed.
Lemma NoDup_el_allX nd : NoDup (el_allX nd).
Proof.
  unfold el_allX. apply NoDup_app; [apply NoDup_map_i; [congruence|apply seq_NoDup]| |].
  - apply NoDup_app; [apply NoDup_map_i; [congruence|apply seq_NoDup]| |].
    + apply NoDup_map_i; [|apply NoDup_pairs]. intros [a b] [c d] E. cbn in E. congruence.
    + intros x H1 H2. apply in_map_iff in H1, H2. destruct H1 as (a & <- & _), H2 as ([i j] & E & H). apply In_pairs in H.
      cbn in E. injection E as <- ->. lia.
  - intros x H1 H2. apply in_app_iff in H2. rewrite !in_map_iff in H2. apply in_map_iff in H1. destruct H1 as (a & <- & _).
    destruct H2 as [(b & E & _)|(b & E & _)]; discriminate.
Qed.
Lemma NoDup_el_allE nd : NoDup (el_allE nd).
Proof.
  unfold el_allE. apply NoDup_app; [| |].
  - apply NoDup_flat_map_i; [apply seq_NoDup| |].
    + intros d _. apply NoDup_map_i; [congruence|apply seq_NoDup].
    + intros a b x _ _ Ha Hb. apply in_map_iff in Ha, Hb. destruct Ha as (j & <- & _), Hb as (k & E & _). congruence.
  - apply NoDup_app; [apply NoDup_map_i; [congruence|apply seq_NoDup]| |].
    + apply NoDup_flat_map_i; [apply NoDup_pairs| |].
      * intros [i j] H. apply In_pairs in H. cbn. constructor; [|constructor; [intros []|constructor]].
        intros [E|[]]. injection E as E _. lia.
      * intros [i j] [k l] x H1 H2 Hx Hy. apply In_pairs in H1, H2. cbn in Hx, Hy.
        destruct Hx as [<-|[<-|[]]], Hy as [E|[E|[]]]; injection E as E1 E2; subst; [reflexivity|lia|lia|reflexivity].
    + intros x H1 H2. apply in_map_iff in H1. destruct H1 as (a & <- & _). apply in_flat_map in H2.
      destruct H2 as ([i j] & H & E). apply In_pairs in H. cbn in E. destruct E as [E|[E|[]]]; injection E as E1 E2; lia.
  - intros x H1 H2. apply in_flat_map in H1. destruct H1 as (d & _ & H1). apply in_map_iff in H1. destruct H1 as (j & <- & _).
    apply in_app_iff in H2. destruct H2 as [H2|H2].
    + apply in_map_iff in H2. destruct H2 as (a & E & _). discriminate.
    + apply in_flat_map in H2. destruct H2 as (q & _ & [E|[E|[]]]); discriminate.
Qed.

Ltac nbool := repeat match goal with
  | |- context [Nat.eqb ?a ?b] => destruct (Nat.eqb_spec a b); try lia
  | H : context [Nat.eqb ?a ?b] |- _ => destruct (Nat.eqb_spec a b); try lia
  end; cbn in *; try reflexivity; try discriminate; try lia.

Lemma el_sys_ok nd : sys_ok (el_sys nd) nd.
Proof.
  split; intros; cbn [sX sE sC allX allE allC esrcb esrc edim xh eh inc xA eA cin cA el_sys] in *.
  - apply NoDup_el_allX.
  - destruct (eX_dec (el_esrc e) x); split; congruence.
  - apply In_el_allE in H. apply In_el_allX. destruct e as [i j|i j]; cbn; lia.
  - apply In_el_allE in H. destruct e; cbn; lia.
  - destruct e; reflexivity.
  - destruct e as [i j|i j]; cbn; nbool.
  - destruct e as [i j|i j]; cbn in *; nbool.
  - destruct x as [k|k l], e as [i j|i j]; cbn in H1; try discriminate.
    + apply Nat.eqb_eq in H1. subst. split; reflexivity.
    + split; [reflexivity|]. intros d Hd. cbn. nbool.
  - destruct c as [d|], x as [k|k l]; cbn in *; congruence.
Qed.

Lemma el_groups nd A g : In g (kgrp (el_kern nd) A) ->
  if A then exists d, (d < nd)%nat /\ g = el_gV nd d
  else g = el_gN nd \/ exists i j, (i < j < nd)%nat /\ g = el_gS nd (i, j).
Proof.
  destruct A; cbn [kgrp el_kern].
  - intros H. apply in_map_iff in H. destruct H as (d & <- & H). apply in_seq in H. exists d. split; [lia|reflexivity].
  - intros [<-|H]; [left; reflexivity|]. apply in_map_iff in H. destruct H as ([i j] & <- & H). apply In_pairs in H.
    right. exists i, j. split; [exact H|reflexivity].
Qed.

Lemma el_kern_ok nd : (0 < nd)%nat -> kern_ok (el_sys nd) (el_kern nd) nd.
Proof.
  intros Hnd. split.
  - cbn [kgrp el_kern allX el_sys]. rewrite flat_map_app, flat_map_map. cbn [flat_map].
    rewrite flat_map_map. cbn [g_X el_gV el_gN el_gS]. rewrite !flat_map_sing. reflexivity.
  - cbn [kgrp el_kern allE el_sys]. rewrite flat_map_app, flat_map_map. cbn [flat_map].
    rewrite flat_map_map. cbn [g_E el_gV el_gN el_gS]. reflexivity.
  - apply NoDup_el_allE.
  - cbn [kgrp el_kern]. rewrite flat_map_app, flat_map_map. cbn [flat_map]. rewrite flat_map_map. cbn [g_Q el_gV el_gN el_gS].
    rewrite !flat_map_sing. apply NoDup_app; [apply NoDup_map_i; [congruence|apply seq_NoDup]| |].
    + apply NoDup_app; [apply NoDup_map_i; [congruence|apply seq_NoDup]| |].
      * apply NoDup_map_i; [|apply NoDup_pairs]. intros [a b] [c d] E. cbn in E. congruence.
      * intros x H1 H2. apply in_map_iff in H1, H2. destruct H1 as (a & <- & _), H2 as ([i j] & E & H). discriminate.
    + intros x H1 H2. apply in_app_iff in H2. rewrite !in_map_iff in H2. apply in_map_iff in H1. destruct H1 as (a & <- & _).
      destruct H2 as [(b & E & _)|(b & E & _)]; discriminate.
  - cbn [kgrp el_kern]. rewrite flat_map_app, flat_map_map. cbn [flat_map]. rewrite flat_map_map. cbn [g_M el_gV el_gN el_gS].
    rewrite !flat_map_sing. apply NoDup_app; [apply NoDup_map_i; [congruence|apply seq_NoDup]| |].
    + cbn [app]. constructor; [|constructor].
      * intros [E|H]; [discriminate|]. apply in_map_iff in H. destruct H as (a & E & _). discriminate.
      * intros H. apply in_map_iff in H. destruct H as (a & E & _). discriminate.
      * apply NoDup_map_i; [|apply NoDup_pairs]. intros [a b] [c d] E. cbn in E. congruence.
    + intros x H1 H2. apply in_map_iff in H1. destruct H1 as (a & <- & _). cbn [app In] in H2.
      destruct H2 as [E|[E|H]]; [discriminate|discriminate|]. apply in_map_iff in H. destruct H as (b & E & _). discriminate.
  - intros A g Hg. apply el_groups in Hg. destruct A.
    + destruct Hg as (d & _ & ->). discriminate.
    + destruct Hg as [->|(i & j & _ & ->)]; [|discriminate]. cbn [g_X el_gN]. destruct nd; [lia|discriminate].
  - intros A g x Hg Hx. apply el_groups in Hg. destruct A.
    + destruct Hg as (d & _ & ->). destruct Hx as [<-|[]]. split; reflexivity.
    + destruct Hg as [->|(i & j & H & ->)].
      * cbn [g_X el_gN] in Hx. apply in_map_iff in Hx. destruct Hx as (k & <- & _). split; [reflexivity|].
        intros d _. cbn. rewrite Nat.eqb_refl. reflexivity.
      * destruct Hx as [<-|[]]. split; [reflexivity|]. intros d _. cbn. nbool.
  - intros A g e Hg He. apply el_groups in Hg. destruct A.
    + destruct Hg as (d & _ & ->). cbn [g_E el_gV] in He. apply in_map_iff in He. destruct He as (k & <- & _). split; reflexivity.
    + destruct Hg as [->|(i & j & H & ->)].
      * cbn [g_E el_gN] in He. apply in_map_iff in He. destruct He as (k & <- & _). split; [reflexivity|].
        intros d _. cbn. rewrite Nat.eqb_refl. reflexivity.
      * cbn [g_E el_gS fst snd] in He. destruct He as [<-|[<-|[]]]; (split; [reflexivity|]); intros d _; cbn; nbool.
  - intros A g x e Hg Hx He Hi. apply el_groups in Hg. apply In_el_allE in He. destruct A.
    + destruct Hg as (d & _ & ->). destruct Hx as [<-|[]]. destruct e as [i j|i j]; cbn in Hi; [|discriminate].
      apply Nat.eqb_eq in Hi. subst i. cbn [g_E el_gV]. apply in_map_iff. exists j. split; [reflexivity|apply in_seq; lia].
    + destruct Hg as [->|(i & j & H & ->)].
      * cbn [g_X el_gN] in Hx. apply in_map_iff in Hx. destruct Hx as (k & <- & _). destruct e as [i j|i j]; cbn in Hi; [discriminate|].
        rewrite Nat.eqb_refl in Hi. apply Nat.eqb_eq in Hi. subst j. cbn [g_E el_gN]. apply in_map_iff. exists i.
        split; [reflexivity|apply in_seq; lia].
      * destruct Hx as [<-|[]]. destruct e as [k l|k l]; cbn in Hi; [discriminate|]. cbn [g_E el_gS fst snd].
        destruct (Nat.eqb_spec i j); [lia|]. apply orb_true_iff in Hi. rewrite !andb_true_iff, !Nat.eqb_eq in Hi.
        destruct Hi as [[-> ->]|[-> ->]]; [right; left|left]; reflexivity.
  - intros A g x e Hg He Hx Hi. apply el_groups in Hg. apply In_el_allX in Hx. destruct A.
    + destruct Hg as (d & _ & ->). cbn [g_E el_gV] in He. apply in_map_iff in He. destruct He as (k & <- & _).
      destruct x as [i|i j]; cbn in Hi; [|discriminate]. apply Nat.eqb_eq in Hi. subst i. left. reflexivity.
    + destruct Hg as [->|(i & j & H & ->)].
      * cbn [g_E el_gN] in He. apply in_map_iff in He. destruct He as (k & <- & _). destruct x as [i|i j]; cbn in Hi; [discriminate|].
        destruct (Nat.eqb_spec i j) as [<-|]; [|nbool]. cbn [g_X el_gN]. apply in_map_iff. exists i.
        split; [reflexivity|apply in_seq; lia].
      * cbn [g_E el_gS fst snd] in He. destruct x as [k|k l].
        { destruct He as [<-|[<-|[]]]; discriminate Hi. }
        left. cbn [fst snd]. destruct He as [<-|[<-|[]]]; cbn in Hi; nbool; subst; reflexivity.
Qed.

(** Coefficients of the terms. *)
Definition el_kc {K : ops} (dt : K) (md : eM -> arr K) (x : eX) (e : eE) : arr K := fun i =>
  match x, e with
  | VL d, DS _ _ => md (EB d) i * dt
  | Sg k j, DV l _ => if Nat.eqb k j then dt * (md ML i + (if Nat.eqb l k then two * md MMU i else 0)) else dt * md (MS k j) i
  | _, _ => 0
  end.

Section Num.
Variable nd : nat.
Variable K : ops.
Hypothesis Kr : is_ring K.
Add Ring KRing : Kr.
Variable dt : K.
Variable md : eM -> arr K.

Lemma sum_incE x L (f : eE -> K) : NoDup L ->
  (forall e, In e L <-> In e (el_allE nd) /\ el_inc x e = true) -> sumf (incE (el_sys nd) x) f = sumf L f.
Proof.
  intros HL H. apply (sumf_perm K Kr). apply NoDup_Permutation.
  - apply NoDup_filter, NoDup_el_allE.
  - exact HL.
  - intros e. unfold incE. rewrite filter_In. symmetry. apply H.
Qed.
Lemma sum_incX e L (f : eX -> K) : NoDup L ->
  (forall x, In x L <-> In x (el_allX nd) /\ el_inc x e = true) -> sumf (incX (el_sys nd) e) f = sumf L f.
Proof.
  intros HL H. apply (sumf_perm K Kr). apply NoDup_Permutation.
  - apply NoDup_filter, NoDup_el_allX.
  - exact HL.
  - intros x. unfold incX. rewrite filter_In. symmetry. apply H.
Qed.

Lemma incE_V d (f : eE -> K) : (d < nd)%nat -> sumf (incE (el_sys nd) (VL d)) f = sumf (seq 0 nd) (fun j => f (DS d j)).
Proof.
  intros Hd. rewrite (sum_incE _ (map (DS d) (seq 0 nd))).
  - apply (sumf_map K).
  - apply NoDup_map_i; [congruence|apply seq_NoDup].
  - intros e. rewrite in_map_iff, In_el_allE. split.
    + intros (j & <- & H). apply in_seq in H. split; [lia|apply Nat.eqb_refl].
    + destruct e as [i j|i j]; cbn; [|intros [_ H]; discriminate]. intros [H E]. apply Nat.eqb_eq in E. subst i.
      exists j. split; [reflexivity|apply in_seq; lia].
Qed.
Lemma incE_N k (f : eE -> K) : sumf (incE (el_sys nd) (Sg k k)) f = sumf (seq 0 nd) (fun l => f (DV l l)).
Proof.
  rewrite (sum_incE _ (map (fun l => DV l l) (seq 0 nd))).
  - apply (sumf_map K).
  - apply NoDup_map_i; [congruence|apply seq_NoDup].
  - intros e. rewrite in_map_iff, In_el_allE. split.
    + intros (j & <- & H). apply in_seq in H. split; [lia|]. cbn. rewrite !Nat.eqb_refl. reflexivity.
    + destruct e as [i j|i j]; cbn; [intros [_ H]; discriminate|]. rewrite Nat.eqb_refl. intros [H E]. apply Nat.eqb_eq in E. subst i.
      exists j. split; [reflexivity|apply in_seq; lia].
Qed.
Lemma incE_S i j (f : eE -> K) : (i < j < nd)%nat -> sumf (incE (el_sys nd) (Sg i j)) f = f (DV j i) + f (DV i j).
Proof.
  intros H. rewrite (sum_incE _ [DV j i; DV i j]).
  - cbn [sumf]. ring.
  - constructor; [intros [E|[]]; injection E; lia|]. constructor; [intros []|constructor].
  - intros e. rewrite In_el_allE. cbn [In]. split.
    + intros [<-|[<-|[]]]; (split; [lia|]); cbn; nbool.
    + destruct e as [k l|k l]; cbn; [intros [_ E]; discriminate|]. intros [Hb E].
      destruct (Nat.eqb_spec i j); [lia|]. apply orb_true_iff in E. rewrite !andb_true_iff, !Nat.eqb_eq in E.
      destruct E as [[-> ->]|[-> ->]]; auto.
Qed.
Lemma incX_DS d j (f : eX -> K) : (d < nd)%nat -> sumf (incX (el_sys nd) (DS d j)) f = f (VL d).
Proof.
  intros H. rewrite (sum_incX _ [VL d]).
  - cbn [sumf]. ring.
  - constructor; [intros []|constructor].
  - intros x. rewrite In_el_allX. cbn [In]. split.
    + intros [<-|[]]. split; [lia|apply Nat.eqb_refl].
    + destruct x as [k|k l]; cbn; [|intros [_ E]; discriminate]. intros [_ E]. apply Nat.eqb_eq in E. subst; auto.
Qed.
Lemma incX_N k (f : eX -> K) : sumf (incX (el_sys nd) (DV k k)) f = sumf (seq 0 nd) (fun l => f (Sg l l)).
Proof.
  rewrite (sum_incX _ (map (fun l => Sg l l) (seq 0 nd))).
  - apply (sumf_map K).
  - apply NoDup_map_i; [congruence|apply seq_NoDup].
  - intros x. rewrite in_map_iff, In_el_allX. split.
    + intros (j & <- & H). apply in_seq in H. split; [lia|]. cbn. rewrite !Nat.eqb_refl. reflexivity.
    + destruct x as [i|i j]; cbn; [intros [_ H]; discriminate|]. intros [H E].
      destruct (Nat.eqb_spec i j) as [<-|]; [|nbool]. exists i. split; [reflexivity|apply in_seq; lia].
Qed.
Lemma incX_S i j (f : eX -> K) : (i < nd)%nat -> (j < nd)%nat -> i <> j -> sumf (incX (el_sys nd) (DV i j)) f = f (sg i j).
Proof.
  intros Hi Hj Hn. rewrite (sum_incX _ [sg i j]).
  - cbn [sumf]. ring.
  - constructor; [intros []|constructor].
  - intros x. rewrite In_el_allX. cbn [In]. unfold sg. split.
    + intros [<-|[]]. split; [lia|]. cbn. nbool.
    + destruct x as [k|k l]; cbn; [intros [_ E]; discriminate|]. intros [Hb E]. left.
      destruct (Nat.eqb_spec k l); [destruct (Nat.eqb_spec i j); [lia|discriminate]|]. apply orb_true_iff in E. rewrite !andb_true_iff, !Nat.eqb_eq in E.
      f_equal; lia.
Qed.

Lemma fold_sum {A} (h : A -> K) l z : fold_left (fun s a => s + h a) l z = z + sumf l h.
Proof. revert z. induction l as [|a l IH]; intros z; cbn [fold_left sumf]; [ring|]. rewrite IH. ring. Qed.

Lemma el_lsum_eq k Y i c : el_lsum nd K md k Y i c =
  sumf (seq 0 nd) (fun l => c * (md ML i + (if Nat.eqb k l then two * md MMU i else 0)) * Y (Sg l l)).
Proof.
  unfold el_lsum. rewrite fold_sum.
  rewrite (sumf_ext K (seq 0 nd) _ (fun l => c * (md ML i + (if Nat.eqb k l then two * md MMU i else 0)) * Y (Sg l l))); [ring|].
  intros l _. rewrite Nat.eqb_sym. destruct (Nat.eqb_spec k l) as [<-|]; unfold two; ring.
Qed.

Lemma el_num_ok : num_ok (el_sys nd) (el_kern nd) K (el_num nd K dt md) (el_kc dt md).
Proof.
  assert (LN : forall e Y i, In e (el_allE nd) -> n_tb (el_num nd K dt md) e Y i = sumf (incX (el_sys nd) e) (fun x => el_kc dt md x e i * Y x)).
  { intros e Y i He. apply In_el_allE in He. cbn [n_tb el_num]. destruct e as [d j|k j]; cbn [el_ntb].
    - rewrite incX_DS by lia. cbn [el_kc]. ring.
    - destruct (Nat.eqb_spec k j) as [<-|Hn].
      + rewrite incX_N, el_lsum_eq, <- (sumf_scal K Kr). apply (sumf_ext K). intros l _. cbn [el_kc]. rewrite Nat.eqb_refl. ring.
      + rewrite incX_S by lia. unfold sg, ms. cbn [el_kc]. destruct (Nat.eqb_spec (Nat.min k j) (Nat.max k j)); [lia|]. ring. }
  split.
  - intros A g x T i Hg Hx. apply el_groups in Hg. cbn [n_inc el_num]. destruct A.
    + destruct Hg as (d & Hd & ->). destruct Hx as [<-|[]]. rewrite incE_V by exact Hd. cbn [el_ninc el_kc]. unfold el_wsum.
      rewrite fold_sum, (sumf_scal K Kr). ring.
    + destruct Hg as [->|(k & j & H & ->)].
      * cbn [g_X el_gN] in Hx. apply in_map_iff in Hx. destruct Hx as (k & <- & Hk). apply in_seq in Hk.
        rewrite incE_N. cbn [el_ninc el_kc]. rewrite Nat.eqb_refl, fold_sum.
        rewrite (sumf_ext K (seq 0 nd) (fun l => dt * (md ML i + (if Nat.eqb l k then two * md MMU i else 0)) * T (DV l l))
          (fun l => dt * (md ML i * T (DV l l)) + (if Nat.eqb l k then dt * (two * md MMU i * T (DV l l)) else 0))).
        -- rewrite (sumf_add K Kr).
           rewrite (sumf_single K Kr (seq 0 nd) k (fun l => if Nat.eqb l k then dt * (two * md MMU i * T (DV l l)) else 0)).
           ++ rewrite Nat.eqb_refl. rewrite !(sumf_scal K Kr). ring.
           ++ apply seq_NoDup.
           ++ apply in_seq. lia.
           ++ intros l _ Hl. destruct (Nat.eqb_spec l k); [contradiction|reflexivity].
        -- intros l _. destruct (Nat.eqb_spec l k); ring.
      * destruct Hx as [<-|[]]. cbn [fst snd]. rewrite incE_S by exact H. cbn [el_ninc el_kc]. destruct (Nat.eqb_spec k j); [lia|]. ring.
  - intros A g q T T' Hg Hq E. apply el_groups in Hg. cbn [n_sto el_num]. destruct A.
    + destruct Hg as (d & Hd & ->). destruct Hq as [<-|[]]. cbn [el_nsto]. unfold el_wsum. rewrite !fold_sum. f_equal. f_equal.
      apply (sumf_ext K). intros j Hj. apply E. cbn [g_E el_gV]. apply in_map. exact Hj.
    + destruct Hg as [->|(k & j & H & ->)].
      * cbn [g_Q el_gN] in Hq. apply in_map_iff in Hq. destruct Hq as (k & <- & Hk). cbn [el_nsto]. f_equal. apply E.
        cbn [g_E el_gN]. apply in_map_iff. exists k. auto.
      * destruct Hq as [<-|[]]. cbn [el_nsto fst snd]. rewrite !E by (cbn; auto). reflexivity.
  - exact LN.
  - intros e b m Y i He. rewrite (LN e Y i He), <- (LN e Y i He). cbn [n_tbp n_tb el_num].
    destruct e as [d j|k j]; cbn [el_ntb el_ntbp]; [ring|]. destruct (Nat.eqb k j); ring.
  - intros e a m Y i He. cbn [n_mem n_tb el_num]. destruct e as [d j|k j]; cbn [el_ntb el_nmem]; [ring|].
    destruct (Nat.eqb k j); [|ring]. rewrite !el_lsum_eq.
    rewrite (sumf_ext K (seq 0 nd) (fun l => dt * a * _ * _) (fun l => dt * a * (1 * (md ML i + (if Nat.eqb k l then two * md MMU i else 0)) * Y (Sg l l))))
      by (intros; ring).
    rewrite (sumf_scal K Kr). ring.
  - intros A g k Y Y' Q Q' r Hg Hk EY EQ. apply el_groups in Hg. cbn [n_gm el_num]. destruct A.
    + destruct Hg as (d & Hd & ->). destruct Hk as [<-|[]]. cbn [el_ngm]. rewrite EY, EQ by (left; reflexivity). reflexivity.
    + destruct Hg as [->|(i & j & H & ->)].
      * assert (EY' : forall l, In l (seq 0 nd) -> Y (Sg l l) = Y' (Sg l l)).
        { intros l Hl. apply EY. cbn [g_X el_gN]. apply in_map_iff. exists l. auto. }
        assert (EQ' : forall l, In l (seq 0 nd) -> Q (QD l) = Q' (QD l)).
        { intros l Hl. apply EQ. cbn [g_Q el_gN]. apply in_map. exact Hl. }
        destruct Hk as [<-|[<-|[]]]; cbn [el_ngm]; rewrite !fold_sum.
        -- rewrite (sumf_ext K (seq 0 nd) _ _ EY'), (sumf_ext K (seq 0 nd) _ _ EQ'). reflexivity.
        -- rewrite (sumf_ext K (seq 0 nd) (fun l => Y (Sg l l) * Q (QD l)) (fun l => Y' (Sg l l) * Q' (QD l))); [reflexivity|].
           intros l Hl. rewrite EY', EQ' by exact Hl. reflexivity.
      * destruct Hk as [<-|[]]. cbn [el_ngm fst snd]. rewrite EY, EQ by (left; reflexivity). reflexivity.
Qed.
End Num.

(** ** What the caller of [ElasticForwardFunc] sees. *)
Section User.
Variable nd : nat.
Variable K : ops.
Variable P : spar (el_sys nd) K.
Notation shape := (sp_shape P).
Notation fd := (fd_pad (sp_acc P)).
(** Returned wavefields: cells [fd .. n - fd] of every dimension. *)
Definition epdot (a b : field K) : K := sumf (box_pts (map (fun n => (fd, n - (fd - 1))%Z) shape)) (fun p => a p * b p).
(** Velocities, normal and shear stresses, memory variables. *)
Definition el_udot (a b : sst (el_sys nd) K) : K :=
  sumf (el_allX nd) (fun x => epdot (mn a x) (mn b x)) + sumf (el_allE nd) (fun e => epdot (me a e) (me b e)).
(** Amplitudes of all kinds over the time steps. *)
Definition el_rdot (nt : Z) (a b : Z -> eC -> list K) : K :=
  sumf (zrange 0 nt) (fun t => sumf (el_allC nd) (fun c => ldot (a t c) (b t c))).
(** Models: all cells of the padded arrays. *)
Definition el_allM : list eM := [ML; MMU] ++ map (fun q => MS (fst q) (snd q)) (pairs nd) ++ map EB (seq 0 nd).
Definition el_mdot (a b : eM -> arr K) : K := sumf el_allM (fun k => adot (prodZ shape) (a k) (b k)).
End User.

Section Grad.
Variable nd : nat.
Variable K : ops.
Hypothesis Kr : is_ring K.
Add Ring KRing2 : Kr.
Variable P : spar (el_sys nd) K.
Variable pw : nat -> Z * Z.
Notation S := (el_sys nd).
Notation N := (el_kern nd).
Notation dK := (dual K).
Notation DP := (dspar P).
Hypothesis Hnd : length (sp_shape P) = nd.
Hypothesis Hpos : (0 < nd)%nat.
Hypothesis Hsrc : locs_ok S K P (sp_src P).
Hypothesis Hrec : locs_ok S K P (sp_rec P).
Hypothesis Hgeo : sgeom S K P pw.

Lemma udots_el a b : udots S K P a b = el_udot nd K P a b.
Proof.
  unfold udots, el_udot, dot, epdot. f_equal; apply (sumf_ext K); intros; apply (sumf_cpts S K Kr P).
Qed.
Lemma mdot_el a b : mdot S N K P a b = el_mdot nd K P a b.
Proof.
  unfold mdot, el_mdot, allM, el_allM. cbn [kgrp el_kern]. rewrite flat_map_app, flat_map_map. cbn [flat_map]. rewrite flat_map_map.
  cbn [g_M el_gV el_gN el_gS]. rewrite !flat_map_sing.
  rewrite (sumf_ext K _ (fun k => adot _ _ _) _ (fun k _ => adot_spts S K Kr P pw Hgeo _ _)).
  rewrite !(sumf_app K Kr). change (kM (el_kern nd)) with eM. ring.
Qed.

Definition el_fvis (A : bool) vis : Prop := Permutation (svisits S N K P (fpml_b S K P pw) (fpml_e S K P pw) A) vis.
Definition el_bvis (A : bool) vis : Prop := Permutation (svisits S N K P (bpml_b S K P pw) (bpml_e S K P pw) A) vis.

Lemma elastic_duality (dt : K) (mdD : eM -> arr dK) (fD : krec S dK) (u : sst S dK) (g : sst S K) (gr : krec S K)
    sr nt visDA visDB visFA visFB visBA visBB cbD cbF cbB lgD mgD bgD lg mg bg store0D store0 :
  sroom S K P pw -> oq K (inject_Z 1) = 1 ->
  (forall k i, el_fm lg mg bg k = false -> snd (mdD k i) = 0) ->
  el_fvis true visDA -> el_fvis false visDB -> el_fvis true visFA -> el_fvis false visFB ->
  el_bvis true visBA -> el_bvis false visBB ->
  nt_ok nt sr cbD -> nt_ok nt sr cbF -> nt_ok nt sr cbB ->
  exists uD rD stD uK rK stK g' gf gm,
    elastic_forward nd dK DP pw (dconst dt) mdD visDA visDB lgD mgD bgD sr fD nt cbD store0D u = Some (uD, rD, stD) /\
    elastic_forward nd K P pw dt (fun k => are (mdD k)) visFA visFB lg mg bg sr (fun t c => lre (fD t c)) nt cbF store0 (ssre u)
      = Some (uK, rK, stK) /\
    elastic_backward nd K P pw dt (fun k => are (mdD k)) visBA visBB lg mg bg sr gr nt cbB stK g = Some (g', gf, gm) /\
    sseq S K uK (ssre uD) /\ (forall t c, In c (allC S) -> rK t c = lre (rD t c)) /\
    (sr = 1%Z \/ (forall k i, snd (mdD k i) = 0) ->
     el_udot nd K P g (ssep uD) + el_rdot nd K nt gr (fun t c => lep (rD t c))
     = el_udot nd K P g' (ssep u) + el_rdot nd K nt gf (fun t c => lep (fD t c))
       + el_mdot nd K P gm (fun k => aep (mdD k))).
Proof.
  intros Hroom H1 Hfl VDA VDB VFA VFB VBA VBB ND NF NB.
  assert (Sok : sys_ok S (length (sp_shape P))) by (rewrite Hnd; apply el_sys_ok).
  assert (Hk : kern_ok S N (length (sp_shape P))) by (rewrite Hnd; apply el_kern_ok, Hpos).
  set (kcD := el_kc (K := dK) (dconst dt) mdD).
  assert (HuD : num_ok S N dK (el_num nd dK (dconst dt) mdD) kcD) by (apply el_num_ok, dual_is_ring, Kr).
  assert (Hu : num_ok S N K (el_num nd K dt (fun k => are (mdD k))) (fun x e i => fst (kcD x e i))).
  { assert (G : forall x e i, fst (kcD x e i) = el_kc dt (fun k => are (mdD k)) x e i).
    { intros [d|k j] [a b|a b] i; try reflexivity. unfold kcD. cbn [el_kc].
      destruct (Nat.eqb k j); [|reflexivity]. destruct (Nat.eqb a k); reflexivity. }
    destruct (el_num_ok nd K Kr dt (fun k => are (mdD k))) as [A1 A2 A3 A4 A5 A6]. split; auto.
    - intros A g0 x T i Hg Hx. rewrite (A1 A g0 x T i Hg Hx). apply (sumf_ext K). intros e _. rewrite G. reflexivity.
    - intros e Y i He. rewrite (A3 e Y i He). apply (sumf_ext K). intros x _. rewrite G. reflexivity. }
  destruct (stag_duality S N K Kr P (el_num nd K dt (fun k => are (mdD k))) (el_num nd dK (dconst dt) mdD) kcD pw
     Sok Hk Hu HuD Hsrc Hrec Hgeo Hroom fD u g gr sr nt visDA visDB visFA visFB visBA visBB cbD cbF cbB
     (el_fq lgD mgD bgD) (el_fq lg mg bg) (el_fm lg mg bg) store0D store0 (fun k => aep (mdD k)))
     as (uD & rD & stD & uK & rK & stK & g' & gf & gm & E1 & E2 & E3 & E4 & E5 & E6); auto.
  - unfold ofZ. rewrite H1. intros A h Y T i Hh. apply el_groups in Hh. destruct A.
    + destruct Hh as (d & Hd & ->). cbn [g_X g_M el_gV sumf]. rewrite (incE_V nd K Kr) by exact Hd.
      cbn [n_gm n_sto el_num el_ngm el_nsto]. unfold el_wsum. rewrite (fold_sum K Kr).
      rewrite (sumf_ext K (seq 0 nd) _ (fun j => (Y (VL d) * dt * snd (mdD (EB d) i)) * T (DS d j))).
      * rewrite (sumf_scal K Kr). unfold aep. ring.
      * intros j _. unfold kcD. cbn. ring.
    + destruct Hh as [->|(a & b & Hab & ->)].
      * cbn [g_X g_M el_gN]. cbn [sumf]. rewrite (sumf_map K). cbn [n_gm n_sto el_num el_ngm el_nsto]. rewrite !(fold_sum K Kr).
        set (L := snd (mdD ML i)). set (M := snd (mdD MMU i)).
        rewrite (sumf_ext K (seq 0 nd) (fun k => sumf (incE S (Sg k k)) _)
          (fun k => Y (Sg k k) * (dt * L * sumf (seq 0 nd) (fun l => T (DV l l))) + dt * two * M * (Y (Sg k k) * T (DV k k)))).
        -- rewrite (sumf_add K Kr), (sumf_scal K Kr), (sumf_scal_r K Kr).
           rewrite (sumf_ext K (seq 0 nd) (fun a => Y (Sg a a) * (dt * T (DV a a))) (fun a => dt * (Y (Sg a a) * T (DV a a)))) by (intros; ring).
           rewrite !(sumf_scal K Kr). unfold aep. fold L M. change (sE (el_sys nd)) with eE. change (sX (el_sys nd)) with eX. ring.
        -- intros k Hk0. apply in_seq in Hk0. rewrite (incE_N nd K Kr).
           rewrite (sumf_ext K (seq 0 nd) _ (fun l => Y (Sg k k) * (dt * L) * T (DV l l) + (if Nat.eqb l k then dt * two * M * (Y (Sg k k) * T (DV k k)) else 0))).
           ++ rewrite (sumf_add K Kr), (sumf_scal K Kr).
              rewrite (sumf_single K Kr (seq 0 nd) k (fun l => if Nat.eqb l k then _ else 0)).
              ** rewrite Nat.eqb_refl. ring.
              ** apply seq_NoDup.
              ** apply in_seq. lia.
              ** intros l _ Hl. destruct (Nat.eqb_spec l k); [contradiction|reflexivity].
           ++ intros l _. unfold kcD. cbn [el_kc]. rewrite Nat.eqb_refl. destruct (Nat.eqb_spec l k) as [->|]; cbn; unfold L, M, two; cbn; ring.
      * cbn [g_X g_M el_gS sumf fst snd]. rewrite (incE_S nd K Kr) by exact Hab. cbn [n_gm n_sto el_num el_ngm el_nsto].
        unfold kcD. cbn [el_kc]. destruct (Nat.eqb_spec a b); [lia|]. unfold aep. cbn. ring.
  - intros A h k q Hh Hk0 Hf Hq. apply el_groups in Hh. destruct A.
    + destruct Hh as (d & Hd & ->). destruct Hk0 as [<-|[]]. destruct Hq as [<-|[]]. exact Hf.
    + destruct Hh as [->|(a & b & Hab & ->)].
      * cbn [g_Q el_gN] in Hq. apply in_map_iff in Hq. destruct Hq as (l & <- & _). cbn.
        destruct Hk0 as [<-|[<-|[]]]; cbn in Hf; rewrite Hf; [reflexivity|apply orb_true_r].
      * destruct Hk0 as [<-|[]]. destruct Hq as [<-|[]]. exact Hf.
  - intros k i _ Hf. exact (Hfl k i Hf).
  - exists uD, rD, stD, uK, rK, stK, g', gf, gm. repeat (split; [assumption|]).
    intros Hsr. rewrite <- !udots_el, <- mdot_el. apply E6.
    destruct Hsr as [Hsr|Hsr]; [left; exact Hsr|right]. intros; apply Hsr.
Qed.
End Grad.

Section GradUser.
Variable nd : nat.
Variable K : ops.
Hypothesis Kr : is_ring K.
Add Ring KRingGU : Kr.
Variable P : spar (el_sys nd) K.
Variable pw : nat -> Z * Z.

Lemma elastic_gradient_exact :
  length (sp_shape P) = nd -> (0 < nd)%nat -> locs_ok (el_sys nd) K P (sp_src P) -> locs_ok (el_sys nd) K P (sp_rec P) ->
  sgeom (el_sys nd) K P pw -> sroom (el_sys nd) K P pw -> oq K (inject_Z 1) = 1 ->
  forall (dt : K) (mdD : eM -> arr (dual K)) (fD : krec (el_sys nd) (dual K)) (u : sst (el_sys nd) (dual K))
    (g : sst (el_sys nd) K) (gr : krec (el_sys nd) K)
    nt visDA visDB visFA visFB visBA visBB cbD cbF cbB lgD mgD bgD lg mg bg store0D store0,
  (lg = false -> forall i, snd (mdD ML i) = 0) ->
  (mg = false -> forall i, snd (mdD MMU i) = 0 /\ forall a b, snd (mdD (MS a b) i) = 0) ->
  (bg = false -> forall d i, snd (mdD (EB d) i) = 0) ->
  el_fvis nd K P pw true visDA -> el_fvis nd K P pw false visDB -> el_fvis nd K P pw true visFA -> el_fvis nd K P pw false visFB ->
  el_bvis nd K P pw true visBA -> el_bvis nd K P pw false visBB ->
  nt_ok nt 1 cbD -> nt_ok nt 1 cbF -> nt_ok nt 1 cbB ->
  exists uD rD stD uK rK stK g' gf gm,
    elastic_forward nd (dual K) (dspar P) pw (dconst dt) mdD visDA visDB lgD mgD bgD 1 fD nt cbD store0D u = Some (uD, rD, stD) /\
    elastic_forward nd K P pw dt (fun k => are (mdD k)) visFA visFB lg mg bg 1 (fun t c => lre (fD t c)) nt cbF store0 (ssre u)
      = Some (uK, rK, stK) /\
    elastic_backward nd K P pw dt (fun k => are (mdD k)) visBA visBB lg mg bg 1 gr nt cbB stK g = Some (g', gf, gm) /\
    sseq (el_sys nd) K uK (ssre uD) /\ (forall t c, In c (el_allC nd) -> rK t c = lre (rD t c)) /\
    el_udot nd K P g (ssep uD) + el_rdot nd K nt gr (fun t c => lep (rD t c))
    = el_udot nd K P g' (ssep u) + el_rdot nd K nt gf (fun t c => lep (fD t c))
      + el_mdot nd K P gm (fun k => aep (mdD k)).
Proof.
  intros Hnd Hpos Hsrc Hrec Hgeo Hroom H1 dt mdD fD u g gr nt visDA visDB visFA visFB visBA visBB cbD cbF cbB lgD mgD bgD lg mg bg store0D store0
    Hl Hm Hb VDA VDB VFA VFB VBA VBB ND NF NB.
  destruct (elastic_duality nd K Kr P pw Hnd Hpos Hsrc Hrec Hgeo dt mdD fD u g gr 1 nt visDA visDB visFA visFB visBA visBB cbD cbF cbB
     lgD mgD bgD lg mg bg store0D store0) as (uD & rD & stD & uK & rK & stK & g' & gf & gm & E1 & E2 & E3 & E4 & E5 & E6); auto.
  - intros [| |a b|d] i Hf; cbn in Hf; [apply Hl|apply Hm|apply Hm|apply Hb]; exact Hf.
  - exists uD, rD, stD, uK, rK, stK, g', gf, gm. do 5 (split; [assumption|]). apply E6. left. reflexivity.
Qed.

Lemma elastic_linear_gradient :
  length (sp_shape P) = nd -> (0 < nd)%nat -> locs_ok (el_sys nd) K P (sp_src P) -> locs_ok (el_sys nd) K P (sp_rec P) ->
  sgeom (el_sys nd) K P pw -> sroom (el_sys nd) K P pw -> oq K (inject_Z 1) = 1 ->
  forall (dt : K) (md : eM -> arr K) (fD : krec (el_sys nd) (dual K)) (u : sst (el_sys nd) (dual K))
    (g : sst (el_sys nd) K) (gr : krec (el_sys nd) K)
    sr nt visDA visDB visFA visFB visBA visBB cbD cbF cbB lgD mgD bgD lg mg bg store0D store0,
  el_fvis nd K P pw true visDA -> el_fvis nd K P pw false visDB -> el_fvis nd K P pw true visFA -> el_fvis nd K P pw false visFB ->
  el_bvis nd K P pw true visBA -> el_bvis nd K P pw false visBB ->
  nt_ok nt sr cbD -> nt_ok nt sr cbF -> nt_ok nt sr cbB ->
  exists uD rD stD uK rK stK g' gf gm,
    elastic_forward nd (dual K) (dspar P) pw (dconst dt) (fun k i => dconst (md k i)) visDA visDB lgD mgD bgD sr fD nt cbD store0D u
      = Some (uD, rD, stD) /\
    elastic_forward nd K P pw dt md visFA visFB lg mg bg sr (fun t c => lre (fD t c)) nt cbF store0 (ssre u) = Some (uK, rK, stK) /\
    elastic_backward nd K P pw dt md visBA visBB lg mg bg sr gr nt cbB stK g = Some (g', gf, gm) /\
    el_udot nd K P g (ssep uD) + el_rdot nd K nt gr (fun t c => lep (rD t c))
    = el_udot nd K P g' (ssep u) + el_rdot nd K nt gf (fun t c => lep (fD t c)).
Proof.
  intros Hnd Hpos Hsrc Hrec Hgeo Hroom H1 dt md fD u g gr sr nt visDA visDB visFA visFB visBA visBB cbD cbF cbB lgD mgD bgD lg mg bg store0D store0
    VDA VDB VFA VFB VBA VBB ND NF NB.
  destruct (elastic_duality nd K Kr P pw Hnd Hpos Hsrc Hrec Hgeo dt (fun k i => dconst (md k i)) fD u g gr sr nt visDA visDB visFA visFB visBA visBB
     cbD cbF cbB lgD mgD bgD lg mg bg store0D store0) as (uD & rD & stD & uK & rK & stK & g' & gf & gm & E1 & E2 & E3 & E4 & E5 & E6); auto.
  exists uD, rD, stD, uK, rK, stK, g', gf, gm. split; [exact E1|]. split; [exact E2|]. split; [exact E3|].
  rewrite E6 by (right; reflexivity).
  assert (Z : el_mdot nd K P gm (fun k => aep (fun i => dconst (md k i))) = 0).
  { unfold el_mdot. apply (sumf_zero K Kr). intros k _. unfold adot. apply (sumf_zero K Kr). intros. unfold aep, dconst. cbn. ring. }
  rewrite Z. ring.
Qed.
End GradUser.
