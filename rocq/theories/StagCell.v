(** * Regions and cells of the staggered kernels (proofs). *)
From Coq Require Import List ZArith QArith Ring Ring_theory Lia Bool Permutation.
From Verif Require Import Ops Sums Grid Stencil DualNum ScalarModel ScalarRefine ScalarAdjoint Loop Stag StagAdj StagKernel.
Import ListNotations.
Local Open Scope K_scope.

(** Well-formed kernels. *)
Record kern_ok (S : sys) (N : kern S) (nd : nat) : Prop := {
  ko_X : Permutation (allX S) (flat_map g_X (kgrp N true ++ kgrp N false));
  ko_E : Permutation (allE S) (flat_map g_E (kgrp N true ++ kgrp N false));
  ko_NE : NoDup (allE S);
  ko_Q : NoDup (flat_map g_Q (kgrp N true ++ kgrp N false));
  ko_M : NoDup (flat_map g_M (kgrp N true ++ kgrp N false));
  ko_ne : forall A g, In g (kgrp N A) -> g_X g <> [];
  ko_Xg : forall A g x, In g (kgrp N A) -> In x (g_X g) -> xA S x = A /\ forall d, (d < nd)%nat -> g_h g d = xh S x d;
  ko_Eg : forall A g e, In g (kgrp N A) -> In e (g_E g) -> eA S e = A /\ forall d, (d < nd)%nat -> g_h g d = eh S e d;
  ko_inc : forall A g x e, In g (kgrp N A) -> In x (g_X g) -> In e (allE S) -> inc S x e = true -> In e (g_E g);
  ko_incX : forall A g x e, In g (kgrp N A) -> In e (g_E g) -> In x (allX S) -> inc S x e = true -> In x (g_X g)
}.

(** Expressions of a kernel with coefficients [kc]. *)
Record num_ok (S : sys) (N : kern S) (K : ops) (U : knum S N K) (kc : sX S -> sE S -> arr K) : Prop := {
  no_inc : forall A g x T i, In g (kgrp N A) -> In x (g_X g) ->
    n_inc U x T i = sumf (incE S x) (fun e => kc x e i * T e);
  no_sto : forall A g q T T', In g (kgrp N A) -> In q (g_Q g) ->
    (forall e, In e (g_E g) -> T e = T' e) -> n_sto U q T = n_sto U q T';
  no_tb : forall e Y i, In e (allE S) -> n_tb U e Y i = sumf (incX S e) (fun x => kc x e i * Y x);
  no_tbp : forall e b m Y i, In e (allE S) -> n_tbp U e b m Y i = b * m + (1 + b) * n_tb U e Y i;
  no_mem : forall e a m Y i, In e (allE S) -> n_mem U e a m Y i = a * (m + n_tb U e Y i);
  no_gm : forall A g k Y Y' Q Q' r, In g (kgrp N A) -> In k (g_M g) ->
    (forall x, In x (g_X g) -> Y x = Y' x) -> (forall q, In q (g_Q g) -> Q q = Q' q) ->
    n_gm U k Y Q r = n_gm U k Y' Q' r
}.

Lemma NoDup_flat_map_inv {A B} (f : A -> list B) l a :
  NoDup (flat_map f l) -> In a l -> NoDup (f a).
Proof.
  induction l as [|x l IH]; cbn; intros H Hin; [contradiction|]. apply NoDup_app_iff in H || idtac.
  destruct Hin as [->|Hin].
  - clear IH. induction (f a) as [|y ys IH]; [constructor|]. cbn in H. inversion H; subst. constructor; auto.
    intros Hy. apply H2. apply in_or_app. left. exact Hy.
  - apply IH; [|exact Hin]. clear IH Hin. induction (f x) as [|y ys IH]; [exact H|]. cbn in H. inversion H; subst. auto.
Qed.
Lemma NoDup_flat_map_unique {A B} (f : A -> list B) l a b y :
  NoDup (flat_map f l) -> In a l -> In b l -> In y (f a) -> In y (f b) -> a = b.
Proof.
  induction l as [|x l IH]; cbn; intros H Ha Hb Hya Hyb; [contradiction|].
  assert (D : forall z, In z (f x) -> In z (flat_map f l) -> False).
  { clear - H. intros z H1 H2. induction (f x) as [|w ws IHw]; [contradiction|]. cbn in H. inversion H; subst.
    destruct H1 as [->|H1]; [|auto]. apply H4. apply in_or_app. right. exact H2. }
  assert (H' : NoDup (flat_map f l)).
  { clear - H. induction (f x) as [|w ws IHw]; [exact H|]. cbn in H. inversion H; subst. auto. }
  destruct Ha as [->|Ha], Hb as [->|Hb]; auto.
  - exfalso. apply (D y Hya), in_flat_map. exists b. auto.
  - exfalso. apply (D y Hyb), in_flat_map. exists a. auto.
Qed.
Lemma NoDup_of_flat_map {A B} (f : A -> list B) l :
  NoDup (flat_map f l) -> (forall a, In a l -> f a <> []) -> NoDup l.
Proof.
  induction l as [|x l IH]; cbn; intros H Hne; [constructor|].
  assert (H' : NoDup (flat_map f l)).
  { clear - H. induction (f x) as [|w ws IHw]; [exact H|]. cbn in H. inversion H; subst. auto. }
  constructor; [|apply IH; auto].
  intros Hin. destruct (f x) as [|y ys] eqn:E; [apply (Hne x); auto|].
  cbn in H. inversion H; subst. apply H2. apply in_or_app. right. apply in_flat_map. exists x.
  rewrite E. split; [exact Hin|left; reflexivity].
Qed.

(** ** Regions *)
Section Reg.
Variable S : sys.
Variable N : kern S.
Variable K : ops.
Variable P : spar S K.
Notation shape := (sp_shape P).
Notation fd := (fd_pad (sp_acc P)).
Notation nd := (length shape).
Notation n_ d := (nth d shape 0%Z).
Variables b e : nat -> Z.
Hypothesis Hbe : forall d, (d < nd)%nat -> (fd <= b d <= e d /\ e d <= n_ d - fd + 1 /\ b d <= n_ d - fd)%Z.

Lemma In_sregions r : In r (sregions S K P) <-> length r = nd /\ forall d, (d < nd)%nat -> (0 <= nth d r 0 < 3)%Z.
Proof.
  unfold sregions. rewrite In_box_pts, inb_spec, repeat_length.
  split; intros [H1 H2]; (split; [exact H1|]); intros d Hd; specialize (H2 d Hd); unfold coord in *.
  - rewrite nth_repeat_eq in H2 || idtac.
    rewrite (nth_indep _ _ (0, 3)%Z) in H2 by (rewrite repeat_length; exact Hd). rewrite nth_repeat in H2. exact H2.
  - rewrite (nth_indep _ _ (0, 3)%Z) by (rewrite repeat_length; exact Hd). rewrite nth_repeat. exact H2.
Qed.

Lemma In_sreg_box h r p :
  inb (sreg_box S K P h b e r) p = true <->
  length p = nd /\ forall d, (d < nd)%nat ->
    (fst (sreg_bounds S K P (h d) (b d) (e d) (n_ d) (nth d r 0%Z)) <= coord d p
     < snd (sreg_bounds S K P (h d) (b d) (e d) (n_ d) (nth d r 0%Z)))%Z.
Proof.
  rewrite inb_spec. unfold sreg_box. rewrite map_length, seq_length.
  set (F := fun d => sreg_bounds S K P (h d) (b d) (e d) (n_ d) (nth d r 0%Z)).
  assert (E : forall d, (d < nd)%nat -> nth d (map F (seq 0 nd)) (0, 0)%Z = F d).
  { intros d Hd. rewrite (nth_indep _ (0, 0)%Z (F 0%nat)) by (rewrite map_length, seq_length; exact Hd).
    rewrite map_nth, seq_nth by exact Hd. reflexivity. }
  split; intros [H1 H2]; (split; [exact H1|]); intros d Hd; specialize (H2 d Hd); rewrite E in * by exact Hd; exact H2.
Qed.

Lemma reg_unique h r r' p : In r (sregions S K P) -> In r' (sregions S K P) ->
  inb (sreg_box S K P h b e r) p = true -> inb (sreg_box S K P h b e r') p = true -> r = r'.
Proof.
  rewrite !In_sregions, !In_sreg_box. intros [L1 R1] [L2 R2] [_ B1] [_ B2].
  apply (nth_ext r r' 0%Z 0%Z); [congruence|]. rewrite L1. intros d Hd.
  specialize (R1 d Hd). specialize (R2 d Hd). specialize (B1 d Hd). specialize (B2 d Hd). specialize (Hbe d Hd).
  unfold sreg_bounds in B1, B2.
  destruct (Z.eqb_spec (nth d r 0%Z) 0), (Z.eqb_spec (nth d r 0%Z) 1), (Z.eqb_spec (nth d r' 0%Z) 0),
    (Z.eqb_spec (nth d r' 0%Z) 1); destruct (h d); cbn [fst snd] in *; lia.
Qed.

Lemma reg_dom h r p : In r (sregions S K P) -> inb (sreg_box S K P h b e r) p = true -> dom S K P h p = true.
Proof.
  rewrite In_sregions, In_sreg_box, dom_spec. intros [L1 R1] [L B1]. split; [exact L|]. intros d Hd.
  specialize (R1 d Hd). specialize (B1 d Hd). specialize (Hbe d Hd). unfold sreg_bounds in B1.
  destruct (Z.eqb_spec (nth d r 0%Z) 0), (Z.eqb_spec (nth d r 0%Z) 1); destruct (h d); cbn [fst snd] in *; lia.
Qed.

Lemma reg_cover h p : dom S K P h p = true -> exists r, In r (sregions S K P) /\ inb (sreg_box S K P h b e r) p = true.
Proof.
  rewrite dom_spec. intros [L D].
  set (F := fun d => if (coord d p <? b d)%Z then 0%Z
                     else if (coord d p <? (if h d then Z.max (b d) (e d - 1) else e d))%Z then 1%Z else 2%Z).
  exists (map F (seq 0 nd)).
  assert (E : forall d, (d < nd)%nat -> nth d (map F (seq 0 nd)) 0%Z = F d).
  { intros d Hd. rewrite (nth_indep _ 0%Z (F 0%nat)) by (rewrite map_length, seq_length; exact Hd).
    rewrite map_nth, seq_nth by exact Hd. reflexivity. }
  rewrite In_sregions, In_sreg_box, map_length, seq_length. split; (split; [auto|]); intros d Hd; rewrite E by exact Hd; unfold F.
  - destruct (coord d p <? b d)%Z; [lia|]. destruct (coord d p <? _)%Z; lia.
  - specialize (D d Hd). specialize (Hbe d Hd). unfold sreg_bounds.
    destruct (Z.ltb_spec (coord d p) (b d)); cbn [Z.eqb fst snd].
    + destruct (h d); cbn; lia.
    + destruct (h d); destruct (Z.ltb_spec (coord d p) (Z.max (b d) (e d - 1))); destruct (Z.ltb_spec (coord d p) (e d));
        cbn; lia.
Qed.

(** Coordinates of region 1. *)
Lemma reg_one h r p d : inb (sreg_box S K P h b e r) p = true -> (d < nd)%nat -> reg_at r d = 1%Z ->
  (b d <= coord d p < (if h d then Z.max (b d) (e d - 1) else e d))%Z.
Proof.
  rewrite In_sreg_box. intros [_ B] Hd E. specialize (B d Hd). unfold sreg_bounds, reg_at in *. rewrite E in B.
  destruct (h d); exact B.
Qed.

Lemma In_svisits A g r p :
  In (g, (r, p)) (svisits S N K P b e A) <->
  In g (kgrp N A) /\ In r (sregions S K P) /\ inb (sreg_box S K P (g_h g) b e r) p = true.
Proof.
  unfold svisits. rewrite in_flat_map. split.
  - intros (r' & Hr & H). apply in_flat_map in H. destruct H as (g' & Hg & H). apply in_map_iff in H.
    destruct H as (p' & E & Hp). injection E as -> -> ->. rewrite In_box_pts in Hp. auto.
  - intros (Hg & Hr & Hp). exists r. split; [exact Hr|]. apply in_flat_map. exists g. split; [exact Hg|].
    apply in_map_iff. exists p. split; [reflexivity|]. apply In_box_pts, Hp.
Qed.

Lemma NoDup_svisits A : kern_ok S N nd -> NoDup (allX S) -> NoDup (svisits S N K P b e A).
Proof.
  intros Hk HX. unfold svisits. apply NoDup_flat_map.
  - apply NoDup_box_pts.
  - intros r Hr. apply NoDup_flat_map.
    + apply (NoDup_of_flat_map g_X); [|intros; apply (ko_ne S N nd Hk A); assumption].
      pose proof (Permutation_NoDup (ko_X S N nd Hk) HX) as H. rewrite flat_map_app in H.
      destruct A.
      * revert H. generalize (flat_map g_X (kgrp N false)). intros l H.
        induction (flat_map g_X (kgrp N true)) as [|y ys IH]; [constructor|]. cbn in H. inversion H; subst.
        constructor; auto. intros Hy. apply H2, in_or_app. left. exact Hy.
      * induction (flat_map g_X (kgrp N true)) as [|y ys IH]; [exact H|]. cbn in H. inversion H; subst. auto.
    + intros g Hg. apply FinFun.Injective_map_NoDup; [|apply NoDup_box_pts]. intros p q E. congruence.
    + intros g g' c _ _ H1 H2. apply in_map_iff in H1. apply in_map_iff in H2.
      destruct H1 as (p & <- & _), H2 as (p' & E & _). congruence.
  - intros r r' c _ _ H1 H2. apply in_flat_map in H1. apply in_flat_map in H2.
    destruct H1 as (g & _ & H1), H2 as (g' & _ & H2). apply in_map_iff in H1. apply in_map_iff in H2.
    destruct H1 as (p & <- & _), H2 as (p' & E & _). congruence.
Qed.

End Reg.

(** ** Cells *)
Section Cell.
Variable S : sys.
Variable N : kern S.
Variable K : ops.
Variable P : spar S K.
Variable U : knum S N K.
Variable kc : sX S -> sE S -> arr K.
Notation shape := (sp_shape P).
Notation nd := (length shape).
Notation kvar := (svar (sX S) (sE S) (kQ N) (kM N)).
Notation kmem := (kmem S N K).
Notation setm := (setm S N K).
Hypothesis Sok : sys_ok S nd.
Hypothesis Hk : kern_ok S N nd.
Hypothesis Hu : num_ok S N K U kc.

Lemma setm_same (m : kmem) v i y : setm m v i y v i = y.
Proof. unfold StagKernel.setm. destruct (kvar_dec S N v v); [|congruence]. rewrite Z.eqb_refl. reflexivity. Qed.
Lemma setm_other (m : kmem) v i y w j : w <> v \/ j <> i -> setm m v i y w j = m w j.
Proof.
  unfold StagKernel.setm. intros H. destruct (kvar_dec S N w v); [|reflexivity].
  destruct (Z.eqb_spec j i); [|reflexivity]. destruct H; contradiction.
Qed.
Lemma seta_same (m : kmem) v a : seta S N K m v a v = a.
Proof. unfold seta. destruct (kvar_dec S N v v); [reflexivity|congruence]. Qed.
Lemma seta_other (m : kmem) v a w : w <> v -> seta S N K m v a w = m w.
Proof. unfold seta. intros H. destruct (kvar_dec S N w v); [contradiction|reflexivity]. Qed.

Section FoldSet.
Variables (A : Type) (F : A -> kvar) (val : kmem -> A -> K) (gd : A -> bool) (i : Z).
Notation stp := (fun (m : kmem) a => if gd a then setm m (F a) i (val m a) else m).
Lemma fold_set_frame l m w j : (forall a, In a l -> w <> F a) \/ j <> i -> fold_left stp l m w j = m w j.
Proof.
  revert m. induction l as [|a l IH]; intros m H; cbn; [reflexivity|].
  rewrite IH by (destruct H as [H|H]; [left; intros; apply H; right; assumption|right; exact H]).
  destruct (gd a); [|reflexivity]. apply setm_other.
  destruct H as [H|H]; [left; apply H; left; reflexivity|right; exact H].
Qed.
Lemma fold_set_val l m a : NoDup l -> (forall b c, In b l -> In c l -> F b = F c -> b = c) ->
  (forall m m' b, In b l -> (forall w j, (forall c, In c l -> w <> F c) \/ w = F b -> m w j = m' w j) -> val m b = val m' b) ->
  In a l -> fold_left stp l m (F a) i = if gd a then val m a else m (F a) i.
Proof.
  revert m. induction l as [|b l IH]; intros m Hn Hi Hv Hin; [contradiction|]. cbn. inversion Hn; subst.
  destruct Hin as [->|Hin].
  - rewrite fold_set_frame.
    + destruct (gd a); [apply setm_same|reflexivity].
    + left. intros c Hc E. apply Hi in E; [subst; contradiction|left; reflexivity|right; exact Hc].
  - assert (Nb : forall c, In c l -> F c <> F b).
    { intros c Hc E. apply Hi in E; [subst; contradiction|right; exact Hc|left; reflexivity]. }
    rewrite IH; [| assumption | intros; apply Hi; auto; right; assumption | | exact Hin].
    + assert (E : (if gd b then setm m (F b) i (val m b) else m) (F a) i = m (F a) i).
      { destruct (gd b); [|reflexivity]. apply setm_other. left. apply Nb, Hin. }
      rewrite E. destruct (gd a); [|reflexivity].
      apply (Hv _ _ a (or_intror Hin)). intros w j Hw. destruct (gd b); [|reflexivity]. apply setm_other. left.
      destruct Hw as [Hw| ->]; [apply Hw; left; reflexivity|apply Nb, Hin].
    + intros m1 m2 c Hc Hm. apply Hv; [right; exact Hc|]. intros w j [Hw|Hw]; apply Hm; [left|right]; auto.
      intros c' Hc'. apply Hw. right. exact Hc'.
Qed.
End FoldSet.

(** Forward terms of a cell. *)
Definition fder (m : kmem) (p : pt) (e : sE S) : K :=
  kdiff S K P (eh S e (edim S e)) (edim S e)
    (fun k => m (VX (esrc S e)) (idx shape p + k * stride shape (edim S e))%Z).
Definition fnm (m : kmem) (p : pt) (e : sE S) : K :=
  eb S K P e p * fder m p e + ea S K P e p * m (VM e) (idx shape p).
Definition fterm (m : kmem) (reg : list Z) (p : pt) (e : sE S) : K :=
  if (reg_at reg (edim S e) =? 1)%Z then fder m p e else fder m p e + fnm m p e.
Definition fmem (m : kmem) (reg : list Z) (p : pt) (e : sE S) : K :=
  if (reg_at reg (edim S e) =? 1)%Z then m (VM e) (idx shape p) else fnm m p e.

Lemma f_terms reg p l T m : NoDup l ->
  (forall e, In e l -> fst (fold_left (f_term S N K P reg p) l (T, m)) e = fterm m reg p e) /\
  (forall e, ~ In e l -> fst (fold_left (f_term S N K P reg p) l (T, m)) e = T e) /\
  (forall e, In e l -> snd (fold_left (f_term S N K P reg p) l (T, m)) (VM e) (idx shape p) = fmem m reg p e) /\
  (forall w j, (forall e, In e l -> w <> VM e) \/ j <> idx shape p ->
     snd (fold_left (f_term S N K P reg p) l (T, m)) w j = m w j).
Proof.
  revert T m. induction l as [|e l IH]; intros T m Hn; cbn [fold_left].
  - repeat split; try contradiction; reflexivity.
  - inversion Hn; subst.
    set (T1 := fun e' => if kE_dec N e' e then fterm m reg p e else T e').
    set (m1 := if (reg_at reg (edim S e) =? 1)%Z then m else setm m (VM e) (idx shape p) (fnm m p e)).
    assert (E1 : f_term S N K P reg p (T, m) e = (T1, m1)).
    { unfold f_term, T1, m1, fterm. destruct (reg_at reg (edim S e) =? 1)%Z; reflexivity. }
    rewrite E1.
    assert (F1 : forall w j, w <> VM e \/ j <> idx shape p -> m1 w j = m w j).
    { intros w j H. unfold m1. destruct (reg_at reg (edim S e) =? 1)%Z; [reflexivity|]. apply setm_other, H. }
    assert (D1 : forall e', fder m1 p e' = fder m p e').
    { intros e'. unfold fder, kdiff. destruct (eh S e' (edim S e'));
        [apply SDIFFH1_ext|apply SDIFF1_ext]; intros; apply F1; left; discriminate. }
    assert (M1 : forall e', e' <> e -> m1 (VM e') (idx shape p) = m (VM e') (idx shape p)).
    { intros e' H. apply F1. left. congruence. }
    destruct (IH T1 m1 H2) as (I1 & I2 & I3 & I4).
    assert (Ne : forall e', In e' l -> e' <> e) by (intros e' H ->; contradiction).
    assert (NM : forall e', In e' l -> fnm m1 p e' = fnm m p e').
    { intros e' H. unfold fnm. rewrite D1, M1 by auto. reflexivity. }
    repeat split.
    + intros e' [<-|H].
      * rewrite I2 by assumption. unfold T1. destruct (kE_dec N e e); [reflexivity|congruence].
      * rewrite I1 by exact H. unfold fterm. rewrite D1, NM by exact H. reflexivity.
    + intros e' H. rewrite I2 by (intros H'; apply H; right; exact H'). unfold T1.
      destruct (kE_dec N e' e) as [->|]; [|reflexivity]. exfalso. apply H. left. reflexivity.
    + intros e' [<-|H].
      * rewrite I4 by (left; intros e' H'; specialize (Ne e' H'); congruence).
        unfold m1, fmem. destruct (reg_at reg (edim S e) =? 1)%Z; [reflexivity|apply setm_same].
      * rewrite I3 by exact H. unfold fmem. rewrite NM, M1 by auto. reflexivity.
    + intros w j H. rewrite I4 by (destruct H; [left; intros; apply H; right; assumption|right; assumption]).
      apply F1. destruct H; [left; apply H; left; reflexivity|right; assumption].
Qed.

Lemma grp_NoDup_X A g : In g (kgrp N A) -> NoDup (g_X g).
Proof.
  intros H. apply (NoDup_flat_map_inv g_X (kgrp N true ++ kgrp N false)).
  - apply (Permutation_NoDup (ko_X S N nd Hk)), (ok_X S nd Sok).
  - apply in_or_app. destruct A; auto.
Qed.
Lemma grp_NoDup_E A g : In g (kgrp N A) -> NoDup (g_E g).
Proof.
  intros H. apply (NoDup_flat_map_inv g_E (kgrp N true ++ kgrp N false)).
  - apply (Permutation_NoDup (ko_E S N nd Hk)), (ko_NE S N nd Hk).
  - apply in_or_app. destruct A; auto.
Qed.
Lemma grp_NoDup_Q A g : In g (kgrp N A) -> NoDup (g_Q g).
Proof.
  intros H. apply (NoDup_flat_map_inv g_Q (kgrp N true ++ kgrp N false) g (ko_Q S N nd Hk)).
  apply in_or_app. destruct A; auto.
Qed.
Lemma grp_NoDup_M A g : In g (kgrp N A) -> NoDup (g_M g).
Proof.
  intros H. apply (NoDup_flat_map_inv g_M (kgrp N true ++ kgrp N false) g (ko_M S N nd Hk)).
  apply in_or_app. destruct A; auto.
Qed.
Lemma grp_X A g x : In g (kgrp N A) -> In x (g_X g) -> In x (allX S).
Proof.
  intros H Hx. apply (Permutation_in _ (Permutation_sym (ko_X S N nd Hk))), in_flat_map.
  exists g. split; [apply in_or_app; destruct A; auto|exact Hx].
Qed.
Lemma grp_E A g e : In g (kgrp N A) -> In e (g_E g) -> In e (allE S).
Proof.
  intros H Hx. apply (Permutation_in _ (Permutation_sym (ko_E S N nd Hk))), in_flat_map.
  exists g. split; [apply in_or_app; destruct A; auto|exact Hx].
Qed.
Lemma X_grp x : In x (allX S) -> exists g, In g (kgrp N (xA S x)) /\ In x (g_X g).
Proof.
  intros H. apply (Permutation_in _ (ko_X S N nd Hk)) in H. apply in_flat_map in H. destruct H as (g & Hg & Hx).
  exists g. split; [|exact Hx]. apply in_app_or in Hg.
  destruct Hg as [Hg|Hg]; rewrite (proj1 (ko_Xg S N nd Hk _ _ _ Hg Hx)); exact Hg.
Qed.
Lemma E_grp e : In e (allE S) -> exists g, In g (kgrp N (eA S e)) /\ In e (g_E g).
Proof.
  intros H. apply (Permutation_in _ (ko_E S N nd Hk)) in H. apply in_flat_map in H. destruct H as (g & Hg & Hx).
  exists g. split; [|exact Hx]. apply in_app_or in Hg.
  destruct Hg as [Hg|Hg]; rewrite (proj1 (ko_Eg S N nd Hk _ _ _ Hg Hx)); exact Hg.
Qed.

(** What one cell of the forward kernel does. *)
Lemma f_cell_spec A g fq si m reg p : In g (kgrp N A) ->
  let m' := f_cell S N K P U fq si m (g, (reg, p)) in
  (forall x, In x (g_X g) -> m' (VX x) (idx shape p) =
     m (VX x) (idx shape p) + sumf (incE S x) (fun e => kc x e (idx shape p) * fterm m reg p e)) /\
  (forall e, In e (g_E g) -> m' (VM e) (idx shape p) = fmem m reg p e) /\
  (forall q, In q (g_Q g) -> m' (VQ q si) (idx shape p) =
     if fq q then n_sto U q (fterm m reg p) else m (VQ q si) (idx shape p)) /\
  (forall w j, j <> idx shape p \/ ((forall x, In x (g_X g) -> w <> VX x) /\ (forall e, In e (g_E g) -> w <> VM e) /\
                  (forall q, In q (g_Q g) -> w <> VQ q si)) -> m' w j = m w j).
Proof.
  intros Hg m'. set (i := idx shape p) in *.
  pose proof (f_terms reg p (g_E g) (fun _ => 0) m (grp_NoDup_E A g Hg)) as (T1 & _ & T3 & T4).
  unfold m', f_cell. fold i.
  destruct (fold_left (f_term S N K P reg p) (g_E g) (fun _ => 0, m)) as [T m1] eqn:ET. cbn [fst snd] in T1, T3, T4.
  set (m2 := fold_left (fun m q => if fq q then setm m (VQ q si) i (n_sto U q T) else m) (g_Q g) m1).
  set (m3 := fold_left (fun m x => setm m (VX x) i (m (VX x) i + n_inc U x T i)) (g_X g) m2).
  assert (M3 : forall w j, (forall x, In x (g_X g) -> w <> VX x) \/ j <> i -> m3 w j = m2 w j).
  { intros w j H. unfold m3. apply (fold_set_frame _ VX (fun m x => m (VX x) i + n_inc U x T i) (fun _ => true)). exact H. }
  assert (M2 : forall w j, (forall q, In q (g_Q g) -> w <> VQ q si) \/ j <> i -> m2 w j = m1 w j).
  { intros w j H. unfold m2. apply (fold_set_frame _ (fun q => VQ q si) (fun _ q => n_sto U q T) fq). exact H. }
  assert (XI : forall x, In x (g_X g) -> n_inc U x T i = sumf (incE S x) (fun e => kc x e i * fterm m reg p e)).
  { intros x Hx. rewrite (no_inc S N K U kc Hu A g x T i Hg Hx). apply (sumf_ext K). intros e He.
    unfold incE in He. apply filter_In in He. rewrite T1; [reflexivity|].
    apply (ko_inc S N nd Hk A g x e Hg Hx); tauto. }
  repeat split.
  - intros x Hx. rewrite <- (XI x Hx), <- (T4 (VX x) i), <- (M2 (VX x) i) by (left; discriminate). unfold m3.
    apply (fold_set_val _ VX (fun m x => m (VX x) i + n_inc U x T i) (fun _ => true)).
    + apply (grp_NoDup_X A g Hg).
    + intros; congruence.
    + intros a b c Hc H. rewrite (H (VX c) i) by (right; reflexivity). reflexivity.
    + exact Hx.
  - intros e He. rewrite M3 by (left; discriminate).
    rewrite M2 by (left; discriminate). apply T3, He.
  - intros q Hq. rewrite M3 by (left; discriminate). unfold m2.
    rewrite (fold_set_val _ (fun q => VQ q si) (fun _ q => n_sto U q T)).
    + rewrite T4 by (left; discriminate). destruct (fq q); [|reflexivity].
      apply (no_sto S N K U kc Hu A g q); auto.
    + apply (grp_NoDup_Q A g Hg).
    + intros; congruence.
    + reflexivity.
    + exact Hq.
  - intros w j H. rewrite M3 by (destruct H as [H|(H & _)]; [right|left]; exact H).
    rewrite M2 by (destruct H as [H|(_ & _ & H)]; [right|left]; exact H).
    apply T4. destruct H as [H|(_ & H & _)]; [right|left]; exact H.
Qed.

(** What one cell of the backward kernel does. *)
Lemma b_sum_ext m m' reg p x :
  (forall e, In e (srcE S x) -> forall j, m (VM e) j = m' (VM e) j /\
     forall y, In y (incX S e) -> m (VX y) j = m' (VX y) j) ->
  b_sum S N K P U m reg p x = b_sum S N K P U m' reg p x.
Proof.
  intros H. unfold b_sum. apply (sumf_ext K). intros e He. specialize (H e He).
  assert (Ee : In e (allE S)) by (unfold srcE in He; apply filter_In in He; tauto).
  assert (E : forall k,
    (let j := (idx shape p + k * stride shape (edim S e))%Z in
     if (reg_at reg (edim S e) =? 1)%Z then n_tb U e (fun x' => m (VX x') j) j
     else n_tbp U e (sp_b P (eh S e (edim S e)) (edim S e) (coord (edim S e) p + k)%Z) (m (VM e) j)
            (fun x' => m (VX x') j) j) =
    (let j := (idx shape p + k * stride shape (edim S e))%Z in
     if (reg_at reg (edim S e) =? 1)%Z then n_tb U e (fun x' => m' (VX x') j) j
     else n_tbp U e (sp_b P (eh S e (edim S e)) (edim S e) (coord (edim S e) p + k)%Z) (m' (VM e) j)
            (fun x' => m' (VX x') j) j)).
  { intros k. cbv zeta. set (j := (idx shape p + k * stride shape (edim S e))%Z).
    assert (ET : n_tb U e (fun x' => m (VX x') j) j = n_tb U e (fun x' => m' (VX x') j) j).
    { rewrite !(no_tb S N K U kc Hu) by exact Ee. apply (sumf_ext K). intros y Hy.
      rewrite (proj2 (H j) y Hy). reflexivity. }
    rewrite !(no_tbp S N K U kc Hu) by exact Ee. rewrite ET, (proj1 (H j)). reflexivity. }
  cbv zeta in *. f_equal. unfold kdiff. destruct (negb (eh S e (edim S e)));
    [apply SDIFFH1_ext|apply SDIFF1_ext]; intros; apply E.
Qed.

Lemma srcE_spec x e : In e (srcE S x) -> In e (allE S) /\ esrc S e = x /\ xA S x = negb (eA S e).
Proof.
  unfold srcE. intros H. apply filter_In in H. destruct H as [H1 H2].
  apply (ok_srcb S nd Sok e x H1) in H2. subst x. auto using (ok_half S nd Sok).
Qed.
Lemma incX_spec e x : In x (incX S e) -> In x (allX S) /\ inc S x e = true.
Proof. unfold incX. intros H. apply filter_In in H. exact H. Qed.
Lemma incE_spec e x : In e (incE S x) -> In e (allE S) /\ inc S x e = true.
Proof. unfold incE. intros H. apply filter_In in H. exact H. Qed.

(** The adjoint terms of a variable of half [A] read no variable of half [A] and no memory variable of half [A]. *)
Lemma b_sum_ext_half A m m' reg p x : xA S x = A ->
  (forall y j, In y (allX S) -> xA S y = negb A -> m (VX y) j = m' (VX y) j) ->
  (forall e j, In e (allE S) -> eA S e = negb A -> m (VM e) j = m' (VM e) j) ->
  b_sum S N K P U m reg p x = b_sum S N K P U m' reg p x.
Proof.
  intros EA HX HE. apply b_sum_ext. intros e He j. apply srcE_spec in He. destruct He as (He & _ & Ha).
  assert (Ee : eA S e = negb A) by (rewrite <- EA, Ha, negb_involutive; reflexivity).
  split; [apply HE; assumption|]. intros y Hy. apply incX_spec in Hy. destruct Hy as [Hy Hi]. apply HX; [exact Hy|].
  rewrite (proj1 (ok_inc S nd Sok y e Hy He Hi)). exact Ee.
Qed.

Definition bmem (m : kmem) (X' : kmem) (old : K) (reg : list Z) (p : pt) (e : sE S) : K :=
  if kguard N e && (reg_at reg (edim S e) =? 1)%Z then old
  else ea S K P e p * (m (VM e) (idx shape p) + sumf (incX S e) (fun x => kc x e (idx shape p) * X' (VX x) (idx shape p))).

Definition mval (i : Z) (p : pt) (m : kmem) (e : sE S) : K :=
  n_mem U e (sp_a P (eh S e (edim S e)) (edim S e) (coord (edim S e) p)) (m (VM e) i) (fun x => m (VX x) i) i.
Definition mgd (reg : list Z) (e : sE S) : bool := negb (kguard N e && (reg_at reg (edim S e) =? 1)%Z).
Lemma b_mem_fold dst reg p l (m : kmem) :
  fold_left (b_mem S N K P U dst reg p) l m =
  fold_left (fun m e => if mgd reg e then setm m (dst e) (idx shape p) (mval (idx shape p) p m e) else m) l m.
Proof.
  revert m. induction l as [|e l IH]; intros m; [reflexivity|]. cbn [fold_left]. rewrite IH. f_equal.
  unfold b_mem, mgd. destruct (kguard N e && (reg_at reg (edim S e) =? 1)%Z); reflexivity.
Qed.

Definition gval (sr : K) (si i : Z) (m : kmem) (k : kM N) : K :=
  m (VG k) i + n_gm U k (fun x => m (VX x) i) (fun q => m (VQ q si) i) sr.
Lemma b_grad_val A g fm sr si i m k : In g (kgrp N A) -> In k (g_M g) ->
  fold_left (b_grad S N K U fm sr si i) (g_M g) m (VG k) i = if fm k then gval sr si i m k else m (VG k) i.
Proof.
  intros Hg Hkk. apply (fold_set_val _ VG (gval sr si i) fm).
  - apply (grp_NoDup_M A g Hg).
  - intros; congruence.
  - intros a a' b Hb Ha. unfold gval. rewrite (Ha (VG b) i) by (right; reflexivity). f_equal.
    apply (no_gm S N K U kc Hu A g b); auto; intros; apply Ha; left; discriminate.
  - exact Hkk.
Qed.

Lemma bA_cell_spec g fm sr si m reg p : In g (kgrp N true) ->
  let m' := bA_cell S N K P U fm sr si m (g, (reg, p)) in
  let i := idx shape p in
  (forall x, In x (g_X g) -> m' (VX x) i = m (VX x) i + b_sum S N K P U m reg p x) /\
  (forall e, In e (g_E g) -> m' (VN e) i = bmem m m' (m (VN e) i) reg p e) /\
  (forall k, In k (g_M g) -> m' (VG k) i =
     if fm k then m (VG k) i + n_gm U k (fun x => m' (VX x) i) (fun q => m (VQ q si) i) (ofZ K sr) else m (VG k) i) /\
  (forall w j, j <> i \/ ((forall x, In x (g_X g) -> w <> VX x) /\ (forall e, In e (g_E g) -> w <> VN e) /\
                  (forall k, In k (g_M g) -> w <> VG k)) -> m' w j = m w j).
Proof.
  intros Hg m' i. subst m'. unfold bA_cell. fold i.
  set (m1 := fold_left (fun m x => setm m (VX x) i (m (VX x) i + b_sum S N K P U m reg p x)) (g_X g) m).
  set (m2 := fold_left (b_mem S N K P U VN reg p) (g_E g) m1).
  set (m3 := fold_left (b_grad S N K U fm (ofZ K sr) si i) (g_M g) m2).
  assert (F1 : forall w j, (forall x, In x (g_X g) -> w <> VX x) \/ j <> i -> m1 w j = m w j).
  { intros w j H. unfold m1.
    apply (fold_set_frame _ VX (fun m x => m (VX x) i + b_sum S N K P U m reg p x) (fun _ => true)). exact H. }
  assert (F2 : forall w j, (forall e, In e (g_E g) -> w <> VN e) \/ j <> i -> m2 w j = m1 w j).
  { intros w j H. unfold m2. rewrite b_mem_fold. apply (fold_set_frame _ VN (mval i p) (mgd reg)). exact H. }
  assert (F3 : forall w j, (forall k, In k (g_M g) -> w <> VG k) \/ j <> i -> m3 w j = m2 w j).
  { intros w j H. unfold m3.
    apply (fold_set_frame _ VG (fun m k => m (VG k) i + n_gm U k (fun x => m (VX x) i) (fun q => m (VQ q si) i) (ofZ K sr)) fm).
    exact H. }
  assert (V1 : forall x, In x (g_X g) -> m1 (VX x) i = m (VX x) i + b_sum S N K P U m reg p x).
  { intros x Hx. unfold m1.
    apply (fold_set_val _ VX (fun m x => m (VX x) i + b_sum S N K P U m reg p x) (fun _ => true)).
    - apply (grp_NoDup_X true g Hg).
    - intros; congruence.
    - intros a a' y Hy Ha. rewrite (Ha (VX y) i) by (right; reflexivity). f_equal.
      apply (b_sum_ext_half true); [apply (ko_Xg S N nd Hk true g y Hg Hy)| |].
      + intros z j Hz Ez. apply Ha. left. intros c Hc E. injection E as ->.
        rewrite (proj1 (ko_Xg S N nd Hk true g c Hg Hc)) in Ez. discriminate.
      + intros e j _ _. apply Ha. left. discriminate.
    - exact Hx. }
  assert (X3 : forall x j, m3 (VX x) j = m1 (VX x) j).
  { intros x j. rewrite F3, F2 by (left; discriminate). reflexivity. }
  repeat split.
  - intros x Hx. rewrite X3. apply V1, Hx.
  - intros e He. rewrite F3 by (left; discriminate).
    assert (Ee : In e (allE S)) by apply (grp_E true g e Hg He).
    assert (E : m2 (VN e) i = if negb (kguard N e && (reg_at reg (edim S e) =? 1)%Z)
        then n_mem U e (ea S K P e p) (m1 (VM e) i) (fun x => m1 (VX x) i) i else m1 (VN e) i).
    { unfold m2. rewrite b_mem_fold. apply (fold_set_val _ VN (mval i p) (mgd reg)).
      - apply (grp_NoDup_E true g Hg).
      - intros; congruence.
      - intros a a' e' He' Ha. unfold mval. rewrite !(no_mem S N K U kc Hu), !(no_tb S N K U kc Hu) by apply (grp_E true g e' Hg He').
        rewrite (Ha (VM e') i) by (left; discriminate). f_equal. f_equal. apply (sumf_ext K). intros y Hy.
        rewrite (Ha (VX y) i) by (left; discriminate). reflexivity.
      - exact He. }
    rewrite E. unfold bmem. fold i. destruct (kguard N e && (reg_at reg (edim S e) =? 1)%Z); cbn [negb].
    + apply F1. left. discriminate.
    + rewrite (no_mem S N K U kc Hu), (no_tb S N K U kc Hu) by exact Ee. rewrite F1 by (left; discriminate).
      f_equal. f_equal. apply (sumf_ext K). intros y _. rewrite X3. reflexivity.
  - intros k Hkk. unfold m3 at 1.
    rewrite <- (F1 (VG k) i) by (left; discriminate). rewrite <- (F2 (VG k) i) by (left; discriminate).
    rewrite (b_grad_val true g) by assumption. destruct (fm k); [|reflexivity]. unfold gval. f_equal.
    apply (no_gm S N K U kc Hu true g k); auto.
    + intros x _. rewrite F3 by (left; discriminate). reflexivity.
    + intros q _. rewrite F2, F1 by (left; discriminate). reflexivity.
  - intros w j H. rewrite F3 by (destruct H as [H|(_ & _ & H)]; [right|left]; exact H).
    rewrite F2 by (destruct H as [H|(_ & H & _)]; [right|left]; exact H).
    apply F1. destruct H as [H|(H & _ & _)]; [right|left]; exact H.
Qed.

Lemma bB_cell_spec g fm sr si m reg p : In g (kgrp N false) ->
  let m' := bB_cell S N K P U fm sr si m (g, (reg, p)) in
  let i := idx shape p in
  (forall x, In x (g_X g) -> m' (VX x) i = m (VX x) i + b_sum S N K P U m reg p x) /\
  (forall e, In e (g_E g) -> m' (VM e) i = bmem m m (m (VM e) i) reg p e) /\
  (forall k, In k (g_M g) -> m' (VG k) i =
     if fm k then m (VG k) i + n_gm U k (fun x => m (VX x) i) (fun q => m (VQ q si) i) (ofZ K sr) else m (VG k) i) /\
  (forall w j, j <> i \/ ((forall x, In x (g_X g) -> w <> VX x) /\ (forall e, In e (g_E g) -> w <> VM e) /\
                  (forall k, In k (g_M g) -> w <> VG k)) -> m' w j = m w j).
Proof.
  intros Hg m' i. subst m'. unfold bB_cell. fold i.
  set (m1 := fold_left (b_grad S N K U fm (ofZ K sr) si i) (g_M g) m).
  set (m2 := fold_left (b_mem S N K P U VM reg p) (g_E g) m1).
  set (m3 := fold_left (fun m x => setm m (VX x) i (m (VX x) i + b_sum S N K P U m reg p x)) (g_X g) m2).
  assert (F3 : forall w j, (forall x, In x (g_X g) -> w <> VX x) \/ j <> i -> m3 w j = m2 w j).
  { intros w j H. unfold m3.
    apply (fold_set_frame _ VX (fun m x => m (VX x) i + b_sum S N K P U m reg p x) (fun _ => true)). exact H. }
  assert (F2 : forall w j, (forall e, In e (g_E g) -> w <> VM e) \/ j <> i -> m2 w j = m1 w j).
  { intros w j H. unfold m2. rewrite b_mem_fold. apply (fold_set_frame _ VM (mval i p) (mgd reg)). exact H. }
  assert (F1 : forall w j, (forall k, In k (g_M g) -> w <> VG k) \/ j <> i -> m1 w j = m w j).
  { intros w j H. unfold m1.
    apply (fold_set_frame _ VG (fun m k => m (VG k) i + n_gm U k (fun x => m (VX x) i) (fun q => m (VQ q si) i) (ofZ K sr)) fm).
    exact H. }
  repeat split.
  - intros x Hx.
    assert (E2 : m (VX x) i + b_sum S N K P U m reg p x = m2 (VX x) i + b_sum S N K P U m2 reg p x).
    { rewrite (F2 (VX x) i), (F1 (VX x) i) by (left; discriminate). f_equal.
      apply (b_sum_ext_half false); [apply (ko_Xg S N nd Hk false g x Hg Hx)| |].
      * intros y j _ _. rewrite F2, F1 by (left; discriminate). reflexivity.
      * intros e j He Ee. rewrite F2; [symmetry; apply F1; left; discriminate|]. left. intros e' He' E. injection E as ->.
        rewrite (proj1 (ko_Eg S N nd Hk false g e' Hg He')) in Ee. discriminate. }
    rewrite E2. unfold m3.
    apply (fold_set_val _ VX (fun m x => m (VX x) i + b_sum S N K P U m reg p x) (fun _ => true)).
    + apply (grp_NoDup_X false g Hg).
    + intros; congruence.
    + intros a a' y Hy Ha. rewrite (Ha (VX y) i) by (right; reflexivity). f_equal.
      apply (b_sum_ext_half false); [apply (ko_Xg S N nd Hk false g y Hg Hy)| |].
      * intros z j Hz Ez. apply Ha. left. intros c Hc E. injection E as ->.
        rewrite (proj1 (ko_Xg S N nd Hk false g c Hg Hc)) in Ez. discriminate.
      * intros e j _ _. apply Ha. left. discriminate.
    + exact Hx.
  - intros e He. rewrite F3 by (left; discriminate).
    assert (Ee : In e (allE S)) by apply (grp_E false g e Hg He).
    assert (E : m2 (VM e) i = if negb (kguard N e && (reg_at reg (edim S e) =? 1)%Z)
        then n_mem U e (ea S K P e p) (m1 (VM e) i) (fun x => m1 (VX x) i) i else m1 (VM e) i).
    { unfold m2. rewrite b_mem_fold. apply (fold_set_val _ VM (mval i p) (mgd reg)).
      - apply (grp_NoDup_E false g Hg).
      - intros; congruence.
      - intros a a' e' He' Ha. unfold mval. rewrite !(no_mem S N K U kc Hu), !(no_tb S N K U kc Hu) by apply (grp_E false g e' Hg He').
        rewrite (Ha (VM e') i) by (right; reflexivity). f_equal. f_equal. apply (sumf_ext K). intros y Hy.
        rewrite (Ha (VX y) i) by (left; discriminate). reflexivity.
      - exact He. }
    rewrite E. unfold bmem. fold i. destruct (kguard N e && (reg_at reg (edim S e) =? 1)%Z); cbn [negb].
    + apply F1. left. discriminate.
    + rewrite (no_mem S N K U kc Hu), (no_tb S N K U kc Hu) by exact Ee. rewrite F1 by (left; discriminate).
      f_equal. f_equal. apply (sumf_ext K). intros y _. rewrite F1 by (left; discriminate). reflexivity.
  - intros k Hkk. rewrite F3, F2 by (left; discriminate). unfold m1.
    apply (b_grad_val false g); assumption.
  - intros w j H. rewrite F3 by (destruct H as [H|(H & _ & _)]; [right|left]; exact H).
    rewrite F2 by (destruct H as [H|(_ & H & _)]; [right|left]; exact H).
    apply F1. destruct H as [H|(_ & _ & H)]; [right|left]; exact H.
Qed.

End Cell.
