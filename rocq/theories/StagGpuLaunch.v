(** * A launch of a cell kernel of the staggered-grid propagators, for every interleaving of its threads. *)
From Coq Require Import List ZArith QArith Lia Bool Permutation.
From Verif Require Import Ops Sums Grid Stencil ScalarModel ScalarRefine ScalarForward ShotsModel Shots Param Stag StagAdj StagKernel StagCell StagRefine StagParam
  StagShotsModel StagShots Threads GpuModel GpuLaunch StagGpuModel StagGpuCell.
Import ListNotations.
Local Open Scope K_scope.

Section SGLaunch.
Variable S : sys.
Variable N : kern S.
Variable K : ops.
Variable C_dec : forall a b : sC S, {a = b} + {a <> b}.
Variable P0 : spar S K.
Variable NS : Z.
Notation shape := (sp_shape P0).
Notation n := (prodZ shape).
Notation nd := (length shape).
Notation fd := (fd_pad (sp_acc P0)).
Notation kvar := (svar (sX S) (sE S) (kQ N) (kM N)).
Notation kgp := (grp S (kQ N) (kM N)).
Notation cell := (kgp * (list Z * pt))%type.
Notation kmem := (kmem S N K).
Notation leq := (sgloc_eq S N C_dec).
Notation mem := (mem (sgloc S N) K).
Notation prog := (prog (sgloc S N) K).
Notation at_ := (at_ S N K P0).
Notation run := (run leq).
Notation Vw := (Vw S N K P0).
Hypothesis Sok : sys_ok S nd.
Hypothesis Hk : kern_ok S N nd.
Hypothesis Hsz : sizes_ok fd (map Z.succ shape) NS.

(** *** The items of a launch *)
Notation items A := (flat_map (items_scells S N K P0 NS A) (threads (launch_scells S K P0 NS))).
Lemma inside_spec (g : kgp) p : sinside S N K P0 g p = true <-> forall d, (d < nd)%nat -> g_h g d = true -> (coord d p < nth d shape 0 - fd)%Z.
Proof.
  unfold sinside. rewrite forallb_forall. split.
  - intros H d Hd Hh. assert (Hs : In d (seq 0 nd)) by (apply in_seq; lia). specialize (H d Hs). rewrite Hh in H. cbn [negb orb] in H. apply Z.ltb_lt, H.
  - intros H d Hd. apply in_seq in Hd. destruct (g_h g d) eqn:E; [|reflexivity]. cbn. apply Z.ltb_lt, H; [lia|exact E].
Qed.
Lemma dom_inside (g : kgp) p : dom S K P0 (g_h g) p = true <-> inb (ibox fd (map Z.succ shape)) p = true /\ sinside S N K P0 g p = true.
Proof.
  assert (X : forall d, (d < nd)%nat -> nth d (map Z.succ shape) 0%Z = (nth d shape 0 + 1)%Z).
  { intros d Hd. rewrite (nth_indep _ 0%Z (Z.succ 0)) by (rewrite map_length; exact Hd). rewrite map_nth. lia. }
  rewrite dom_spec, inb_ibox, inside_spec, map_length. split.
  - intros [L H]. split; [split; [exact L|]|]; intros d Hd.
    + rewrite X by exact Hd. specialize (H d Hd). destruct (g_h g d); lia.
    + intros E. specialize (H d Hd). rewrite E in H. lia.
  - intros [[L H1] H2]. split; [exact L|]. intros d Hd. specialize (H1 d Hd). rewrite X in H1 by exact Hd. specialize (H2 d Hd). destruct (g_h g d); [specialize (H2 eq_refl)|]; lia.
Qed.
Lemma fd_nonneg : (0 <= fd)%Z.
Proof. pose proof (fd_pad_pos (sp_acc P0)). lia. Qed.
Lemma In_items A k g p : In (k, (g, p)) (items A) <-> (0 <= k < NS)%Z /\ In g (kgrp N A) /\ dom S K P0 (g_h g) p = true.
Proof.
  rewrite dom_inside. unfold items_scells, launch_scells. rewrite in_flat_map. split.
  - intros (th & Ht & H). apply in_flat_map in H. destruct H as ([k' p'] & Hkp & H). apply in_flat_map in H. destruct H as (g' & Hg & H). cbn [fst snd] in H.
    destruct (sinside S N K P0 g' p') eqn:E; [|contradiction]. destruct H as [H|[]]. injection H as -> -> ->.
    assert (X : In (k, p) (flat_map (items_cells fd (map Z.succ shape) NS) (threads (launch_cells fd (map Z.succ shape) NS)))) by (apply in_flat_map; exists th; auto).
    apply (In_cells _ _ _ fd_nonneg Hsz) in X. tauto.
  - intros (Hk0 & Hg & Hb & Hi). assert (X : In (k, p) (flat_map (items_cells fd (map Z.succ shape) NS) (threads (launch_cells fd (map Z.succ shape) NS)))) by (apply (In_cells _ _ _ fd_nonneg Hsz); auto).
    apply in_flat_map in X. destruct X as (th & Ht & X). exists th. split; [exact Ht|]. apply in_flat_map. exists (k, p). split; [exact X|]. apply in_flat_map. exists g. split; [exact Hg|]. cbn [fst snd]. rewrite Hi. left. reflexivity.
Qed.
Lemma NoDup_kgrp A : NoDup (kgrp N A).
Proof.
  apply (NoDup_of_flat_map g_X); [|intros; apply (ko_ne S N nd Hk A); assumption].
  pose proof (Permutation_NoDup (ko_X S N nd Hk) (ok_X S nd Sok)) as H. rewrite flat_map_app in H. destruct A.
  - clear - H. induction (flat_map g_X (kgrp N true)) as [|x l IH]; [constructor|]. cbn in H. inversion H; subst. constructor; [|auto]. intros Hi. apply H2, in_or_app. left. exact Hi.
  - clear - H. induction (flat_map g_X (kgrp N true)) as [|x l IH]; [exact H|]. cbn in H. inversion H; subst. auto.
Qed.
Lemma flat_map_flat_map {A B C} (f : A -> list B) (h : B -> list C) l : flat_map (fun a => flat_map h (f a)) l = flat_map h (flat_map f l).
Proof. induction l as [|a l IH]; [reflexivity|]. cbn. rewrite flat_map_app, IH. reflexivity. Qed.
Lemma NoDup_items A : NoDup (items A).
Proof.
  unfold items_scells. rewrite (flat_map_flat_map (items_cells fd (map Z.succ shape) NS)). apply NoDup_flat_map.
  - apply NoDup_cells; [apply fd_nonneg|exact Hsz].
  - intros [k p] _. apply NoDup_flat_map; [apply NoDup_kgrp| |].
    + intros g _. cbn [fst snd]. destruct (sinside S N K P0 g p); repeat constructor; intros [].
    + intros g g' a _ _ H1 H2. cbn [fst snd] in *. destruct (sinside S N K P0 g p); [|contradiction]. destruct (sinside S N K P0 g' p); [|contradiction]. destruct H1 as [<-|[]]. destruct H2 as [H2|[]]. congruence.
  - intros [k p] [k' p'] a _ _ H1 H2. apply in_flat_map in H1, H2. destruct H1 as (g & _ & H1). destruct H2 as (g' & _ & H2). cbn [fst snd] in *.
    destruct (sinside S N K P0 g p); [|contradiction]. destruct (sinside S N K P0 g' p'); [|contradiction]. destruct H1 as [<-|[]]. destruct H2 as [H2|[]]. congruence.
Qed.

(** *** The regions *)
Section Regions.
Variables b e : nat -> Z.
Hypothesis Hbe : forall d, (d < nd)%nat -> (fd <= b d <= e d /\ e d <= nth d shape 0 - fd + 1 /\ b d <= nth d shape 0 - fd)%Z.
Definition tag_at (h : nat -> bool) (p : pt) (d : nat) : Z :=
  if (coord d p <? b d)%Z then 0%Z else if (coord d p <? (if h d then Z.max (b d) (e d - 1) else e d))%Z then 1%Z else 2%Z.
Definition tag (h : nat -> bool) (p : pt) : list Z := map (tag_at h p) (seq 0 nd).
Definition tagged (gp : kgp * pt) : cell := (fst gp, (tag (g_h (fst gp)) (snd gp), snd gp)).
Lemma tag_nth h p d : (d < nd)%nat -> nth d (tag h p) 0%Z = tag_at h p d.
Proof.
  intros Hd. unfold tag. rewrite (nth_indep _ 0%Z (tag_at h p 0)) by (rewrite map_length, seq_length; exact Hd). rewrite map_nth, seq_nth by exact Hd. reflexivity.
Qed.
Lemma tag_in h p : dom S K P0 h p = true -> In (tag h p) (sregions S K P0) /\ inb (sreg_box S K P0 h b e (tag h p)) p = true.
Proof.
  rewrite dom_spec. intros [L D]. rewrite In_sregions, In_sreg_box. unfold tag at 1. rewrite map_length, seq_length. split; (split; [auto|]); intros d Hd; rewrite tag_nth by exact Hd; unfold tag_at.
  - destruct (coord d p <? b d)%Z; [lia|]. destruct (coord d p <? _)%Z; lia.
  - specialize (D d Hd). specialize (Hbe d Hd). unfold sreg_bounds.
    destruct (Z.ltb_spec (coord d p) (b d)); cbn [Z.eqb fst snd].
    + destruct (h d); cbn; lia.
    + destruct (h d); destruct (Z.ltb_spec (coord d p) (Z.max (b d) (e d - 1))); destruct (Z.ltb_spec (coord d p) (e d)); cbn; lia.
Qed.
Lemma tag_pml h p d : (d < nd)%nat -> spml b e (h d) p d = negb (reg_at (tag h p) d =? 1)%Z.
Proof.
  intros Hd. unfold reg_at. rewrite tag_nth by exact Hd. unfold tag_at, spml. destruct (Z.ltb_spec (coord d p) (b d)) as [H|H]; [reflexivity|]. cbn [orb].
  rewrite Z.leb_antisym. destruct (coord d p <? (if h d then Z.max (b d) (e d - 1) else e d))%Z; reflexivity.
Qed.
(** The cells of shot [k], in the order in which the items list them. *)
Definition gvis (A : bool) (k : Z) : list cell := map tagged (map snd (filter (fun x => fst x =? k)%Z (items A))).
Lemma In_gvis A k c : (0 <= k < NS)%Z -> In c (gvis A k) <-> exists g p, c = (g, (tag (g_h g) p, p)) /\ In g (kgrp N A) /\ dom S K P0 (g_h g) p = true.
Proof.
  intros Hk0. unfold gvis. rewrite in_map_iff. split.
  - intros ([g p] & <- & H). exists g, p. split; [reflexivity|]. apply in_map_iff in H. destruct H as ([k' [g' p']] & E & H). cbn [snd] in E. injection E as -> ->. apply filter_In in H. destruct H as [H _]. apply In_items in H. tauto.
  - intros (g & p & -> & H1 & H2). exists (g, p). split; [reflexivity|]. apply in_map_iff. exists (k, (g, p)). split; [reflexivity|]. apply filter_In. split; [apply In_items; auto|]. apply Z.eqb_refl.
Qed.
Lemma NoDup_gvis A k : NoDup (gvis A k).
Proof.
  unfold gvis. apply NoDup_map_inj.
  - intros [g p] [g' p'] _ _ E. unfold tagged in E. cbn [fst snd] in E. congruence.
  - apply NoDup_map_inj; [|apply NoDup_filter, NoDup_items]. intros [k1 a] [k2 a'] H1 H2 E. apply filter_In in H1, H2. destruct H1 as [_ H1], H2 as [_ H2]. cbn [fst snd] in *. apply Z.eqb_eq in H1, H2. congruence.
Qed.
Lemma gvis_perm A k : (0 <= k < NS)%Z -> Permutation (svisits S N K P0 b e A) (gvis A k).
Proof.
  intros Hk0. apply NoDup_Permutation.
  - apply NoDup_svisits; [exact Hk|apply (ok_X S nd Sok)].
  - apply NoDup_gvis.
  - intros [g [r p]]. rewrite In_gvis by exact Hk0. rewrite In_svisits. split.
    + intros (Hg & Hr & Hb). assert (D : dom S K P0 (g_h g) p = true) by (apply (reg_dom S K P0 b e Hbe (g_h g) r); assumption).
      exists g, p. split; [|auto]. f_equal. f_equal. destruct (tag_in _ _ D) as [T1 T2]. apply (reg_unique S K P0 b e Hbe (g_h g) r _ p); assumption.
    + intros (g' & p' & E & Hg & D). injection E as -> -> ->. split; [exact Hg|]. apply tag_in, D.
Qed.
End Regions.

(** *** One launch *)
Definition inwin (i : Z) : Prop := (0 <= i < n)%Z.
Variable cnt : sC S -> Z.
(** What the shots see, and the gradients not accumulated by the kernels. *)
Definition ginv (sw : bool) (lg : kM N -> arr K) (M : mem) (fam : Z -> kmem * krec S K) : Prop :=
  (forall k, (0 <= k < NS)%Z ->
     (forall v i, inwin i -> M (at_ sw k v i) = fst (fam k) v i) /\
     (forall t c, In c (allC S) -> row (fun j => M (LR t c, j)) (cnt c) k = snd (fam k) t c)) /\
  (forall q i, M (LG q, i) = lg q i).
Lemma ginv_ext sw lg M fam fam' : (forall k, fam k = fam' k) -> ginv sw lg M fam -> ginv sw lg M fam'.
Proof. intros E [H1 H2]. split; [|exact H2]. intros k Hk0. rewrite <- E. apply H1, Hk0. Qed.
(** Equal in the window, and in the rows of the kinds there are. *)
Definition ceq (a b : kmem * krec S K) : Prop :=
  (forall v i, inwin i -> fst a v i = fst b v i) /\ (forall t c, In c (allC S) -> snd a t c = snd b t c).
Lemma ginv_peq sw lg M fam fam' : (forall k, (0 <= k < NS)%Z -> ceq (fam k) (fam' k)) -> ginv sw lg M fam -> ginv sw lg M fam'.
Proof.
  intros E [H1 H2]. split; [|exact H2]. intros k Hk0. destruct (H1 k Hk0) as [A B]. destruct (E k Hk0) as [C D]. split.
  - intros v i Hi. rewrite A by exact Hi. apply C, Hi.
  - intros t c Hc. rewrite B by exact Hc. apply D, Hc.
Qed.
Lemma sshot_idx k k' i i' : inwin i -> inwin i' -> (k * n + i = k' * n + i')%Z -> k = k' /\ i = i'.
Proof. unfold inwin. intros H H' E. assert (k = k') by nia. subst. split; [reflexivity|lia]. Qed.

Section Phase.
Variables (A sw : bool) (pr : Z * (kgp * pt) -> prog).
Variables b e : nat -> Z.
Hypothesis Hbe : forall d, (d < nd)%nat -> (fd <= b d <= e d /\ e d <= nth d shape 0 - fd + 1 /\ b d <= nth d shape 0 - fd)%Z.
Variable O : kgp -> kvar -> Prop.
Variable W : kvar -> Prop.
Variable cellf : Z -> kmem -> cell -> kmem.
Definition cown (it : Z * (kgp * pt)) (l : sgloc S N) : Prop :=
  exists w, O (fst (snd it)) w /\ l = at_ sw (fst it) w (idx shape (snd (snd it))).
Definition cshared (l : sgloc S N) : Prop := exists w j, ~ W w /\ l = (LV (qv S N sw w), j).
Hypothesis Hfoot : forall k g p, In g (kgrp N A) -> dom S K P0 (g_h g) p = true ->
  foot (fun l => cshared l \/ cown (k, (g, p)) l) (cown (k, (g, p))) (pr (k, (g, p))).
Hypothesis HW : forall g w, In g (kgrp N A) -> O g w -> W w.
Hypothesis Huniq : forall g g' w, In g (kgrp N A) -> In g' (kgrp N A) -> O g w -> O g' w -> g = g'.
Hypothesis Hrun : forall k g p M m, In g (kgrp N A) -> dom S K P0 (g_h g) p = true -> Vw sw k M m ->
  Vw sw k (run (pr (k, (g, p))) M) (cellf k m (g, (tag b e (g_h g) p, p))).
Hypothesis Hrel : forall k c m1 m2, cellok S N K P0 A c -> (forall v i, inwin i -> m1 v i = m2 v i) ->
  forall v i, inwin i -> cellf k m1 c v i = cellf k m2 c v i.

Lemma phase_launch lg M M' fam : launch_phase S N K C_dec P0 NS A pr M M' -> ginv sw lg M fam ->
  ginv sw lg M' (fun k => (fold_left (cellf k) (gvis b e A k) (fst (fam k)), snd (fam k))).
Proof.
  intros [_ He] HI.
  assert (HF : forall it, In it (items A) -> foot (fun l => cshared l \/ cown it l) (cown it) (pr it)).
  { intros [k [g p]] Hi. apply In_items in Hi. apply Hfoot; tauto. }
  assert (E : forall l, M' l = fold_left (fun M it => run (pr it) M) (items A) M l).
  { apply (kernel_seq leq (threads (launch_scells S K P0 NS)) (items_scells S N K P0 NS A) pr cshared cown).
    - exact HF.
    - intros [k [g p]] l Hi (w & Hw & ->) (w' & j & Hn & E'). apply In_items in Hi. cbn [fst snd] in *. unfold StagGpuModel.at_ in E'. injection E' as E' _. apply qv_inj in E'. subst w'. apply Hn, (HW g); tauto.
    - apply own_pairs; [apply NoDup_items|]. intros [k [g p]] [k' [g' p']] Hi Hi' Hn l (w & Hw & ->) (w' & Hw' & E'). apply In_items in Hi, Hi'. cbn [fst snd] in *. unfold StagGpuModel.at_ in E'. injection E' as E1 E2. apply qv_inj in E1. subst w'.
      destruct Hi as (K1 & G1 & D1), Hi' as (K2 & G2 & D2). pose proof (Huniq g g' w G1 G2 Hw Hw') as <-.
      destruct (sshot_idx k k' _ _ (cell_idx S K P0 _ _ D1) (cell_idx S K P0 _ _ D2) E2) as [<- E3]. apply Hn. f_equal. f_equal.
      apply (idx_inj shape); [exact (dom_array S K P0 _ _ D1)|exact (dom_array S K P0 _ _ D2)|exact E3].
    - exact He. }
  assert (X : ginv sw lg (fold_left (fun M it => run (pr it) M) (items A) M)
     (fun k => fold_left (fun mr gp => (cellf k (fst mr) (tagged b e gp), snd mr)) (map snd (filter (fun x => fst x =? k)%Z (items A))) (fam k))).
  { apply (interleave_inv (fun M it => run (pr it) M) (fun k mr gp => (cellf k (fst mr) (tagged b e gp), snd mr)) (ginv sw lg)).
    - intros g0 fam0 k [g p] Hi [H1 H2]. pose proof (HF _ Hi) as Hf. apply In_items in Hi. destruct Hi as (K1 & G1 & D1). split.
      + intros k2 Hk2. unfold fset. destruct (Z.eqb_spec k2 k) as [->|Hn].
        * cbn [fst snd]. destruct (H1 k Hk2) as [V R]. split.
          -- intros v i Hi. rewrite (Hrun k g p g0 (fun v i => g0 (at_ sw k v i)) G1 D1 (fun _ _ => eq_refl) v i). apply Hrel; [split; assumption|exact V|exact Hi].
          -- intros t c Hc. rewrite <- R by exact Hc. apply map_ext. intros j. apply (run_outside leq _ _ _ Hf). intros (w & _ & E'). discriminate.
        * destruct (H1 k2 Hk2) as [V R]. split.
          -- intros v i Hi. rewrite <- V by exact Hi. apply (run_outside leq _ _ _ Hf). intros (w & _ & E'). cbn [fst snd] in E'. unfold StagGpuModel.at_ in E'. injection E' as _ E2.
             destruct (sshot_idx k2 k _ _ Hi (cell_idx S K P0 _ _ D1) E2). contradiction.
          -- intros t c Hc. rewrite <- R by exact Hc. apply map_ext. intros j. apply (run_outside leq _ _ _ Hf). intros (w & _ & E'). discriminate.
      + intros q i. rewrite <- H2. apply (run_outside leq _ _ _ Hf). intros (w & _ & E'). discriminate.
    - intros g0 fam0 fam1. apply ginv_ext.
    - exact HI. }
  destruct X as [X1 X2].
  assert (Y : forall k l mr, fold_left (fun mr gp => (cellf k (fst mr) (tagged b e gp), snd mr)) l mr = (fold_left (cellf k) (map (tagged b e) l) (fst mr), snd (mr : kmem * krec S K))).
  { intros k l. induction l as [|x l IH]; intros [m rr]; [reflexivity|]. cbn [fold_left map fst snd]. rewrite IH. reflexivity. }
  split.
  - intros k Hk0. destruct (X1 k Hk0) as [A1 A2]. rewrite Y in A1, A2. split.
    + intros v i Hi. rewrite E. apply A1, Hi.
    + intros t c Hc. rewrite <- A2 by exact Hc. apply map_ext. intros j. apply E.
  - intros q i. rewrite E. apply X2.
Qed.
End Phase.
End SGLaunch.
