(** * Staggered kernels map related memories to related memories (as [Param.v] for the scalar ones). *)
From Coq Require Import List ZArith QArith Lia Bool.
From Verif Require Import Ops Sums Grid Stencil ScalarModel ScalarRefine Param Stag StagAdj StagKernel StagCell.
Import ListNotations.
Local Open Scope K_scope.

(** Expressions of kernels map related values to related values. *)
Record numrel (S : sys) (N : kern S) (K1 K2 : ops) (R : K1 -> K2 -> Prop) (n : Z)
    (U1 : knum S N K1) (U2 : knum S N K2) : Prop := {
  nr_inc : forall x T1 T2 i, (0 <= i < n)%Z -> (forall e, R (T1 e) (T2 e)) -> R (n_inc U1 x T1 i) (n_inc U2 x T2 i);
  nr_sto : forall q T1 T2, (forall e, R (T1 e) (T2 e)) -> R (n_sto U1 q T1) (n_sto U2 q T2);
  nr_tb : forall e Y1 Y2 i, (0 <= i < n)%Z -> (forall x, R (Y1 x) (Y2 x)) -> R (n_tb U1 e Y1 i) (n_tb U2 e Y2 i);
  nr_tbp : forall e b1 b2 m1 m2 Y1 Y2 i, (0 <= i < n)%Z -> R b1 b2 -> R m1 m2 -> (forall x, R (Y1 x) (Y2 x)) ->
    R (n_tbp U1 e b1 m1 Y1 i) (n_tbp U2 e b2 m2 Y2 i);
  nr_mem : forall e b1 b2 m1 m2 Y1 Y2 i, (0 <= i < n)%Z -> R b1 b2 -> R m1 m2 -> (forall x, R (Y1 x) (Y2 x)) ->
    R (n_mem U1 e b1 m1 Y1 i) (n_mem U2 e b2 m2 Y2 i);
  nr_gm : forall k Y1 Y2 Q1 Q2 r1 r2, (forall x, R (Y1 x) (Y2 x)) -> (forall q, R (Q1 q) (Q2 q)) -> R r1 r2 ->
    R (n_gm U1 k Y1 Q1 r1) (n_gm U2 k Y2 Q2 r2)
}.

(** Parameters related on the allocated part of the profiles. *)
Record sprel (S : sys) (K1 K2 : ops) (R : K1 -> K2 -> Prop) (P1 : spar S K1) (P2 : spar S K2) : Prop := {
  sr_acc : sp_acc P2 = sp_acc P1;
  sr_shape : sp_shape P2 = sp_shape P1;
  sr_src : sp_src P2 = sp_src P1;
  sr_rec : sp_rec P2 = sp_rec P1;
  sr_rd : forall d, (d < length (sp_shape P1))%nat -> R (sp_rd P1 d) (sp_rd P2 d);
  sr_a : forall h d y, (d < length (sp_shape P1))%nat -> (0 <= y < nth d (sp_shape P1) 0)%Z ->
    R (sp_a P1 h d y) (sp_a P2 h d y);
  sr_b : forall h d y, (d < length (sp_shape P1))%nat -> (0 <= y < nth d (sp_shape P1) 0)%Z ->
    R (sp_b P1 h d y) (sp_b P2 h d y)
}.

Section SRel.
Variable S : sys.
Variable N : kern S.
Variables K1 K2 : ops.
Variable R : K1 -> K2 -> Prop.
Hypothesis RO : oprel K1 K2 R.
Variable P1 : spar S K1.
Variable P2 : spar S K2.
Hypothesis HP : sprel S K1 K2 R P1 P2.
Notation shape := (sp_shape P1).
Notation nd := (length shape).
Notation fd := (fd_pad (sp_acc P1)).
Notation n := (prodZ shape).
Variable U1 : knum S N K1.
Variable U2 : knum S N K2.
Hypothesis HU : numrel S N K1 K2 R n U1 U2.
Hypothesis Sok : sys_ok S nd.
Hypothesis Nok : kern_ok S N nd.
Hypothesis Hsrc : forall c, Forall (fun l => (l < n)%Z) (sp_src P1 c).
Hypothesis Hrec : forall c, Forall (fun l => (l < n)%Z) (sp_rec P1 c).
Notation kvar := (svar (sX S) (sE S) (kQ N) (kM N)).
Notation kgp := (grp S (kQ N) (kM N)).

Let R0 := or_0 _ _ _ RO.
Let Radd := or_add _ _ _ RO.
Let Rmul := or_mul _ _ _ RO.
Let Ropp := or_opp _ _ _ RO.

(** Arrays compared; [W] holds of all fields. *)
Variable W : kvar -> Prop.
Hypothesis WX : forall x, W (VX x).
Hypothesis WM : forall e, W (VM e).
Hypothesis WN : forall e, W (VN e).

Definition mrel (m1 : kmem S N K1) (m2 : kmem S N K2) : Prop := forall v, W v -> arel K1 K2 R n (m1 v) (m2 v).

(** Rows compared: those of the steps in [TW]. *)
Variable TW : Z -> Prop.
Definition rrel (r1 : krec S K1) (r2 : krec S K2) : Prop := forall t c, TW t -> Forall2 R (r1 t c) (r2 t c).

(** Cells of phase [A]. *)
Definition cellok (A : bool) (c : kgp * (list Z * pt)) : Prop :=
  In (fst c) (kgrp N A) /\ dom S K1 P1 (g_h (fst c)) (snd (snd c)) = true.

Lemma cell_idx h p : dom S K1 P1 h p = true -> (0 <= idx shape p < n)%Z.
Proof. intros H. apply idx_bound. exact (dom_array S K1 P1 h p H). Qed.
Lemma cell_coord h p d : dom S K1 P1 h p = true -> (d < nd)%nat -> (0 <= coord d p < nth d shape 0)%Z.
Proof.
  intros H Hd. apply (dom_array S K1 P1) in H. apply inb_abox in H. apply H. exact Hd.
Qed.
Lemma cell_shift h p d k : dom S K1 P1 h p = true -> (d < nd)%nat ->
  (if h d then (1 - fd <= k <= fd)%Z else (- fd <= k <= fd - 1)%Z) ->
  (0 <= idx shape p + k * stride shape d < n)%Z /\ (0 <= coord d p + k < nth d shape 0)%Z.
Proof.
  intros H Hd Hk. pose proof (proj1 (dom_spec S K1 P1 h p) H) as [L D].
  assert (Hs : inb (abox shape) (shift d k p) = true).
  { apply inb_abox. split; [rewrite shift_length; exact L|]. intros d' Hd'. pose proof (fd_pad_pos (sp_acc P1)).
    specialize (D d' Hd'). destruct (Nat.eq_dec d' d) as [->|Ne].
    - rewrite coord_shift_same by lia. destruct (h d); lia.
    - rewrite coord_shift_other by auto. destruct (h d'); lia. }
  split.
  - rewrite <- idx_shift by exact L. apply idx_bound. exact Hs.
  - rewrite <- (coord_shift_same d k p) by lia. apply inb_abox in Hs. apply Hs. exact Hd.
Qed.

Lemma kdiff_rel (h : bool) d g1 g2 : (d < nd)%nat ->
  (forall k, (if h then (1 - fd <= k <= fd)%Z else (- fd <= k <= fd - 1)%Z) -> R (g1 k) (g2 k)) ->
  R (kdiff S K1 P1 h d g1) (kdiff S K2 P2 h d g2).
Proof.
  intros Hd H. unfold kdiff. rewrite (sr_acc _ _ _ _ _ _ HP). pose proof (sr_rd _ _ _ _ _ _ HP d Hd) as Hr.
  assert (L : Z.of_nat (length (coefs (sp_acc P1))) = fd) by (destruct (sp_acc P1); reflexivity).
  destruct h; (apply Rmul; [|exact Hr]); [apply (R_st_half _ _ _ RO)|apply (R_st_int _ _ _ RO)];
    intros j Hj; split; apply H; lia.
Qed.

Lemma setm_rel m1 m2 v i x1 x2 : mrel m1 m2 -> (W v -> R x1 x2) -> mrel (setm S N K1 m1 v i x1) (setm S N K2 m2 v i x2).
Proof.
  intros H Hx w Hw j Hj. unfold setm. destruct (kvar_dec S N w v) as [->|_]; [|apply H; assumption].
  destruct (j =? i)%Z; [auto|apply H; assumption].
Qed.
Lemma seta_rel m1 m2 v a1 a2 : mrel m1 m2 -> (W v -> arel K1 K2 R n a1 a2) -> mrel (seta S N K1 m1 v a1) (seta S N K2 m2 v a2).
Proof.
  intros H Hx w Hw. unfold seta. destruct (kvar_dec S N w v) as [->|_]; [auto|apply H; exact Hw].
Qed.

Lemma fold_rel {A} (l : list A) (f1 : kmem S N K1 -> A -> kmem S N K1) (f2 : kmem S N K2 -> A -> kmem S N K2) :
  (forall m1 m2 a, In a l -> mrel m1 m2 -> mrel (f1 m1 a) (f2 m2 a)) ->
  forall m1 m2, mrel m1 m2 -> mrel (fold_left f1 l m1) (fold_left f2 l m2).
Proof.
  induction l as [|a l IH]; intros H m1 m2 Hm; [exact Hm|]. cbn [fold_left]. apply IH.
  - intros; apply H; auto. right; assumption.
  - apply H; [left; reflexivity|exact Hm].
Qed.

(** ** Forward *)

Lemma f_term_rel A g reg p e T1 T2 m1 m2 : In g (kgrp N A) -> dom S K1 P1 (g_h g) p = true -> In e (g_E g) ->
  (forall e', R (T1 e') (T2 e')) -> mrel m1 m2 ->
  let '(T1', m1') := f_term S N K1 P1 reg p (T1, m1) e in
  let '(T2', m2') := f_term S N K2 P2 reg p (T2, m2) e in
  (forall e', R (T1' e') (T2' e')) /\ mrel m1' m2'.
Proof.
  intros Hg Hp He HT Hm. pose proof (ko_Eg S N nd Nok A g e Hg He) as [_ Hh].
  pose proof (grp_E S N K1 P1 Nok A g e Hg He) as HeA.
  pose proof (ok_dim S nd Sok e HeA) as Hd. specialize (Hh _ Hd).
  unfold f_term. rewrite (sr_shape _ _ _ _ _ _ HP).
  set (d := edim S e) in *. set (i := idx shape p).
  pose proof (cell_idx _ _ Hp) as Hi. fold i in Hi. pose proof (cell_coord _ _ d Hp Hd) as Hy.
  assert (D : R (kdiff S K1 P1 (eh S e d) d (fun k => m1 (VX (esrc S e)) (i + k * stride shape d)%Z))
                (kdiff S K2 P2 (eh S e d) d (fun k => m2 (VX (esrc S e)) (i + k * stride shape d)%Z))).
  { apply kdiff_rel; [exact Hd|]. intros k Hk. rewrite <- Hh in Hk. apply Hm; [apply WX|]. apply (cell_shift _ _ d k Hp Hd Hk). }
  destruct (reg_at reg d =? 1)%Z.
  - split; [|exact Hm]. intros e'. destruct (kE_dec N e' e); [exact D|apply HT].
  - assert (E : R (sp_b P1 (eh S e d) d (coord d p) * kdiff S K1 P1 (eh S e d) d (fun k => m1 (VX (esrc S e)) (i + k * stride shape d)%Z)
                   + sp_a P1 (eh S e d) d (coord d p) * m1 (VM e) i)
                  (sp_b P2 (eh S e d) d (coord d p) * kdiff S K2 P2 (eh S e d) d (fun k => m2 (VX (esrc S e)) (i + k * stride shape d)%Z)
                   + sp_a P2 (eh S e d) d (coord d p) * m2 (VM e) i)).
    { apply Radd; apply Rmul; auto.
      - apply (sr_b _ _ _ _ _ _ HP); assumption.
      - apply (sr_a _ _ _ _ _ _ HP); assumption.
      - apply (Hm (VM e) (WM e) i Hi). }
    split.
    + intros e'. destruct (kE_dec N e' e); [apply Radd; [exact D|exact E]|apply HT].
    + apply setm_rel; [exact Hm|]. intros _. exact E.
Qed.

Lemma f_terms_rel A g reg p : In g (kgrp N A) -> dom S K1 P1 (g_h g) p = true -> forall l T1 T2 m1 m2, incl l (g_E g) ->
  (forall e', R (T1 e') (T2 e')) -> mrel m1 m2 ->
  (forall e', R (fst (fold_left (f_term S N K1 P1 reg p) l (T1, m1)) e') (fst (fold_left (f_term S N K2 P2 reg p) l (T2, m2)) e')) /\
  mrel (snd (fold_left (f_term S N K1 P1 reg p) l (T1, m1))) (snd (fold_left (f_term S N K2 P2 reg p) l (T2, m2))).
Proof.
  intros Hg Hp. induction l as [|e l IH]; intros T1 T2 m1 m2 Hl HT Hm; [split; assumption|]. cbn [fold_left].
  pose proof (f_term_rel A g reg p e T1 T2 m1 m2 Hg Hp (Hl e (or_introl eq_refl)) HT Hm) as H.
  destruct (f_term S N K1 P1 reg p (T1, m1) e) as [T1' m1'], (f_term S N K2 P2 reg p (T2, m2) e) as [T2' m2'].
  destruct H as [H1 H2]. apply IH; auto. intros x Hx. apply Hl. right. exact Hx.
Qed.

Lemma f_cell_rel A fq si c m1 m2 : cellok A c -> mrel m1 m2 ->
  mrel (f_cell S N K1 P1 U1 fq si m1 c) (f_cell S N K2 P2 U2 fq si m2 c).
Proof.
  destruct c as [g [reg p]]. intros [Hg Hp] Hm. cbn [fst snd] in Hg, Hp. unfold f_cell.
  rewrite (sr_shape _ _ _ _ _ _ HP). pose proof (cell_idx _ _ Hp) as Hi. set (i := idx shape p) in *.
  pose proof (f_terms_rel A g reg p Hg Hp (g_E g) (fun _ => 0) (fun _ => 0) m1 m2 (incl_refl _) (fun _ => R0) Hm) as H.
  destruct (fold_left (f_term S N K1 P1 reg p) (g_E g) (fun _ => 0, m1)) as [T1 n1].
  destruct (fold_left (f_term S N K2 P2 reg p) (g_E g) (fun _ => 0, m2)) as [T2 n2].
  cbn [fst snd] in H. destruct H as [HT Hn].
  apply fold_rel.
  - intros a1 a2 x Hx Ha. apply setm_rel; [exact Ha|]. intros _. apply Radd; [apply Ha; auto|].
    apply (nr_inc _ _ _ _ _ _ _ _ HU); auto.
  - apply fold_rel; [|exact Hn]. intros a1 a2 q Hq Ha. destruct (fq q); [|exact Ha].
    apply setm_rel; [exact Ha|]. intros _. apply (nr_sto _ _ _ _ _ _ _ _ HU). exact HT.
Qed.

Lemma k_add_rel locs am1 am2 m1 m2 c :
  (forall c, Forall (fun l => (l < n)%Z) (locs c)) -> Forall2 R (am1 c) (am2 c) -> mrel m1 m2 ->
  mrel (k_add S N K1 locs am1 m1 c) (k_add S N K2 locs am2 m2 c).
Proof.
  intros Hl Ha Hm. unfold k_add. apply fold_rel; [|exact Hm]. intros a1 a2 x Hx Hxx. apply seta_rel; [exact Hxx|].
  intros _. apply (arel_add _ _ _ RO); auto.
Qed.

Lemma k_rec_rel m1 m2 locs old1 old2 c : Forall (fun l => (l < n)%Z) locs -> Forall2 R old1 old2 -> mrel m1 m2 ->
  Forall2 R (k_rec S N K1 m1 locs old1 c) (k_rec S N K2 m2 locs old2 c).
Proof.
  intros Hl Ho Hm. unfold k_rec. apply (Forall2_record _ _ _ n); auto.
  intros i Hi. apply (R_sumf _ _ _ RO). intros x _. apply Hm; auto.
Qed.

Lemma kput_rel r1 r2 t cs f1 f2 : rrel r1 r2 ->
  (forall c o1 o2, TW t -> Forall2 R o1 o2 -> Forall2 R (f1 c o1) (f2 c o2)) ->
  rrel (kput S K1 r1 t cs f1) (kput S K2 r2 t cs f2).
Proof.
  intros Hr Hf u c Hu. unfold kput. destruct (Z.eqb_spec u t) as [->|Hn]; cbn [andb]; [|apply Hr; exact Hu].
  destruct (cs c); [apply Hf; [exact Hu|apply Hr; exact Hu]|apply Hr; exact Hu].
Qed.

Definition prrel (a : kmem S N K1 * krec S K1) (b : kmem S N K2 * krec S K2) : Prop :=
  mrel (fst a) (fst b) /\ rrel (snd a) (snd b).

Lemma f_body_rel visA visB fq sr f1 f2 mr1 mr2 t :
  (forall c, In c visA -> cellok true c) -> (forall c, In c visB -> cellok false c) ->
  (forall c, Forall2 R (f1 t c) (f2 t c)) -> prrel mr1 mr2 ->
  prrel (f_body S N K1 P1 U1 visA visB fq sr f1 mr1 t) (f_body S N K2 P2 U2 visA visB fq sr f2 mr2 t).
Proof.
  intros HA HB Hf [Hm Hr]. destruct mr1 as [m1 r1], mr2 as [m2 r2]. cbn [fst snd] in Hm, Hr. unfold f_body.
  rewrite (sr_rec _ _ _ _ _ _ HP), (sr_src _ _ _ _ _ _ HP). split; cbn [fst snd].
  - apply fold_rel; [intros; apply k_add_rel; auto|].
    apply fold_rel; [intros; apply (f_cell_rel false); auto|].
    apply fold_rel; [intros; apply k_add_rel; auto|].
    apply fold_rel; [intros; apply (f_cell_rel true); auto|]. exact Hm.
  - apply kput_rel; [exact Hr|]. intros c o1 o2 _ Ho. apply k_rec_rel; auto.
Qed.

Lemma k_forward_rel visA visB fq sr f1 f2 nt s0 mr1 mr2 :
  (forall c, In c visA -> cellok true c) -> (forall c, In c visB -> cellok false c) ->
  (forall t c, (s0 <= t < s0 + nt)%Z -> Forall2 R (f1 t c) (f2 t c)) -> prrel mr1 mr2 ->
  prrel (k_forward S N K1 P1 U1 visA visB fq sr f1 nt s0 mr1) (k_forward S N K2 P2 U2 visA visB fq sr f2 nt s0 mr2).
Proof.
  intros HA HB Hf. unfold k_forward.
  assert (Hl : forall t, In t (zrange s0 (s0 + nt)) -> forall c, Forall2 R (f1 t c) (f2 t c)).
  { intros t Ht c. apply Hf. apply In_zrange. exact Ht. }
  revert mr1 mr2. induction (zrange s0 (s0 + nt)) as [|t l IH]; intros mr1 mr2 H; [exact H|]. cbn [fold_left].
  apply IH; [intros; apply Hl; right; assumption|]. apply f_body_rel; auto. apply Hl. left. reflexivity.
Qed.

(** ** Backward *)

Lemma b_sum_rel A g reg p x m1 m2 : In g (kgrp N A) -> dom S K1 P1 (g_h g) p = true -> In x (g_X g) -> mrel m1 m2 ->
  R (b_sum S N K1 P1 U1 m1 reg p x) (b_sum S N K2 P2 U2 m2 reg p x).
Proof.
  intros Hg Hp Hx Hm. unfold b_sum. rewrite (sr_shape _ _ _ _ _ _ HP). apply (R_sumf _ _ _ RO). intros e He.
  apply (srcE_spec S K1 P1 Sok) in He. destruct He as (He & Hs & _).
  pose proof (ok_dim S nd Sok e He) as Hd. pose proof (ok_flip S nd Sok e He) as Hf. rewrite Hs in Hf.
  destruct (ko_Xg S N nd Nok A g x Hg Hx) as [_ Hh]. specialize (Hh _ Hd). rewrite Hf in Hh.
  set (d := edim S e) in *. apply Ropp. apply kdiff_rel; [exact Hd|]. intros k Hk. rewrite <- Hh in Hk.
  destruct (cell_shift _ _ d k Hp Hd Hk) as [Hj Hy].
  destruct (reg_at reg d =? 1)%Z.
  - apply (nr_tb _ _ _ _ _ _ _ _ HU); [exact Hj|]. intros x'. apply Hm; auto.
  - apply (nr_tbp _ _ _ _ _ _ _ _ HU); [exact Hj| | |].
    + apply (sr_b _ _ _ _ _ _ HP); assumption.
    + apply (Hm (VM e) (WM e)). exact Hj.
    + intros x'. apply Hm; auto.
Qed.

Lemma b_mem_rel A g dst reg p e m1 m2 : In g (kgrp N A) -> dom S K1 P1 (g_h g) p = true -> In e (g_E g) -> mrel m1 m2 ->
  mrel (b_mem S N K1 P1 U1 dst reg p m1 e) (b_mem S N K2 P2 U2 dst reg p m2 e).
Proof.
  intros Hg Hp He Hm. unfold b_mem. rewrite (sr_shape _ _ _ _ _ _ HP). pose proof (cell_idx _ _ Hp) as Hi.
  pose proof (ok_dim S nd Sok e (grp_E S N K1 P1 Nok A g e Hg He)) as Hd.
  destruct (kguard N e && _); [exact Hm|]. apply setm_rel; [exact Hm|]. intros _.
  apply (nr_mem _ _ _ _ _ _ _ _ HU); [exact Hi| | |].
  - apply (sr_a _ _ _ _ _ _ HP); [exact Hd|]. apply (cell_coord _ _ _ Hp Hd).
  - apply (Hm (VM e) (WM e)). exact Hi.
  - intros x'. apply Hm; auto.
Qed.

Lemma ofZ_rel z : R (ofZ K1 z) (ofZ K2 z).
Proof. apply (or_q _ _ _ RO). Qed.

Lemma b_grad_rel fm sr si i k m1 m2 : (0 <= i < n)%Z -> (fm k = true -> forall q, W (VQ q si)) -> mrel m1 m2 ->
  mrel (b_grad S N K1 U1 fm (ofZ K1 sr) si i m1 k) (b_grad S N K2 U2 fm (ofZ K2 sr) si i m2 k).
Proof.
  intros Hi HQ Hm. unfold b_grad. destruct (fm k) eqn:Ef; [|exact Hm]. apply setm_rel; [exact Hm|]. intros Hw.
  apply Radd; [apply Hm; auto|]. apply (nr_gm _ _ _ _ _ _ _ _ HU).
  - intros x. apply Hm; auto.
  - intros q. apply Hm; auto.
  - apply ofZ_rel.
Qed.

Lemma bA_cell_rel A fm sr si c m1 m2 : cellok A c -> (forall k, fm k = true -> forall q, W (VQ q si)) -> mrel m1 m2 ->
  mrel (bA_cell S N K1 P1 U1 fm sr si m1 c) (bA_cell S N K2 P2 U2 fm sr si m2 c).
Proof.
  destruct c as [g [reg p]]. intros [Hg Hp] HQ Hm. cbn [fst snd] in Hg, Hp. unfold bA_cell.
  rewrite (sr_shape _ _ _ _ _ _ HP). pose proof (cell_idx _ _ Hp) as Hi.
  apply fold_rel; [intros; apply b_grad_rel; eauto|].
  apply fold_rel; [intros; apply (b_mem_rel A g); auto|].
  apply fold_rel; [|exact Hm]. intros a1 a2 x Hx Ha. apply setm_rel; [exact Ha|]. intros _.
  apply Radd; [apply Ha; auto|]. apply (b_sum_rel A g); auto.
Qed.

Lemma bB_cell_rel A fm sr si c m1 m2 : cellok A c -> (forall k, fm k = true -> forall q, W (VQ q si)) -> mrel m1 m2 ->
  mrel (bB_cell S N K1 P1 U1 fm sr si m1 c) (bB_cell S N K2 P2 U2 fm sr si m2 c).
Proof.
  destruct c as [g [reg p]]. intros [Hg Hp] HQ Hm. cbn [fst snd] in Hg, Hp. unfold bB_cell.
  rewrite (sr_shape _ _ _ _ _ _ HP). pose proof (cell_idx _ _ Hp) as Hi.
  apply fold_rel.
  { intros a1 a2 x Hx Ha. apply setm_rel; [exact Ha|]. intros _.
    apply Radd; [apply Ha; auto|]. apply (b_sum_rel A g); auto. }
  apply fold_rel; [intros; apply (b_mem_rel A g); auto|].
  apply fold_rel; [intros; apply b_grad_rel; eauto|]. exact Hm.
Qed.

Lemma kswap_rel m1 m2 : mrel m1 m2 -> mrel (kswap S N K1 m1) (kswap S N K2 m2).
Proof.
  intros H v Hv. destruct v; cbn [kswap]; try (apply H; exact Hv); destruct (eA S e); apply H; auto.
Qed.

Lemma b_body_rel visA visB fm sr gr1 gr2 t mr1 mr2 :
  (forall c, In c visA -> cellok true c) -> (forall c, In c visB -> cellok false c) ->
  (forall c, Forall2 R (gr1 t c) (gr2 t c)) -> ((t mod sr = 0)%Z -> forall q, W (VQ q (t / sr)%Z)) -> prrel mr1 mr2 ->
  prrel (b_body S N K1 P1 U1 visA visB fm sr gr1 t mr1) (b_body S N K2 P2 U2 visA visB fm sr gr2 t mr2).
Proof.
  intros HA HB Hf HQ [Hm Hr]. destruct mr1 as [m1 r1], mr2 as [m2 r2]. cbn [fst snd] in Hm, Hr. unfold b_body.
  rewrite (sr_rec _ _ _ _ _ _ HP), (sr_src _ _ _ _ _ _ HP).
  assert (HQ' : forall k : kM N, fm k && (t mod sr =? 0)%Z = true -> forall q, W (VQ q (t / sr)%Z)).
  { intros k Hk. apply andb_true_iff in Hk. apply HQ. apply Z.eqb_eq. tauto. }
  assert (H1 : mrel (fold_left (bA_cell S N K1 P1 U1 (fun k => fm k && (t mod sr =? 0)%Z) sr (t / sr)%Z) visA m1)
                    (fold_left (bA_cell S N K2 P2 U2 (fun k => fm k && (t mod sr =? 0)%Z) sr (t / sr)%Z) visA m2)).
  { apply fold_rel; [|exact Hm]. intros. apply (bA_cell_rel true); auto. }
  split; cbn [fst snd].
  - apply fold_rel; [intros; apply k_add_rel; auto|].
    apply fold_rel; [|exact H1]. intros; apply (bB_cell_rel false); auto.
  - apply kput_rel; [apply kput_rel; [exact Hr|]|]; intros c o1 o2 _ Ho; apply k_rec_rel; auto.
Qed.

Lemma mswap_rel mr1 mr2 : prrel mr1 mr2 -> prrel (mswap S N K1 mr1) (mswap S N K2 mr2).
Proof. intros [H1 H2]. split; [apply kswap_rel; exact H1|exact H2]. Qed.

Lemma k_backward_rel visA visB fm sr gr1 gr2 nt s0 mr1 mr2 :
  (forall c, In c visA -> cellok true c) -> (forall c, In c visB -> cellok false c) ->
  (forall t c, (s0 - nt <= t < s0)%Z -> Forall2 R (gr1 t c) (gr2 t c)) ->
  (forall t, (s0 - nt <= t < s0)%Z -> (t mod sr = 0)%Z -> forall q, W (VQ q (t / sr)%Z)) -> prrel mr1 mr2 ->
  prrel (k_backward S N K1 P1 U1 visA visB fm sr gr1 nt s0 mr1) (k_backward S N K2 P2 U2 visA visB fm sr gr2 nt s0 mr2).
Proof.
  intros HA HB Hf HQ. unfold k_backward.
  assert (Hl : forall t, In t (rev (zrange (s0 - nt) s0)) -> (s0 - nt <= t < s0)%Z).
  { intros t Ht. apply in_rev in Ht. apply In_zrange. exact Ht. }
  revert mr1 mr2. induction (rev (zrange (s0 - nt) s0)) as [|t l IH]; intros mr1 mr2 H; [exact H|]. cbn [fold_left].
  apply IH; [intros; apply Hl; right; assumption|]. specialize (Hl t (or_introl eq_refl)).
  unfold b_t. destruct (Z.odd _); [apply mswap_rel|]; (apply b_body_rel; auto). apply mswap_rel. exact H.
Qed.

End SRel.
