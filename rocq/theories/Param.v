(** * Kernels map related memories to related memories.

    [R] relates numbers of two systems of operations and is preserved by the operations.
    If two memories are related inside the allocated windows, so are the memories after a
    kernel ran.  Uses: values computed by the kernels depend only on the allocated windows
    ([R] equality), no read outside of them happens ([R] with poisoned values), dual numbers
    compute real derivatives ([R] with functions). *)
From Coq Require Import List ZArith QArith Lia Bool.
From Verif Require Import Ops Sums Grid Stencil ScalarModel ScalarRefine ScalarForward ScalarBackward ScalarFunc.
Import ListNotations.
Local Open Scope K_scope.

Record oprel (K1 K2 : ops) (R : K1 -> K2 -> Prop) : Prop := mkoprel {
  or_0 : R 0 0;
  or_1 : R 1 1;
  or_add : forall x x' y y', R x x' -> R y y' -> R (x + y) (x' + y');
  or_mul : forall x x' y y', R x x' -> R y y' -> R (x * y) (x' * y');
  or_sub : forall x x' y y', R x x' -> R y y' -> R (x - y) (x' - y');
  or_opp : forall x x', R x x' -> R (- x) (- x');
  or_q : forall q, R (oq K1 q) (oq K2 q)
}.

(** Equality is such a relation. *)
Lemma oprel_eq (K : ops) : oprel K K eq.
Proof. split; intros; congruence. Qed.

Section Rel.
Variables K1 K2 : ops.
Variable R : K1 -> K2 -> Prop.
Hypothesis RO : oprel K1 K2 R.

Let R0 := or_0 _ _ _ RO.
Let R1 := or_1 _ _ _ RO.
Let Radd := or_add _ _ _ RO.
Let Rmul := or_mul _ _ _ RO.
Let Rsub := or_sub _ _ _ RO.
Let Ropp := or_opp _ _ _ RO.
Let Rq := or_q _ _ _ RO.

Lemma R_two : R two two.
Proof. apply Radd; exact R1. Qed.

Lemma R_sumf {A} (l : list A) f1 f2 :
  (forall x, In x l -> R (f1 x) (f2 x)) -> R (sumf l f1) (sumf l f2).
Proof.
  induction l as [|x l IH]; intros H; cbn; [exact R0|].
  apply Radd; [apply H; left; reflexivity|apply IH; intros; apply H; right; assumption].
Qed.

Lemma R_st_odd cs k g1 g2 :
  (forall j, (k <= j < k + Z.of_nat (length cs))%Z -> R (g1 j) (g2 j) /\ R (g1 (-j)%Z) (g2 (-j)%Z)) ->
  R (st_odd cs k g1) (st_odd cs k g2).
Proof.
  revert k; induction cs as [|c cs IH]; intros k H; cbn; [exact R0|].
  destruct (H k) as [A B]; [cbn [length]; lia|]. apply Radd.
  - apply Rmul; [apply Rq|apply Rsub; assumption].
  - apply IH. intros j Hj. apply H. cbn [length]. lia.
Qed.

Lemma R_st_even cs k g1 g2 :
  (forall j, (k <= j < k + Z.of_nat (length cs))%Z -> R (g1 j) (g2 j) /\ R (g1 (-j)%Z) (g2 (-j)%Z)) ->
  R (st_even cs k g1) (st_even cs k g2).
Proof.
  revert k; induction cs as [|c cs IH]; intros k H; cbn; [exact R0|].
  destruct (H k) as [A B]; [cbn [length]; lia|]. apply Radd.
  - apply Rmul; [apply Rq|apply Radd; assumption].
  - apply IH. intros j Hj. apply H. cbn [length]. lia.
Qed.

Lemma R_st_int cs k g1 g2 :
  (forall j, (k <= j < k + Z.of_nat (length cs))%Z -> R (g1 (j - 1)%Z) (g2 (j - 1)%Z) /\ R (g1 (-j)%Z) (g2 (-j)%Z)) ->
  R (st_int cs k g1) (st_int cs k g2).
Proof.
  revert k; induction cs as [|c cs IH]; intros k H; cbn; [exact R0|].
  destruct (H k) as [A B]; [cbn [length]; lia|]. apply Radd.
  - apply Rmul; [apply Rq|apply Rsub; assumption].
  - apply IH. intros j Hj. apply H. cbn [length]. lia.
Qed.

Lemma R_st_half cs k g1 g2 :
  (forall j, (k <= j < k + Z.of_nat (length cs))%Z -> R (g1 j) (g2 j) /\ R (g1 (1 - j)%Z) (g2 (1 - j)%Z)) ->
  R (st_half cs k g1) (st_half cs k g2).
Proof.
  revert k; induction cs as [|c cs IH]; intros k H; cbn; [exact R0|].
  destruct (H k) as [A B]; [cbn [length]; lia|]. apply Radd.
  - apply Rmul; [apply Rq|apply Rsub; assumption].
  - apply IH. intros j Hj. apply H. cbn [length]. lia.
Qed.

Lemma R_DIFF1 a rd1 rd2 g1 g2 : R rd1 rd2 ->
  (forall k, (- fd_pad a <= k <= fd_pad a)%Z -> R (g1 k) (g2 k)) -> R (DIFF1 a rd1 g1) (DIFF1 a rd2 g2).
Proof.
  intros Hr H. apply Rmul; [|exact Hr]. apply R_st_odd. intros j Hj.
  assert (Z.of_nat (length (coef1 a)) = fd_pad a) by (destruct a; reflexivity). split; apply H; lia.
Qed.

Lemma R_DIFF2 a rd1 rd2 g1 g2 : R rd1 rd2 ->
  (forall k, (- fd_pad a <= k <= fd_pad a)%Z -> R (g1 k) (g2 k)) -> R (DIFF2 a rd1 g1) (DIFF2 a rd2 g2).
Proof.
  intros Hr H. pose proof (fd_pad_pos a). apply Rmul; [|exact Hr]. apply Radd.
  - apply Rmul; [apply Rq|apply H; lia].
  - apply R_st_even. intros j Hj.
    assert (Z.of_nat (length (coef2 a)) = fd_pad a) by (destruct a; reflexivity). split; apply H; lia.
Qed.

Lemma R_SDIFF1 a rd1 rd2 g1 g2 : R rd1 rd2 ->
  (forall k, (- fd_pad a <= k <= fd_pad a)%Z -> R (g1 k) (g2 k)) -> R (SDIFF1 a rd1 g1) (SDIFF1 a rd2 g2).
Proof.
  intros Hr H. apply Rmul; [|exact Hr]. apply R_st_int. intros j Hj.
  assert (Z.of_nat (length (coefs a)) = fd_pad a) by (destruct a; reflexivity). split; apply H; lia.
Qed.

Lemma R_SDIFFH1 a rd1 rd2 g1 g2 : R rd1 rd2 ->
  (forall k, (- fd_pad a <= k <= fd_pad a)%Z -> R (g1 k) (g2 k)) -> R (SDIFFH1 a rd1 g1) (SDIFFH1 a rd2 g2).
Proof.
  intros Hr H. apply Rmul; [|exact Hr]. apply R_st_half. intros j Hj.
  assert (Z.of_nat (length (coefs a)) = fd_pad a) by (destruct a; reflexivity). split; apply H; lia.
Qed.

(** Arrays related on the window [0 <= i < n]. *)
Definition arel (n : Z) (m1 : arr K1) (m2 : arr K2) : Prop := forall i, (0 <= i < n)%Z -> R (m1 i) (m2 i).

Lemma arel_upd n m1 m2 i x1 x2 : arel n m1 m2 -> R x1 x2 -> arel n (upd m1 i x1) (upd m2 i x2).
Proof. intros H Hx j Hj. unfold upd. destruct (j =? i)%Z; [exact Hx|apply H; exact Hj]. Qed.

Lemma arel_add n locs a1 a2 m1 m2 :
  Forall (fun l => (l < n)%Z) locs -> arel n m1 m2 -> Forall2 R a1 a2 ->
  arel n (add_to_wavefield K1 m1 locs a1) (add_to_wavefield K2 m2 locs a2).
Proof.
  intros Hl Hm Ha. unfold add_to_wavefield. revert m1 m2 a1 a2 Hm Ha.
  induction locs as [|l locs IH]; intros m1 m2 a1 a2 Hm Ha; [exact Hm|].
  inversion Ha as [|x1 x2 b1 b2 Hx Hb]; subst; [exact Hm|]. cbn [combine fold_left fst snd].
  inversion Hl as [|? ? Hl1 Hl2]; subst. apply IH; auto.
  destruct (Z.leb_spec 0 l); [|exact Hm]. apply arel_upd; [exact Hm|]. apply Radd; [apply Hm; lia|exact Hx].
Qed.

Lemma Forall2_record n locs a1 a2 m1 m2 :
  Forall (fun l => (l < n)%Z) locs -> arel n m1 m2 -> Forall2 R a1 a2 ->
  Forall2 R (record_from_wavefield K1 m1 locs a1) (record_from_wavefield K2 m2 locs a2).
Proof.
  intros Hl Hm. revert a1 a2. unfold record_from_wavefield.
  induction locs as [|l locs IH]; intros a1 a2 Ha; [constructor|].
  inversion Ha as [|x1 x2 b1 b2 Hx Hb]; subst; [constructor|]. inversion Hl as [|? ? Hl1 Hl2]; subst.
  cbn [combine map fst snd]. constructor; [|apply IH; assumption].
  destruct (Z.leb_spec 0 l); [apply Hm; lia|exact Hx].
Qed.

(** ** Scalar kernels *)

Variable P1 : par K1.
Variable P2 : par K2.
Notation shape := (p_shape P1).
Notation nd := (length shape).
Notation fd := (fd_pad (p_acc P1)).
Notation n := (prodZ shape).
Notation inint p := (interior K1 P1 p = true).

(** Parameters related on the allocated part of the profiles. *)
Record prel : Prop := {
  pr_acc : p_acc P2 = p_acc P1;
  pr_shape : p_shape P2 = p_shape P1;
  pr_src : p_src P2 = p_src P1;
  pr_rec : p_rec P2 = p_rec P1;
  pr_rd : forall d, (d < nd)%nat -> R (p_rd P1 d) (p_rd P2 d);
  pr_rd2 : forall d, (d < nd)%nat -> R (p_rd2 P1 d) (p_rd2 P2 d);
  pr_a : forall d y, (d < nd)%nat -> (0 <= y < nth d shape 0)%Z -> R (p_a P1 d y) (p_a P2 d y);
  pr_b : forall d y, (d < nd)%nat -> (0 <= y < nth d shape 0)%Z -> R (p_b P1 d y) (p_b P2 d y);
  pr_db : forall d y, (d < nd)%nat -> (0 <= y < nth d shape 0)%Z -> R (p_db P1 d y) (p_db P2 d y);
  pr_dt2 : R (p_dt2 P1) (p_dt2 P2)
}.
Hypothesis HP : prel.
Hypothesis Hsrc : Forall (fun l => (l < n)%Z) (p_src P1).
Hypothesis Hrec : Forall (fun l => (l < n)%Z) (p_rec P1).

(** Times and snapshots for which memory is allocated. *)
Variables TW SW : Z -> Prop.

Record crel (m1 : cmem K1) (m2 : cmem K2) : Prop := mkcrel {
  cr_wfc : arel n (m_wfc K1 m1) (m_wfc K2 m2);
  cr_wfp : arel n (m_wfp K1 m1) (m_wfp K2 m2);
  cr_psi : forall d, (d < nd)%nat -> arel n (m_psi K1 m1 d) (m_psi K2 m2 d);
  cr_psin : forall d, (d < nd)%nat -> arel n (m_psin K1 m1 d) (m_psin K2 m2 d);
  cr_zeta : forall d, (d < nd)%nat -> arel n (m_zeta K1 m1 d) (m_zeta K2 m2 d);
  cr_store : forall s, SW s -> arel n (m_store K1 m1 s) (m_store K2 m2 s);
  cr_r : forall t, TW t -> Forall2 R (m_r K1 m1 t) (m_r K2 m2 t)
}.

Lemma win_shift p d k : inint p -> (d < nd)%nat -> (- fd <= k <= fd)%Z ->
  (0 <= idx shape p + k * stride shape d < n)%Z /\ (0 <= coord d p + k < nth d shape 0)%Z.
Proof.
  intros Hp Hd Hk. pose proof (inint_shift K1 P1 d k p Hp Hk) as Hs. split.
  - rewrite <- idx_shift by (apply (inint_length K1 P1); exact Hp). apply idx_bound. exact Hs.
  - rewrite <- (coord_shift_same d k p) by (rewrite (inint_length K1 P1); auto).
    apply inb_spec in Hs. destruct Hs as [_ Hs]. specialize (Hs d).
    rewrite abox_length in Hs. specialize (Hs Hd). rewrite nth_abox in Hs by exact Hd. exact Hs.
Qed.

Lemma win_idx p : inint p -> (0 <= idx shape p < n)%Z.
Proof. intros Hp. apply idx_bound. apply (inint_arr K1 P1). exact Hp. Qed.

Lemma win_coord p d : inint p -> (d < nd)%nat -> (0 <= coord d p < nth d shape 0)%Z.
Proof.
  intros Hp Hd. pose proof (fd_pad_pos (p_acc P1)). destruct (win_shift p d 0 Hp Hd ltac:(lia)) as [_ H0].
  rewrite Z.add_0_r in H0. exact H0.
Qed.

Lemma crel_dim reg p d w1 w2 m1 m2 :
  inint p -> (d < nd)%nat -> R w1 w2 -> crel m1 m2 ->
  let '(w1', m1') := c_fwd_dim K1 P1 reg p (w1, m1) d in
  let '(w2', m2') := c_fwd_dim K2 P2 reg p (w2, m2) d in
  R w1' w2' /\ crel m1' m2'.
Proof.
  intros Hp Hd Hw Hm. unfold c_fwd_dim. rewrite (pr_acc HP), (pr_shape HP).
  pose proof (win_coord p d Hp Hd) as Hy. pose proof (win_idx p Hp) as Hi.
  pose proof (pr_a HP d _ Hd Hy) as Ha. pose proof (pr_b HP d _ Hd Hy) as Hb. pose proof (pr_db HP d _ Hd Hy) as Hdb.
  pose proof (cr_psi _ _ Hm d Hd) as Hpsi. pose proof (cr_zeta _ _ Hm d Hd) as Hzeta.
  assert (E2 : R (DIFF2 (p_acc P1) (p_rd2 P1 d) (fun k => m_wfc K1 m1 (idx shape p + k * stride shape d)%Z))
                 (DIFF2 (p_acc P1) (p_rd2 P2 d) (fun k => m_wfc K2 m2 (idx shape p + k * stride shape d)%Z))).
  { apply R_DIFF2; [apply (pr_rd2 HP); exact Hd|]. intros k Hk. apply (cr_wfc _ _ Hm). apply win_shift; assumption. }
  destruct (nth d reg 0 =? 1)%Z; [split; [apply Radd; assumption|exact Hm]|].
  assert (E1 : R (DIFF1 (p_acc P1) (p_rd P1 d) (fun k => m_wfc K1 m1 (idx shape p + k * stride shape d)%Z))
                 (DIFF1 (p_acc P1) (p_rd P2 d) (fun k => m_wfc K2 m2 (idx shape p + k * stride shape d)%Z))).
  { apply R_DIFF1; [apply (pr_rd HP); exact Hd|]. intros k Hk. apply (cr_wfc _ _ Hm). apply win_shift; assumption. }
  assert (EA : R (DIFF1 (p_acc P1) (p_rd P1 d) (fun k => p_a P1 d (coord d p + k)%Z * m_psi K1 m1 d (idx shape p + k * stride shape d)%Z))
                 (DIFF1 (p_acc P1) (p_rd P2 d) (fun k => p_a P2 d (coord d p + k)%Z * m_psi K2 m2 d (idx shape p + k * stride shape d)%Z))).
  { apply R_DIFF1; [apply (pr_rd HP); exact Hd|]. intros k Hk. destruct (win_shift p d k Hp Hd Hk).
    apply Rmul; [apply (pr_a HP); assumption|apply Hpsi; assumption]. }
  set (T1 := (1 + p_b P1 d (coord d p)) * DIFF2 _ _ _ + _ + _).
  set (T2 := (1 + p_b P2 d (coord d p)) * DIFF2 _ _ _ + _ + _).
  assert (ET : R T1 T2) by (unfold T1, T2; auto 10).
  split.
  - apply Radd; [exact Hw|]. apply Radd; apply Rmul; auto.
  - destruct Hm. split; cbn; auto.
    + intros e He. unfold updd. destruct (Nat.eqb_spec e d); [subst|auto]. apply arel_upd; auto 10.
    + intros e He. unfold updd. destruct (Nat.eqb_spec e d); [subst|auto]. apply arel_upd; auto 10.
Qed.

Lemma crel_dims reg p ds w1 w2 m1 m2 :
  inint p -> (forall d, In d ds -> (d < nd)%nat) -> R w1 w2 -> crel m1 m2 ->
  R (fst (fold_left (c_fwd_dim K1 P1 reg p) ds (w1, m1))) (fst (fold_left (c_fwd_dim K2 P2 reg p) ds (w2, m2))) /\
  crel (snd (fold_left (c_fwd_dim K1 P1 reg p) ds (w1, m1))) (snd (fold_left (c_fwd_dim K2 P2 reg p) ds (w2, m2))).
Proof.
  intros Hp. revert w1 w2 m1 m2. induction ds as [|d ds IH]; intros w1 w2 m1 m2 Hds Hw Hm; cbn [fold_left].
  - split; assumption.
  - pose proof (crel_dim reg p d w1 w2 m1 m2 Hp (Hds d (or_introl eq_refl)) Hw Hm) as H.
    destruct (c_fwd_dim K1 P1 reg p (w1, m1) d) as [w1' m1']. destruct (c_fwd_dim K2 P2 reg p (w2, m2) d) as [w2' m2'].
    destruct H. apply IH; auto. intros e He. apply Hds. right. exact He.
Qed.

Lemma dims_eq : dims K2 P2 = dims K1 P1.
Proof. unfold dims. rewrite (pr_shape HP). reflexivity. Qed.

Lemma dims_lt d : In d (dims K1 P1) -> (d < nd)%nat.
Proof. intros H. apply in_seq in H. lia. Qed.

Lemma crel_cell v1 v2 sto si m1 m2 reg p :
  inint p -> arel n v1 v2 -> (sto = true -> SW si) -> crel m1 m2 ->
  crel (c_fwd_cell K1 P1 v1 sto si m1 (reg, p)) (c_fwd_cell K2 P2 v2 sto si m2 (reg, p)).
Proof.
  intros Hp Hv Hs Hm. unfold c_fwd_cell. rewrite dims_eq, (pr_shape HP).
  destruct (crel_dims reg p (dims K1 P1) 0 0 m1 m2 Hp dims_lt R0 Hm) as [A B].
  destruct (fold_left (c_fwd_dim K1 P1 reg p) (dims K1 P1) (0, m1)) as [w1 m1'].
  destruct (fold_left (c_fwd_dim K2 P2 reg p) (dims K1 P1) (0, m2)) as [w2 m2']. cbn [fst snd] in A, B.
  pose proof (win_idx p Hp) as Hi. pose proof R_two as R2. pose proof (pr_dt2 HP) as Hdt.
  destruct B. split; cbn; auto.
  - apply arel_upd; auto. apply Rsub; [apply Radd|]; auto 10.
  - intros s Ss. destruct sto; [|auto]. destruct (Z.eqb_spec s si); [subst|auto]. apply arel_upd; auto 10.
Qed.

Lemma crel_cells v1 v2 sto si vis m1 m2 :
  (forall reg p, In (reg, p) vis -> inint p) -> arel n v1 v2 -> (sto = true -> SW si) -> crel m1 m2 ->
  crel (fold_left (c_fwd_cell K1 P1 v1 sto si) vis m1) (fold_left (c_fwd_cell K2 P2 v2 sto si) vis m2).
Proof.
  revert m1 m2. induction vis as [|[reg p] vis IH]; intros m1 m2 Hvis Hv Hs Hm; cbn [fold_left]; [exact Hm|].
  apply IH; auto.
  - intros r q Hq. apply (Hvis r q). right. exact Hq.
  - apply crel_cell; auto. apply (Hvis reg p). left. reflexivity.
Qed.

Section Body.
Variables (v1 : arr K1) (v2 : arr K2) (vis : list (list Z * pt)) (vrg : bool) (sr : Z).
Variables (f1 : Z -> list K1) (f2 : Z -> list K2).
Hypothesis Hvis : forall reg p, In (reg, p) vis -> inint p.
Hypothesis Hv : arel n v1 v2.
Hypothesis Hf : forall t, TW t -> Forall2 R (f1 t) (f2 t).
Hypothesis HSW : forall t, TW t -> SW (t / sr)%Z.

Lemma crel_body t m1 m2 : TW t -> crel m1 m2 ->
  crel (c_fwd_body K1 P1 v1 vis vrg sr f1 t m1) (c_fwd_body K2 P2 v2 vis vrg sr f2 t m2).
Proof.
  intros Ht Hm. unfold c_fwd_body.
  assert (H : crel (fold_left (c_fwd_cell K1 P1 v1 (vrg && (t mod sr =? 0)%Z) (t / sr)%Z) vis m1)
                   (fold_left (c_fwd_cell K2 P2 v2 (vrg && (t mod sr =? 0)%Z) (t / sr)%Z) vis m2)).
  { apply crel_cells; auto. }
  destruct H. split; cbn; auto.
  - rewrite (pr_src HP). apply arel_add; auto.
  - intros u Hu. rewrite (pr_rec HP). destruct (u =? t)%Z; [|auto]. apply (Forall2_record n); auto.
Qed.

Lemma crel_swap m1 m2 : crel m1 m2 -> crel (c_swap K1 m1) (c_swap K2 m2).
Proof. intros []. split; cbn; auto. Qed.

Lemma crel_forward ts s0 m1 m2 : (forall t, In t ts -> TW t) -> crel m1 m2 ->
  crel (fold_left (c_fwd_t K1 P1 v1 vis vrg sr f1 s0) ts m1) (fold_left (c_fwd_t K2 P2 v2 vis vrg sr f2 s0) ts m2).
Proof.
  revert m1 m2. induction ts as [|t ts IH]; intros m1 m2 Ht Hm; cbn [fold_left]; [exact Hm|].
  apply IH; [intros; apply Ht; right; assumption|]. unfold c_fwd_t.
  destruct (Z.odd (t - s0)); [apply crel_swap|]; apply crel_body; auto using crel_swap; apply Ht; left; reflexivity.
Qed.

Lemma crel_chunk N cf m1 m2 s : (0 < sr)%Z -> (forall t, (0 <= t < N * sr)%Z -> TW t) -> (0 <= s)%Z -> crel m1 m2 ->
  crel (fwd_chunk K1 P1 v1 vis vrg sr f1 N cf m1 s) (fwd_chunk K2 P2 v2 vis vrg sr f2 N cf m2 s).
Proof.
  intros Hsr HT Hs Hm. unfold fwd_chunk, c_forward.
  match goal with |- crel (if _ then ?a else _) (if _ then ?b else _) => assert (H : crel a b) end.
  { apply crel_forward; [|exact Hm]. intros t Ht. apply In_zrange in Ht. apply HT. nia. }
  destruct (_ =? 0)%Z; [exact H|apply crel_swap; exact H].
Qed.

Lemma crel_driver nt cb m1 m2 : (0 < sr)%Z -> (forall c, cb = Some c -> (0 < c)%Z) ->
  (forall t, (0 <= t < nt / sr * sr)%Z -> TW t) -> crel m1 m2 ->
  match fwd_driver K1 P1 v1 vis vrg sr f1 nt cb m1, fwd_driver K2 P2 v2 vis vrg sr f2 nt cb m2 with
  | Some a, Some b => crel a b
  | None, None => True
  | _, _ => False
  end.
Proof.
  intros Hsr Hcb HT Hm. unfold fwd_driver. destruct (Z.leb_spec nt 0); [exact Hm|].
  set (cf := match cb with Some c => c | None => (nt / sr)%Z end).
  destruct (Z.eqb_spec cf 0); [exact I|].
  assert (Hc : (0 < cf)%Z).
  { unfold cf in *. destruct cb as [c|]; [apply Hcb; reflexivity|]. pose proof (Z.div_pos nt sr). lia. }
  assert (G : forall l, (forall s, In s l -> (0 <= s)%Z) -> forall m1 m2, crel m1 m2 ->
    crel (fold_left (fwd_chunk K1 P1 v1 vis vrg sr f1 (nt / sr) cf) l m1)
         (fold_left (fwd_chunk K2 P2 v2 vis vrg sr f2 (nt / sr) cf) l m2)).
  { induction l as [|s l IH]; intros Hl a b Hab; cbn [fold_left]; [exact Hab|].
    apply IH; [intros; apply Hl; right; assumption|]. apply crel_chunk; auto. apply Hl. left. reflexivity. }
  apply G; [|exact Hm]. intros s Hs. unfold range_up in Hs. apply in_map_iff in Hs.
  destruct Hs as (i & <- & Hi). apply In_zrange in Hi. nia.
Qed.
End Body.

(** ** Backward *)

Record brelm (m1 : bmem K1) (m2 : bmem K2) : Prop := mkbrelm {
  br_wfc : arel n (g_wfc K1 m1) (g_wfc K2 m2);
  br_wfp : arel n (g_wfp K1 m1) (g_wfp K2 m2);
  br_psi : forall d, (d < nd)%nat -> arel n (g_psi K1 m1 d) (g_psi K2 m2 d);
  br_psin : forall d, (d < nd)%nat -> arel n (g_psin K1 m1 d) (g_psin K2 m2 d);
  br_zeta : forall d, (d < nd)%nat -> arel n (g_zeta K1 m1 d) (g_zeta K2 m2 d);
  br_zetan : forall d, (d < nd)%nat -> arel n (g_zetan K1 m1 d) (g_zetan K2 m2 d);
  br_f : forall t, TW t -> Forall2 R (g_f K1 m1 t) (g_f K2 m2 t);
  br_v : arel n (g_v K1 m1) (g_v K2 m2)
}.

Lemma brelm_dim v1 v2 reg p d w1 w2 m1 m2 :
  inint p -> (d < nd)%nat -> arel n v1 v2 -> R w1 w2 -> brelm m1 m2 ->
  let '(w1', m1') := c_bwd_dim K1 P1 v1 reg p (w1, m1) d in
  let '(w2', m2') := c_bwd_dim K2 P2 v2 reg p (w2, m2) d in
  R w1' w2' /\ brelm m1' m2'.
Proof.
  intros Hp Hd Hv Hw Hm. unfold c_bwd_dim. rewrite (pr_acc HP), (pr_shape HP).
  pose proof (win_coord p d Hp Hd) as Hy. pose proof (win_idx p Hp) as Hi.
  pose proof (pr_a HP d _ Hd Hy) as Ha.
  pose proof (br_psi _ _ Hm d Hd) as Hpsi. pose proof (br_zeta _ _ Hm d Hd) as Hzeta. pose proof (br_wfc _ _ Hm) as Hwfc.
  assert (EV : forall k, (- fd <= k <= fd)%Z ->
     R (v1 (idx shape p + k * stride shape d)%Z * g_wfc K1 m1 (idx shape p + k * stride shape d)%Z)
       (v2 (idx shape p + k * stride shape d)%Z * g_wfc K2 m2 (idx shape p + k * stride shape d)%Z)).
  { intros k Hk. destruct (win_shift p d k Hp Hd Hk). apply Rmul; auto. }
  pose proof (pr_rd HP d Hd) as Hrd. pose proof (pr_rd2 HP d Hd) as Hrd2.
  destruct (nth d reg 0 =? 1)%Z.
  { split; [|exact Hm]. apply Radd; [exact Hw|]. apply R_DIFF2; auto. }
  assert (EB : forall k, (- fd <= k <= fd)%Z -> R (p_b P1 d (coord d p + k)%Z) (p_b P2 d (coord d p + k)%Z)).
  { intros k Hk. apply (pr_b HP); [exact Hd|]. apply win_shift; assumption. }
  assert (EDB : forall k, (- fd <= k <= fd)%Z -> R (p_db P1 d (coord d p + k)%Z) (p_db P2 d (coord d p + k)%Z)).
  { intros k Hk. apply (pr_db HP); [exact Hd|]. apply win_shift; assumption. }
  assert (EZ : forall k, (- fd <= k <= fd)%Z -> R (g_zeta K1 m1 d (idx shape p + k * stride shape d)%Z) (g_zeta K2 m2 d (idx shape p + k * stride shape d)%Z)).
  { intros k Hk. apply Hzeta. apply win_shift; assumption. }
  assert (EP : forall k, (- fd <= k <= fd)%Z -> R (g_psi K1 m1 d (idx shape p + k * stride shape d)%Z) (g_psi K2 m2 d (idx shape p + k * stride shape d)%Z)).
  { intros k Hk. apply Hpsi. apply win_shift; assumption. }
  split.
  - apply Radd; [exact Hw|]. apply Radd.
    + apply Ropp. apply R_DIFF1; [exact Hrd|]. intros k Hk. apply Radd; auto 10.
    + apply R_DIFF2; [exact Hrd2|]. intros k Hk. apply Rmul; auto 10.
  - pose proof (fd_pad_pos (p_acc P1)). specialize (EV 0%Z ltac:(lia)) as EV0.
    assert (ED : R (DIFF1 (p_acc P1) (p_rd P1 d) (fun k => (1 + p_b P1 d (coord d p + k)%Z) * (v1 (idx shape p + k * stride shape d)%Z * g_wfc K1 m1 (idx shape p + k * stride shape d)%Z) + p_b P1 d (coord d p + k)%Z * g_zeta K1 m1 d (idx shape p + k * stride shape d)%Z))
                   (DIFF1 (p_acc P1) (p_rd P2 d) (fun k => (1 + p_b P2 d (coord d p + k)%Z) * (v2 (idx shape p + k * stride shape d)%Z * g_wfc K2 m2 (idx shape p + k * stride shape d)%Z) + p_b P2 d (coord d p + k)%Z * g_zeta K2 m2 d (idx shape p + k * stride shape d)%Z))).
    { apply R_DIFF1; [exact Hrd|]. intros k Hk. apply Radd; auto 10. }
    destruct Hm. split; cbn; auto.
    + intros e He. unfold updd. destruct (Nat.eqb_spec e d); [subst|auto]. apply arel_upd; auto 10.
    + intros e He. unfold updd. destruct (Nat.eqb_spec e d); [subst|auto]. apply arel_upd; auto 10.
Qed.

Lemma brelm_dims v1 v2 reg p ds w1 w2 m1 m2 :
  inint p -> (forall d, In d ds -> (d < nd)%nat) -> arel n v1 v2 -> R w1 w2 -> brelm m1 m2 ->
  R (fst (fold_left (c_bwd_dim K1 P1 v1 reg p) ds (w1, m1))) (fst (fold_left (c_bwd_dim K2 P2 v2 reg p) ds (w2, m2))) /\
  brelm (snd (fold_left (c_bwd_dim K1 P1 v1 reg p) ds (w1, m1))) (snd (fold_left (c_bwd_dim K2 P2 v2 reg p) ds (w2, m2))).
Proof.
  intros Hp. revert w1 w2 m1 m2. induction ds as [|d ds IH]; intros w1 w2 m1 m2 Hds Hv Hw Hm; cbn [fold_left].
  - split; assumption.
  - pose proof (brelm_dim v1 v2 reg p d w1 w2 m1 m2 Hp (Hds d (or_introl eq_refl)) Hv Hw Hm) as H.
    destruct (c_bwd_dim K1 P1 v1 reg p (w1, m1) d) as [w1' m1']. destruct (c_bwd_dim K2 P2 v2 reg p (w2, m2) d) as [w2' m2'].
    destruct H. apply IH; auto. intros e He. apply Hds. right. exact He.
Qed.

Lemma R_ofZ z : R (ofZ K1 z) (ofZ K2 z).
Proof. apply Rq. Qed.

Lemma brelm_cell v1 v2 st1 st2 sto sr si m1 m2 reg p :
  inint p -> arel n v1 v2 -> (sto = true -> arel n (st1 si) (st2 si)) -> brelm m1 m2 ->
  brelm (c_bwd_cell K1 P1 v1 st1 sto sr si m1 (reg, p)) (c_bwd_cell K2 P2 v2 st2 sto sr si m2 (reg, p)).
Proof.
  intros Hp Hv Hs Hm. unfold c_bwd_cell. rewrite dims_eq, (pr_shape HP).
  destruct (brelm_dims v1 v2 reg p (dims K1 P1) 0 0 m1 m2 Hp dims_lt Hv R0 Hm) as [A B].
  destruct (fold_left (c_bwd_dim K1 P1 v1 reg p) (dims K1 P1) (0, m1)) as [w1 m1'].
  destruct (fold_left (c_bwd_dim K2 P2 v2 reg p) (dims K1 P1) (0, m2)) as [w2 m2']. cbn [fst snd] in A, B.
  pose proof (win_idx p Hp) as Hi. pose proof R_two as R2. pose proof (R_ofZ sr) as Rz.
  destruct B. split; cbn; auto.
  - apply arel_upd; auto 10.
  - destruct sto; [|auto]. specialize (Hs eq_refl). apply arel_upd; auto 10.
Qed.

Section BBody.
Variables (v1 : arr K1) (v2 : arr K2) (vis : list (list Z * pt)) (vrg : bool) (sr : Z).
Variables (st1 : Z -> arr K1) (st2 : Z -> arr K2) (gr1 : Z -> list K1) (gr2 : Z -> list K2).
Hypothesis Hvis : forall reg p, In (reg, p) vis -> inint p.
Hypothesis Hv : arel n v1 v2.
Hypothesis Hgr : forall t, TW t -> Forall2 R (gr1 t) (gr2 t).
Hypothesis HSW : forall t, TW t -> SW (t / sr)%Z.
Hypothesis Hst : forall s, SW s -> arel n (st1 s) (st2 s).

Lemma brelm_cells sto si l m1 m2 :
  (forall reg p, In (reg, p) l -> inint p) -> (sto = true -> SW si) -> brelm m1 m2 ->
  brelm (fold_left (c_bwd_cell K1 P1 v1 st1 sto sr si) l m1) (fold_left (c_bwd_cell K2 P2 v2 st2 sto sr si) l m2).
Proof.
  revert m1 m2. induction l as [|[reg p] l IH]; intros m1 m2 Hl Hs Hm; cbn [fold_left]; [exact Hm|].
  apply IH; auto.
  - intros r q Hq. apply (Hl r q). right. exact Hq.
  - apply brelm_cell; auto. apply (Hl reg p). left. reflexivity.
Qed.

Lemma brelm_body t m1 m2 : TW t -> brelm m1 m2 ->
  brelm (c_bwd_body K1 P1 v1 vis st1 vrg sr gr1 t m1) (c_bwd_body K2 P2 v2 vis st2 vrg sr gr2 t m2).
Proof.
  intros Ht Hm. unfold c_bwd_body.
  assert (H : brelm (fold_left (c_bwd_cell K1 P1 v1 st1 (vrg && (t mod sr =? 0)%Z) sr (t / sr)%Z) vis m1)
                    (fold_left (c_bwd_cell K2 P2 v2 st2 (vrg && (t mod sr =? 0)%Z) sr (t / sr)%Z) vis m2)).
  { apply brelm_cells; auto. }
  destruct H. split; cbn; auto.
  - rewrite (pr_rec HP). apply arel_add; auto.
  - intros u Hu. rewrite (pr_src HP). destruct (u =? t)%Z; [|auto]. apply (Forall2_record n); auto.
Qed.

Lemma brelm_swap m1 m2 : brelm m1 m2 -> brelm (b_swap K1 m1) (b_swap K2 m2).
Proof. intros []. split; cbn; auto. Qed.

Lemma brelm_backward ts s0 m1 m2 : (forall t, In t ts -> TW t) -> brelm m1 m2 ->
  brelm (fold_left (c_bwd_t K1 P1 v1 vis st1 vrg sr gr1 s0) ts m1) (fold_left (c_bwd_t K2 P2 v2 vis st2 vrg sr gr2 s0) ts m2).
Proof.
  revert m1 m2. induction ts as [|t ts IH]; intros m1 m2 Ht Hm; cbn [fold_left]; [exact Hm|].
  apply IH; [intros; apply Ht; right; assumption|]. unfold c_bwd_t.
  destruct (Z.odd (s0 - 1 - t)); [apply brelm_swap|]; apply brelm_body; auto using brelm_swap; apply Ht; left; reflexivity.
Qed.

Lemma brelm_chunk N cf m1 m2 s : (0 < sr)%Z -> (forall t, (0 <= t < N * sr)%Z -> TW t) -> (0 <= s <= N)%Z -> brelm m1 m2 ->
  brelm (bwd_chunk K1 P1 v1 vis st1 vrg sr gr1 cf m1 s) (bwd_chunk K2 P2 v2 vis st2 vrg sr gr2 cf m2 s).
Proof.
  intros Hsr HT Hs Hm. unfold bwd_chunk, c_backward.
  match goal with |- brelm (if _ then ?a else _) (if _ then ?b else _) => assert (H : brelm a b) end.
  { apply brelm_backward; [|exact Hm]. intros t Ht. apply in_rev, In_zrange in Ht. apply HT. nia. }
  destruct (_ =? 0)%Z; [exact H|apply brelm_swap; exact H].
Qed.

Lemma brelm_neg m1 m2 : brelm m1 m2 -> brelm (neg_wfp K1 m1) (neg_wfp K2 m2).
Proof. intros []. split; cbn; auto. intros i Hi. cbn. auto. Qed.

Lemma brelm_driver nt cb m1 m2 : (0 < sr)%Z -> (forall c, cb = Some c -> (0 < c)%Z) ->
  (forall t, (0 <= t < nt / sr * sr)%Z -> TW t) -> brelm m1 m2 ->
  match bwd_driver K1 P1 v1 vis st1 vrg sr gr1 nt cb m1, bwd_driver K2 P2 v2 vis st2 vrg sr gr2 nt cb m2 with
  | Some a, Some b => brelm a b
  | None, None => True
  | _, _ => False
  end.
Proof.
  intros Hsr Hcb HT Hm. unfold bwd_driver. destruct (Z.leb_spec nt 0); [auto using brelm_neg|].
  set (cf := match cb with Some c => c | None => (nt / sr)%Z end).
  destruct (Z.eqb_spec cf 0); [exact I|].
  assert (Hn : (0 <= nt / sr)%Z) by (apply Z.div_pos; lia).
  assert (Hc : (0 < cf)%Z).
  { unfold cf in *. destruct cb as [c|]; [apply Hcb; reflexivity|]. lia. }
  assert (G : forall l, (forall s, In s l -> (0 <= s <= nt / sr)%Z) -> forall m1 m2, brelm m1 m2 ->
    brelm (fold_left (bwd_chunk K1 P1 v1 vis st1 vrg sr gr1 cf) l m1)
          (fold_left (bwd_chunk K2 P2 v2 vis st2 vrg sr gr2 cf) l m2)).
  { induction l as [|s l IH]; intros Hl a b Hab; cbn [fold_left]; [exact Hab|].
    apply IH; [intros; apply Hl; right; assumption|]. apply (brelm_chunk (nt / sr)); auto. apply Hl. left. reflexivity. }
  apply brelm_neg. apply G; [|apply brelm_neg; exact Hm]. intros s Hs. unfold range_down in Hs. apply in_map_iff in Hs.
  destruct Hs as (i & <- & Hi). apply In_zrange in Hi.
  assert (i * cf <= nt / sr)%Z; [|nia].
  assert (i + 1 <= (nt / sr + cf - 1) / cf)%Z by lia.
  pose proof (Z.mul_div_le (nt / sr + cf - 1) cf Hc). nia.
Qed.
End BBody.

(** ** The user functions *)

Record strel (s1 : st K1) (s2 : st K2) : Prop := mkstrel {
  sr_wfc : forall q, In q (upts K1 P1) -> R (s_wfc K1 s1 q) (s_wfc K2 s2 q);
  sr_wfp : forall q, In q (upts K1 P1) -> R (s_wfp K1 s1 q) (s_wfp K2 s2 q);
  sr_psi : forall d q, (d < nd)%nat -> In q (upts K1 P1) -> R (s_psi K1 s1 d q) (s_psi K2 s2 d q);
  sr_zeta : forall d q, (d < nd)%nat -> In q (upts K1 P1) -> R (s_zeta K1 s1 d q) (s_zeta K2 s2 d q)
}.

Lemma interior_eq p : interior K2 P2 p = interior K1 P1 p.
Proof. unfold interior. rewrite (pr_acc HP), (pr_shape HP). reflexivity. Qed.

Lemma arel_pad u1 u2 : (forall q, In q (upts K1 P1) -> R (u1 q) (u2 q)) ->
  arel n (create_or_pad K1 P1 u1) (create_or_pad K2 P2 u2).
Proof.
  intros H i Hi. unfold create_or_pad. rewrite interior_eq, (pr_shape HP).
  destruct (interior K1 P1 (unidx shape i)) eqn:E; [|exact R0].
  unfold unpad. rewrite (pr_acc HP). apply H. apply In_upts.
  replace (map (fun x => x - fd)%Z (unidx shape i)) with (unpad K1 P1 (unidx shape i)) by reflexivity.
  rewrite topad_unpad. exact E.
Qed.

Lemma arel_zero pw d m1 m2 : arel n m1 m2 -> arel n (zero_interior K1 P1 pw d m1) (zero_interior K2 P2 pw d m2).
Proof.
  intros H i Hi. unfold zero_interior, zone. rewrite (pr_acc HP), (pr_shape HP).
  destruct (_ && _); [exact R0|apply H; exact Hi].
Qed.

Lemma crop_rel m1 m2 q : arel n m1 m2 -> In q (upts K1 P1) -> R (crop K1 P1 m1 q) (crop K2 P2 m2 q).
Proof.
  intros H Hq. unfold crop, topad. rewrite (pr_acc HP), (pr_shape HP). apply H.
  change (map (fun x => x + fd)%Z q) with (topad K1 P1 q). apply win_idx. apply In_upts. exact Hq.
Qed.

Lemma scalar_forward_rel pw v1 v2 vis vrg sr f1 f2 nt cb sto1 sto2 u1 u2 :
  (forall reg p, In (reg, p) vis -> inint p) -> arel n v1 v2 ->
  (forall t, TW t -> Forall2 R (f1 t) (f2 t)) -> (forall t, TW t -> SW (t / sr)%Z) ->
  (forall s, SW s -> arel n (sto1 s) (sto2 s)) ->
  (0 < sr)%Z -> (forall c, cb = Some c -> (0 < c)%Z) ->
  (forall t, (0 <= t < nt / sr * sr)%Z -> TW t) -> strel u1 u2 ->
  match scalar_forward K1 P1 pw v1 vis vrg sr f1 nt cb sto1 u1, scalar_forward K2 P2 pw v2 vis vrg sr f2 nt cb sto2 u2 with
  | Some (U1, r1, s1), Some (U2, r2, s2) =>
      strel U1 U2 /\ (forall t, TW t -> Forall2 R (r1 t) (r2 t)) /\ (forall s, SW s -> arel n (s1 s) (s2 s))
  | None, None => True
  | _, _ => False
  end.
Proof.
  intros Hvis Hv Hf HSW Hst Hsr Hcb HT Hu. unfold scalar_forward.
  assert (Hi : crel (fwd_init K1 P1 pw sto1 u1) (fwd_init K2 P2 pw sto2 u2)).
  { destruct Hu. split; cbn; auto.
    - apply arel_pad; auto.
    - apply arel_pad; auto.
    - intros d Hd. apply arel_zero, arel_pad. auto.
    - intros d Hd i _. exact R0.
    - intros d Hd. apply arel_zero, arel_pad. auto.
    - intros t Ht. rewrite (pr_rec HP). clear - R0. induction (p_rec P1); cbn; constructor; auto. }
  pose proof (crel_driver v1 v2 vis vrg sr f1 f2 Hvis Hv Hf HSW nt cb _ _ Hsr Hcb HT Hi) as H.
  destruct (fwd_driver K1 _ _ _ _ _ _ _ _ _) as [a|], (fwd_driver K2 _ _ _ _ _ _ _ _ _) as [b|]; auto.
  destruct H. split; [|split; auto]. split; cbn; intros; apply crop_rel; auto.
Qed.

Lemma scalar_backward_rel pw v1 v2 vis vrg sr st1 st2 gr1 gr2 nt cb u1 u2 :
  (forall reg p, In (reg, p) vis -> inint p) -> arel n v1 v2 ->
  (forall t, TW t -> Forall2 R (gr1 t) (gr2 t)) -> (forall t, TW t -> SW (t / sr)%Z) ->
  (forall s, SW s -> arel n (st1 s) (st2 s)) ->
  (0 < sr)%Z -> (forall c, cb = Some c -> (0 < c)%Z) ->
  (forall t, (0 <= t < nt / sr * sr)%Z -> TW t) -> strel u1 u2 ->
  match scalar_backward K1 P1 pw v1 vis st1 vrg sr gr1 nt cb u1, scalar_backward K2 P2 pw v2 vis st2 vrg sr gr2 nt cb u2 with
  | Some (U1, f1, g1), Some (U2, f2, g2) =>
      strel U1 U2 /\ (forall t, TW t -> Forall2 R (f1 t) (f2 t)) /\ arel n g1 g2
  | None, None => True
  | _, _ => False
  end.
Proof.
  intros Hvis Hv Hgr HSW Hst Hsr Hcb HT Hu. unfold scalar_backward.
  assert (Hi : brelm (bwd_init K1 P1 pw u1) (bwd_init K2 P2 pw u2)).
  { destruct Hu. split; cbn; auto.
    - apply arel_pad; auto.
    - apply arel_pad; auto.
    - intros d Hd. apply arel_zero, arel_pad. auto.
    - intros d Hd i _. exact R0.
    - intros d Hd. apply arel_zero, arel_pad. auto.
    - intros d Hd i _. exact R0.
    - intros t Ht. rewrite (pr_src HP). clear - R0. induction (p_src P1); cbn; constructor; auto.
    - intros i _. exact R0. }
  assert (Hv2 : arel n (fun i => v1 i * v1 i * p_dt2 P1) (fun i => v2 i * v2 i * p_dt2 P2)).
  { intros i Hj. pose proof (pr_dt2 HP). auto. }
  pose proof (brelm_driver _ _ vis vrg sr st1 st2 gr1 gr2 Hvis Hv2 Hgr HSW Hst nt cb _ _ Hsr Hcb HT Hi) as H.
  destruct (bwd_driver K1 _ _ _ _ _ _ _ _ _ _) as [a|], (bwd_driver K2 _ _ _ _ _ _ _ _ _ _) as [b|]; auto.
  destruct H. split; [|split; auto]. split; cbn; intros; apply crop_rel; auto.
Qed.

End Rel.
