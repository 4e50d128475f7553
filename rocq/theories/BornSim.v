(** * The Born kernels compute with dual numbers.

    The forward kernel of [scalar_born.c] on (background, scattered) memories behaves as the
    forward kernel of [scalar.c] over [dual K] with background + eps scattered; the backward
    kernel as the backward kernel of [scalar.c] over [dual K] with scattered + eps background. *)
From Coq Require Import List ZArith QArith Ring Ring_theory Lia Bool.
From Verif Require Import Ops Sums Grid Stencil DualNum ScalarModel ScalarRefine ScalarForward
  ScalarBackward ScalarAdjoint ScalarFunc ScalarApi ScalarGrad BornModel.
Import ListNotations.
Local Open Scope K_scope.

Section Pair.
Variable K : ops.
Hypothesis Kr : is_ring K.
Add Ring KRing : Kr.

Lemma DIFF1_pair a rd (g : Z -> dual K) g1 g2 : (forall k, g k = (g1 k, g2 k)) ->
  DIFF1 a (dconst rd) g = (DIFF1 a rd g1, DIFF1 a rd g2) :> dual K.
Proof.
  intros H. apply dual_eq; cbn [fst snd].
  - rewrite fst_DIFF1. apply DIFF1_ext. intros k _. rewrite H. reflexivity.
  - rewrite (snd_DIFF1 K Kr). apply DIFF1_ext. intros k _. rewrite H. reflexivity.
Qed.
Lemma DIFF2_pair a rd (g : Z -> dual K) g1 g2 : (forall k, g k = (g1 k, g2 k)) ->
  DIFF2 a (dconst rd) g = (DIFF2 a rd g1, DIFF2 a rd g2) :> dual K.
Proof.
  intros H. apply dual_eq; cbn [fst snd].
  - rewrite fst_DIFF2. apply DIFF2_ext. intros k _. rewrite H. reflexivity.
  - rewrite (snd_DIFF2 K Kr). apply DIFF2_ext. intros k _. rewrite H. reflexivity.
Qed.

Lemma mulc (a x y : K) : dconst a * ((x, y) : dual K) = (a * x, a * y) :> dual K.
Proof. apply dual_eq; unfold two; cbn; ring. Qed.

(** Two lists of locations in one. *)
Lemma combine_app {A B} (a a' : list A) (b b' : list B) : length a = length b ->
  combine (a ++ a') (b ++ b') = combine a b ++ combine a' b'.
Proof.
  revert b. induction a as [|x a IH]; intros [|y b] H; cbn in *; try discriminate; [reflexivity|].
  rewrite IH by lia. reflexivity.
Qed.

Lemma record_app {L : ops} (wf : arr L) l1 l2 o1 o2 : length l1 = length o1 ->
  record_from_wavefield L wf (l1 ++ l2) (o1 ++ o2)
  = record_from_wavefield L wf l1 o1 ++ record_from_wavefield L wf l2 o2.
Proof. intros H. unfold record_from_wavefield. rewrite combine_app by exact H. apply map_app. Qed.

Lemma record_length {L : ops} (wf : arr L) l o : length l = length o ->
  length (record_from_wavefield L wf l o) = length l.
Proof. intros H. unfold record_from_wavefield. rewrite map_length, combine_length. lia. Qed.

Lemma record_fst (D : arr (dual K)) (w : arr K) l o : (forall i, fst (D i) = w i) ->
  map fst (record_from_wavefield (dual K) D l o) = record_from_wavefield K w l (map fst o).
Proof.
  intros H. unfold record_from_wavefield. rewrite map_map. revert o.
  induction l as [|x l IH]; intros [|y o]; cbn; try reflexivity. rewrite IH. f_equal.
  destruct (0 <=? x)%Z; auto.
Qed.
Lemma record_snd (D : arr (dual K)) (w : arr K) l o : (forall i, snd (D i) = w i) ->
  map snd (record_from_wavefield (dual K) D l o) = record_from_wavefield K w l (map snd o).
Proof.
  intros H. unfold record_from_wavefield. rewrite map_map. revert o.
  induction l as [|x l IH]; intros [|y o]; cbn; try reflexivity. rewrite IH. f_equal.
  destruct (0 <=? x)%Z; auto.
Qed.

Lemma add_pair (D : arr (dual K)) (w1 w2 : arr K) l a : (forall i, D i = (w1 i, w2 i)) ->
  forall i, add_to_wavefield (dual K) D l a i
  = (add_to_wavefield K w1 l (lre a) i, add_to_wavefield K w2 l (lep a) i).
Proof.
  unfold add_to_wavefield, lre, lep. revert D w1 w2 a.
  induction l as [|x l IH]; intros D w1 w2 [|y a] H; cbn; auto.
  apply IH. intros i. destruct (0 <=? x)%Z; [|apply H]. unfold upd. rewrite !H.
  destruct (i =? x)%Z; reflexivity.
Qed.

Lemma add_zero (m : arr K) l a : (forall x, In x a -> x = 0) -> forall i, add_to_wavefield K m l a i = m i.
Proof.
  unfold add_to_wavefield. revert m a. induction l as [|x l IH]; intros m [|y a] H i; cbn; auto.
  rewrite IH by (intros; apply H; right; assumption). destruct (0 <=? x)%Z; [|reflexivity].
  unfold upd. destruct (Z.eqb_spec i x); [|reflexivity]. subst. rewrite (H y) by (left; reflexivity). ring.
Qed.

Lemma add_app (m : arr K) l1 l2 a1 a2 : length l1 = length a1 ->
  add_to_wavefield K m (l1 ++ l2) (a1 ++ a2) = add_to_wavefield K (add_to_wavefield K m l1 a1) l2 a2.
Proof. intros H. unfold add_to_wavefield. rewrite combine_app by exact H. apply fold_left_app. Qed.

Lemma add_ext (m m' : arr K) l a : (forall i, m i = m' i) -> forall i,
  add_to_wavefield K m l a i = add_to_wavefield K m' l a i.
Proof.
  unfold add_to_wavefield. revert m m' a. induction l as [|x l IH]; intros m m' [|y a] H i; cbn; auto.
  apply IH. intros j. destruct (0 <=? x)%Z; [|apply H]. unfold upd. rewrite !H. reflexivity.
Qed.

End Pair.

Section Sim.
Variable K : ops.
Hypothesis Kr : is_ring K.
Add Ring KRing2 : Kr.
Variable P : par K.
Variable recsc : list Z.
Notation shape := (p_shape P).
Notation fd := (fd_pad (p_acc P)).

(** Both sets of receivers in one list. *)
Definition P2 : par K := withrec P (p_rec P ++ recsc).
Notation DP := (dpar P2).

Variables v scatter : arr K.
Notation V := (perturb v scatter).

(** What the snapshots of the scalar kernel over dual numbers are in terms of those of Born. *)
Definition dstore (w wsc : Z -> arr K) : Z -> arr (dual K) := fun s i =>
  two * V i * dconst (p_dt2 P) * ((w s i, wsc s i) : dual K).

Definition storerel (vrg srg : bool) (w wsc : Z -> arr K) (D : Z -> arr (dual K)) : Prop :=
  (vrg || srg = true -> forall s i, fst (D s i) = two * v i * p_dt2 P * w s i) /\
  (vrg = true -> forall s i, snd (D s i) = two * scatter i * p_dt2 P * w s i + two * v i * p_dt2 P * wsc s i).

Lemma dstore_rel vrg srg w wsc : storerel vrg srg w wsc (dstore w wsc).
Proof. split; intros _ s i; unfold two, dstore, perturb; cbn; ring. Qed.

Section Flags.
Variables vrg srg : bool.

Record fj (m : nmem K) (D : cmem (dual K)) : Prop := mkfj {
  fj_wfc : forall i, m_wfc _ D i = (m_wfc K (n_bg K m) i, m_wfc K (n_sc K m) i);
  fj_wfp : forall i, m_wfp _ D i = (m_wfp K (n_bg K m) i, m_wfp K (n_sc K m) i);
  fj_psi : forall d i, m_psi _ D d i = (m_psi K (n_bg K m) d i, m_psi K (n_sc K m) d i);
  fj_psin : forall d i, m_psin _ D d i = (m_psin K (n_bg K m) d i, m_psin K (n_sc K m) d i);
  fj_zeta : forall d i, m_zeta _ D d i = (m_zeta K (n_bg K m) d i, m_zeta K (n_sc K m) d i);
  fj_store : storerel vrg srg (m_store K (n_bg K m)) (m_store K (n_sc K m)) (m_store _ D);
  fj_r : forall t, exists Ra Rb, m_r _ D t = Ra ++ Rb /\ length Ra = length (p_rec P) /\
           m_r K (n_bg K m) t = map fst Ra /\ m_r K (n_sc K m) t = map snd Rb
}.

Lemma fj_dim reg p d w wsc m D : fj m D ->
  let '(w', wsc', m') := n_fwd_dim K P reg p (w, wsc, m) d in
  let '(W', D') := c_fwd_dim (dual K) DP reg p ((w, wsc) : dual K, D) d in
  W' = (w', wsc') /\ fj m' D'.
Proof.
  intros H. unfold n_fwd_dim, c_fwd_dim. cbn [dpar P2 withrec p_acc p_shape p_rd p_rd2 p_a p_b p_db].
  set (i := idx shape p). set (s := stride shape d). set (y := coord d p).
  set (E2 := DIFF2 (p_acc P) (p_rd2 P d) (fun k => m_wfc K (n_bg K m) (i + k * s)%Z)).
  set (E2s := DIFF2 (p_acc P) (p_rd2 P d) (fun k => m_wfc K (n_sc K m) (i + k * s)%Z)).
  rewrite (DIFF2_pair K Kr (p_acc P) (p_rd2 P d) (fun k => m_wfc _ D (i + k * s)%Z)
      (fun k => m_wfc K (n_bg K m) (i + k * s)%Z) (fun k => m_wfc K (n_sc K m) (i + k * s)%Z))
    by (intros k; apply (fj_wfc _ _ H)).
  fold E2 E2s.
  destruct (nth d reg 0 =? 1)%Z; [split; [reflexivity|exact H]|].
  rewrite (DIFF1_pair K Kr (p_acc P) (p_rd P d) (fun k => m_wfc _ D (i + k * s)%Z)
      (fun k => m_wfc K (n_bg K m) (i + k * s)%Z) (fun k => m_wfc K (n_sc K m) (i + k * s)%Z))
    by (intros k; apply (fj_wfc _ _ H)).
  rewrite (DIFF1_pair K Kr (p_acc P) (p_rd P d) (fun k => _ * m_psi _ D d (i + k * s)%Z)
      (fun k => p_a P d (y + k)%Z * m_psi K (n_bg K m) d (i + k * s)%Z)
      (fun k => p_a P d (y + k)%Z * m_psi K (n_sc K m) d (i + k * s)%Z))
    by (intros k; rewrite (fj_psi _ _ H); apply (mulc K Kr)).
  set (F1 := DIFF1 (p_acc P) (p_rd P d) (fun k => m_wfc K (n_bg K m) (i + k * s)%Z)).
  set (F1s := DIFF1 (p_acc P) (p_rd P d) (fun k => m_wfc K (n_sc K m) (i + k * s)%Z)).
  set (A := DIFF1 (p_acc P) (p_rd P d) (fun k => p_a P d (y + k)%Z * m_psi K (n_bg K m) d (i + k * s)%Z)).
  set (As := DIFF1 (p_acc P) (p_rd P d) (fun k => p_a P d (y + k)%Z * m_psi K (n_sc K m) d (i + k * s)%Z)).
  rewrite (fj_zeta _ _ H), (fj_psi _ _ H).
  split; [apply dual_eq; unfold two; cbn; ring|].
  destruct H. split; cbn [m_wfc m_wfp m_psi m_psin m_zeta m_store m_r n_bg n_sc]; auto.
  - intros e j. unfold updd, upd. destruct (Nat.eqb e d); [|auto]. destruct (j =? i)%Z; [|auto].
    apply dual_eq; unfold two; cbn; ring.
  - intros e j. unfold updd, upd. destruct (Nat.eqb e d); [|auto]. destruct (j =? i)%Z; [|auto].
    apply dual_eq; unfold two; cbn; ring.
Qed.

Lemma fj_dims reg p ds w wsc m D : fj m D ->
  let '(w', wsc', m') := fold_left (n_fwd_dim K P reg p) ds (w, wsc, m) in
  let '(W', D') := fold_left (c_fwd_dim (dual K) DP reg p) ds ((w, wsc) : dual K, D) in
  W' = (w', wsc') /\ fj m' D'.
Proof.
  revert w wsc m D. induction ds as [|d ds IH]; intros w wsc m D H; cbn [fold_left]; [auto|].
  pose proof (fj_dim reg p d w wsc m D H) as H1.
  destruct (n_fwd_dim K P reg p (w, wsc, m) d) as [[w1 wsc1] m1].
  destruct (c_fwd_dim (dual K) DP reg p ((w, wsc) : dual K, D) d) as [W1 D1]. destruct H1 as [-> H1].
  apply IH. exact H1.
Qed.

Lemma fj_cell c si m D rp : fj m D ->
  fj (n_fwd_cell K P v scatter ((vrg && c) || (srg && c)) (vrg && c) si m rp)
     (c_fwd_cell (dual K) DP V (true && c) si D rp).
Proof.
  destruct rp as [reg p]. intros H. unfold n_fwd_cell, c_fwd_cell.
  change (dims (dual K) DP) with (dims K P).
  pose proof (fj_dims reg p (dims K P) 0 0 m D H) as H1.
  change (o0 (dual K)) with ((0, 0) : dual K).
  destruct (fold_left (n_fwd_dim K P reg p) (dims K P) (0, 0, m)) as [[w1 wsc1] m1].
  destruct (fold_left (c_fwd_dim (dual K) DP reg p) (dims K P) _) as [W1 D1]. destruct H1 as [-> H1].
  destruct H1 as [A1 A2 A3 A4 A5 [A6 A6'] A7].
  split; cbn [m_wfc m_wfp m_psi m_psin m_zeta m_store m_r n_bg n_sc dpar P2 withrec p_shape p_dt2]; auto.
  - intros j. unfold upd. destruct (j =? idx shape p)%Z; [|apply A2].
    rewrite A1, A2. unfold perturb. apply dual_eq; unfold two; cbn; ring.
  - split; intros Hf s j; destruct c; rewrite ?andb_true_r, ?andb_false_r; cbn [andb orb]; auto.
    + rewrite Hf. unfold store_at, upd. destruct (Z.eqb_spec s si); [subst s|auto].
      destruct (j =? idx shape p)%Z eqn:Ej; [|auto]. apply Z.eqb_eq in Ej. subst j. unfold two, perturb. cbn. ring.
    + rewrite Hf in *. cbn [orb]. unfold store_at, upd. destruct (Z.eqb_spec s si); [subst s|auto].
      destruct (j =? idx shape p)%Z eqn:Ej; [|auto]. apply Z.eqb_eq in Ej. subst j. unfold two, perturb. cbn. ring.
Qed.

Lemma fj_cells c si vis m D : fj m D ->
  fj (fold_left (n_fwd_cell K P v scatter ((vrg && c) || (srg && c)) (vrg && c) si) vis m)
     (fold_left (c_fwd_cell (dual K) DP V (true && c) si) vis D).
Proof.
  revert m D. induction vis as [|rp vis IH]; intros m D H; cbn [fold_left]; [exact H|].
  apply IH. apply fj_cell. exact H.
Qed.

Variable vis : list (list Z * pt).
Variable sr : Z.
Variable F : Z -> list (dual K).
Variables f fsc : Z -> list K.
Hypothesis Hf : forall t, f t = lre (F t).
Hypothesis Hfsc : forall t, fsc t = lep (F t).

Lemma fj_body t m D : fj m D ->
  fj (n_fwd_body K P recsc v scatter vis vrg srg sr f fsc t m)
     (c_fwd_body (dual K) DP V vis true sr F t D).
Proof.
  intros H. unfold n_fwd_body, c_fwd_body.
  pose proof (fj_cells (t mod sr =? 0)%Z (t / sr)%Z vis m D H) as H1.
  set (m1 := fold_left (n_fwd_cell K P v scatter _ _ _) vis m) in *.
  set (D1 := fold_left (c_fwd_cell (dual K) DP V _ _) vis D) in *.
  destruct H1 as [A1 A2 A3 A4 A5 A6 A7].
  split; cbn [m_wfc m_wfp m_psi m_psin m_zeta m_store m_r n_bg n_sc dpar P2 withrec p_src p_rec]; auto.
  - intros i. rewrite Hf, Hfsc. apply add_pair. exact A2.
  - intros u. destruct (Z.eqb_spec u t); [subst u|apply A7].
    destruct (A7 t) as (Ra & Rb & E1 & E2 & E3 & E4).
    exists (record_from_wavefield (dual K) (m_wfc _ D1) (p_rec P) Ra),
           (record_from_wavefield (dual K) (m_wfc _ D1) recsc Rb).
    rewrite E1, record_app, E3, E4 by auto. split; [reflexivity|]. split; [apply record_length; auto|].
    split; symmetry; [apply record_fst|apply record_snd]; intros i; rewrite A1; reflexivity.
Qed.

Lemma fj_swap m D : fj m D -> fj (n_swap K m) (c_swap (dual K) D).
Proof. intros []. split; cbn; auto. Qed.

Lemma fj_ts ts s0 m D : fj m D ->
  fj (fold_left (n_fwd_t K P recsc v scatter vis vrg srg sr f fsc s0) ts m)
     (fold_left (c_fwd_t (dual K) DP V vis true sr F s0) ts D).
Proof.
  revert m D. induction ts as [|t ts IH]; intros m D H; cbn [fold_left]; [exact H|].
  apply IH. unfold n_fwd_t, c_fwd_t. destruct (Z.odd (t - s0)); [apply fj_swap|]; apply fj_body; auto using fj_swap.
Qed.

Lemma fj_chunk N cf m D s : fj m D ->
  fj (n_fwd_chunk K P recsc v scatter vis vrg srg sr f fsc N cf m s)
     (fwd_chunk (dual K) DP V vis true sr F N cf D s).
Proof.
  intros H. unfold n_fwd_chunk, fwd_chunk, n_forward, c_forward.
  match goal with |- fj (if _ then ?a else _) (if _ then ?b else _) => assert (H1 : fj a b) by (apply fj_ts; exact H) end.
  destruct (_ =? 0)%Z; [exact H1|apply fj_swap; exact H1].
Qed.

Lemma fj_driver nt cb m D : fj m D ->
  match n_fwd_driver K P recsc v scatter vis vrg srg sr f fsc nt cb m, fwd_driver (dual K) DP V vis true sr F nt cb D with
  | Some a, Some b => fj a b
  | None, None => True
  | _, _ => False
  end.
Proof.
  intros H. unfold n_fwd_driver, fwd_driver. destruct (nt <=? 0)%Z; [exact H|].
  destruct (_ =? 0)%Z; [exact I|].
  set (cf := match cb with Some c => c | None => _ end). generalize (range_up (nt / sr) cf). intros l.
  revert m D H. induction l as [|s l IH]; intros m D H; cbn [fold_left]; [exact H|].
  apply IH. apply fj_chunk. exact H.
Qed.

Variable pw : nat -> Z * Z.

Lemma pad_pair (u : field (dual K)) i :
  create_or_pad (dual K) DP u i = (create_or_pad K P (fre u) i, create_or_pad K P (fep u) i).
Proof.
  unfold create_or_pad. change (interior (dual K) DP) with (interior K P).
  change (unpad (dual K) DP) with (unpad K P). cbn [dpar P2 withrec p_shape].
  destruct (interior K P _); [|reflexivity]. unfold fre, fep. destruct (u _); reflexivity.
Qed.
Lemma zpad_pair d (u : field (dual K)) i :
  zero_interior (dual K) DP pw d (create_or_pad (dual K) DP u) i
  = (zero_interior K P pw d (create_or_pad K P (fre u)) i, zero_interior K P pw d (create_or_pad K P (fep u)) i).
Proof.
  unfold zero_interior. change (zone (dual K) DP pw) with (zone K P pw). cbn [dpar P2 withrec p_shape].
  destruct (zone K P pw d _); [reflexivity|]. apply pad_pair.
Qed.

Lemma fj_init w0 wsc0 D0 (U : st (dual K)) : storerel vrg srg w0 wsc0 D0 ->
  fj (n_fwd_init K P recsc pw w0 wsc0 (sre U) (sep U)) (fwd_init (dual K) DP pw D0 U).
Proof.
  intros Hs.
  split; cbn [n_fwd_init fwd_init m_wfc m_wfp m_psi m_psin m_zeta m_store m_r n_bg n_sc]; auto.
  - intros i. apply pad_pair.
  - intros i. apply pad_pair.
  - intros d i. apply zpad_pair.
  - intros d i. apply zpad_pair.
  - intros t. exists (map (fun _ => 0) (p_rec P)), (map (fun _ => 0) recsc).
    cbn [dpar P2 withrec p_rec]. rewrite map_app, map_length, !map_map. auto.
Qed.

(** Forward: [born_forward] is [scalar_forward] over dual numbers. *)
Definition born_fwd_rel (B : born_out K) (x : st (dual K) * (Z -> list (dual K)) * (Z -> arr (dual K))) : Prop :=
  let '(U', R', S') := x in
  (forall q, s_wfc _ U' q = (s_wfc K (bo_u K B) q, s_wfc K (bo_usc K B) q)) /\
  (forall q, s_wfp _ U' q = (s_wfp K (bo_u K B) q, s_wfp K (bo_usc K B) q)) /\
  (forall d q, s_psi _ U' d q = (s_psi K (bo_u K B) d q, s_psi K (bo_usc K B) d q)) /\
  (forall d q, s_zeta _ U' d q = (s_zeta K (bo_u K B) d q, s_zeta K (bo_usc K B) d q)) /\
  (forall t, exists Ra Rb, R' t = Ra ++ Rb /\ length Ra = length (p_rec P) /\
     bo_r K B t = map fst Ra /\ bo_rsc K B t = map snd Rb) /\
  storerel vrg srg (bo_w K B) (bo_wsc K B) S'.

Lemma born_forward_sim nt cb w0 wsc0 D0 (U : st (dual K)) : storerel vrg srg w0 wsc0 D0 ->
  match born_forward K P recsc pw v scatter vis vrg srg sr f fsc nt cb w0 wsc0 (sre U) (sep U),
        scalar_forward (dual K) DP pw V vis true sr F nt cb D0 U with
  | Some a, Some b => born_fwd_rel a b
  | None, None => True
  | _, _ => False
  end.
Proof.
  intros Hs. unfold born_forward, scalar_forward.
  pose proof (fj_driver nt cb _ _ (fj_init w0 wsc0 D0 U Hs)) as H.
  destruct (n_fwd_driver _ _ _ _ _ _ _ _ _ _ _ _ _ _) as [a|], (fwd_driver _ _ _ _ _ _ _ _ _ _) as [b|]; auto.
  destruct H as [A1 A2 A3 A4 A5 A6 A7].
  unfold born_fwd_rel, crop. cbn [bo_u bo_usc bo_r bo_rsc bo_w bo_wsc crop_st s_wfc s_wfp s_psi s_zeta].
  unfold crop. change (topad (dual K) DP) with (topad K P). repeat split; auto; apply A6.
Qed.

End Flags.
End Sim.
