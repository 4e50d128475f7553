(** * Causality and finite propagation speed of the scalar propagator (proofs). *)
From Coq Require Import List ZArith QArith Ring Ring_theory Lia Bool Permutation.
From Verif Require Import Ops Sums Grid Stencil DualNum ScalarModel ScalarRefine ScalarForward
  ScalarBackward ScalarAdjoint ScalarFunc ScalarApi ScalarGrad ScalarMore ScalarPhys.
Import ListNotations.
Local Open Scope K_scope.

Local Arguments d1 : simpl never.
Local Arguments d2 : simpl never.
Local Arguments tmpf : simpl never.
Local Arguments wsum : simpl never.
Local Arguments inject : simpl never.
Local Arguments mask : simpl never.
Local Arguments gather : simpl never.

(** Number of cell steps between two cells. *)
Fixpoint dist (p q : pt) : Z :=
  match p, q with
  | x :: p', y :: q' => Z.abs (x - y) + dist p' q'
  | _, _ => 0
  end%Z.

(** Translation of a cell by the offset [o]. *)
Fixpoint translate (o p : pt) : pt :=
  match o, p with
  | x :: o', y :: p' => (x + y)%Z :: translate o' p'
  | _, _ => []
  end.

(** Two location lists denote the same cells up to the offset [o]. *)
Definition same_loc (s1 s2 : list Z) (o : pt) (l1 l2 : Z) : Prop :=
  ((l1 < 0)%Z /\ (l2 < 0)%Z) \/
  ((0 <= l1)%Z /\ (0 <= l2)%Z /\ unidx s2 l2 = translate o (unidx s1 l1)).

Lemma Forall2_len {A B} (R : A -> B -> Prop) l m : Forall2 R l m -> length l = length m.
Proof. induction 1; cbn; auto. Qed.
Lemma dist_shift d k p q : (dist p (shift d k q) <= dist p q + Z.abs k)%Z.
Proof.
  revert d q. induction p as [|x p IH]; intros d [|y q]; cbn; try lia; destruct d; cbn; try lia.
  specialize (IH d q). lia.
Qed.
Lemma dist_shift_l d k p q : (dist (shift d k p) q <= dist p q + Z.abs k)%Z.
Proof.
  revert d q. induction p as [|x p IH]; intros d [|y q]; cbn; try lia; destruct d; cbn; try lia.
  specialize (IH d q). lia.
Qed.
Lemma dist_pos p q : (0 <= dist p q)%Z.
Proof. revert q. induction p as [|x p IH]; intros [|y q]; cbn; try lia. specialize (IH q). lia. Qed.
Lemma dist_refl p : dist p p = 0%Z.
Proof. induction p as [|x p IH]; cbn; lia. Qed.
Lemma translate_length o p : length o = length p -> length (translate o p) = length p.
Proof. revert p. induction o as [|x o IH]; intros [|y p]; cbn; intros H; auto; try discriminate. Qed.
Lemma translate_shift o d k p : length o = length p -> translate o (shift d k p) = shift d k (translate o p).
Proof.
  revert d p. induction o as [|x o IH]; intros d [|y p] H; try discriminate; destruct d; cbn; try reflexivity.
  - f_equal. lia.
  - f_equal. apply IH. cbn in H. lia.
Qed.
Lemma dist_translate o p q : length p = length o -> length q = length o ->
  dist (translate o p) (translate o q) = dist p q.
Proof.
  revert p q. induction o as [|x o IH]; intros [|y p] [|z q] H H'; try discriminate; [reflexivity|].
  cbn. rewrite IH by (cbn in *; lia). lia.
Qed.
Lemma translate_inj o p q : length p = length o -> length q = length o ->
  translate o p = translate o q -> p = q.
Proof.
  revert p q. induction o as [|x o IH]; intros [|y p] [|z q] H H' E; try discriminate; [reflexivity|].
  cbn in E. assert (x + y = x + z)%Z by congruence. f_equal; [lia|]. apply IH; cbn in *; try lia. congruence.
Qed.
Lemma unidx_length s i : length (unidx s i) = length s.
Proof. revert i. induction s; intros i; cbn; auto. Qed.

Section Support.
Variable K : ops.
Hypothesis Kr : is_ring K.
Add Ring KRing : Kr.
Variable P : par K.
Notation shape := (p_shape P).
Notation fd := (fd_pad (p_acc P)).
Notation nd := (length shape).

Definition near_src (n : Z) (q : pt) : bool :=
  existsb (fun l => (0 <=? l)%Z && (dist (unidx shape l) q <=? n * fd)%Z) (p_src P).

Definition zero_at (s : st K) (q : pt) : Prop :=
  s_wfc K s q = 0 /\ s_wfp K s q = 0 /\ (forall d, s_psi K s d q = 0) /\ (forall d, s_zeta K s d q = 0).

Lemma near_src_shift n d k q : (Z.abs k <= fd)%Z -> near_src (n + 1) q = false ->
  near_src n (shift d k q) = false.
Proof.
  intros Hk H. destruct (near_src n (shift d k q)) eqn:E; [|reflexivity].
  unfold near_src in *. apply existsb_exists in E. destruct E as (l & Hin & Hl).
  apply andb_true_iff in Hl. rewrite Z.leb_le, Z.leb_le in Hl.
  enough (existsb (fun l => (0 <=? l)%Z && (dist (unidx shape l) q <=? (n + 1) * fd)%Z) (p_src P) = true) by congruence.
  apply existsb_exists. exists l. split; [exact Hin|]. apply andb_true_iff. rewrite !Z.leb_le. split; [lia|].
  pose proof (dist_shift d (- k) (unidx shape l) (shift d k q)) as D. rewrite shift_neg in D. lia.
Qed.
Lemma near_src_mono n q : near_src (n + 1) q = false -> near_src n q = false.
Proof.
  intros H. rewrite <- (shift_0 0 q). apply near_src_shift; [|exact H]. destruct (p_acc P); cbn; lia.
Qed.

Lemma fd_pos : (0 < fd)%Z. Proof. destruct (p_acc P); cbn; lia. Qed.

Lemma d1_zero d f q : (forall k, (Z.abs k <= fd)%Z -> f (shift d k q) = 0) -> d1 K P d f q = 0.
Proof. intros H. unfold d1, D1. apply (DIFF1_zero K Kr). intros j Hj _. apply H. lia. Qed.
Lemma d2_zero d f q : (forall k, (Z.abs k <= fd)%Z -> f (shift d k q) = 0) -> d2 K P d f q = 0.
Proof. intros H. unfold d2, D2. apply (DIFF2_zero K Kr). intros j Hj. apply H. lia. Qed.

Lemma inject_far amps f q : near_src 0 q = false -> inject K P (p_src P) amps f q = f q.
Proof.
  intros H. unfold inject. rewrite (sumf_zero K Kr); [ring|]. intros [l x] Hin. cbn [fst snd].
  destruct (Z.leb_spec 0 l) as [Hl|]; [|reflexivity]. cbn [andb].
  destruct (pt_eq_dec (unidx shape l) q) as [E|]; [|reflexivity]. exfalso.
  enough (near_src 0 q = true) by congruence. apply existsb_exists. exists l.
  split; [eapply in_combine_l; eauto|]. rewrite E, dist_refl. apply andb_true_iff. rewrite !Z.leb_le. lia.
Qed.

Lemma near_src_le n m q : (0 <= m <= n)%Z -> near_src n q = false -> near_src m q = false.
Proof.
  intros H Hn. destruct (near_src m q) eqn:E; [|reflexivity].
  apply existsb_exists in E. destruct E as (l & Hin & Hl). apply andb_true_iff in Hl. rewrite !Z.leb_le in Hl.
  enough (near_src n q = true) by congruence.
  apply existsb_exists. exists l. split; [exact Hin|]. apply andb_true_iff. rewrite !Z.leb_le.
  pose proof fd_pos. nia.
Qed.

Lemma supp_step v ft n s q : (0 <= n)%Z -> near_src n q = false ->
  (forall d k, (Z.abs k <= fd)%Z -> zero_at s (shift d k q)) ->
  zero_at (step K P v ft s) q.
Proof.
  intros Hn Hq HZ.
  assert (Z0 : zero_at s q).
  { rewrite <- (shift_0 0 q). apply HZ. pose proof fd_pos. lia. }
  destruct Z0 as (W & Wp & Ps & Ze).
  assert (T : forall d, tmpf K P (s_wfc K s) (s_psi K s d) d q = 0).
  { intros d. unfold tmpf. rewrite d2_zero, d1_zero, d1_zero; [ring| | |]; intros k Hk;
      destruct (HZ d k Hk) as (E0 & _ & E & _); [rewrite E; ring|exact E0|exact E0]. }
  repeat split.
  - cbn. rewrite inject_far by (apply (near_src_le n); [lia|exact Hq]). unfold mask.
    destruct (interior K P q); [|reflexivity]. unfold wsum. rewrite (sumf_zero K Kr), W, Wp; [unfold two; ring|].
    intros d _. rewrite T, Ze. ring.
  - exact W.
  - intros d. cbn. unfold mask. destruct (interior K P q); [|reflexivity].
    rewrite d1_zero, Ps; [ring|]. intros k Hk. apply HZ, Hk.
  - intros d. cbn. unfold mask. destruct (interior K P q); [|reflexivity]. rewrite T, Ze. ring.
Qed.

Lemma supp_state v f n s q : (forall q, zero_at s q) -> near_src (Z.of_nat n - 1) q = false ->
  zero_at (state K P v f n 0 s) q.
Proof.
  intros HZ. revert q. induction n as [|n IH]; intros q Hq; [apply HZ|].
  rewrite state_S_last. apply (supp_step _ _ (Z.of_nat n)); [lia| |].
  - replace (Z.of_nat (S n) - 1)%Z with (Z.of_nat n) in Hq by lia. exact Hq.
  - intros d k Hk. destruct n as [|n]; [apply HZ|]. apply IH. apply near_src_shift; [exact Hk|].
    replace (Z.of_nat (S n) - 1 + 1)%Z with (Z.of_nat (S (S n)) - 1)%Z by lia. exact Hq.
Qed.
End Support.

Section Reach.
Variable K : ops.
Hypothesis Kr : is_ring K.
Add Ring KRing2 : Kr.
Variables P1 P2 : par K.
Variable o : pt.
Notation sh1 := (p_shape P1).
Notation sh2 := (p_shape P2).
Notation fd := (fd_pad (p_acc P1)).
Notation nd := (length sh1).
Notation tr := (translate o).
Hypothesis Ho : length o = nd.
Hypothesis Hnd : length sh2 = nd.
Hypothesis Hacc : p_acc P2 = p_acc P1.
Hypothesis Hrd : forall d, p_rd P2 d = p_rd P1 d.
Hypothesis Hrd2 : forall d, p_rd2 P2 d = p_rd2 P1 d.
Hypothesis Hdt : p_dt2 P2 = p_dt2 P1.
Hypothesis Hsrc : Forall2 (same_loc sh1 sh2 o) (p_src P1) (p_src P2).

Definition eq_at (s1 s2 : st K) (q : pt) : Prop :=
  s_wfc K s1 q = s_wfc K s2 (tr q) /\ s_wfp K s1 q = s_wfp K s2 (tr q) /\
  (forall d, (d < nd)%nat -> s_psi K s1 d q = s_psi K s2 d (tr q)) /\
  (forall d, (d < nd)%nat -> s_zeta K s1 d q = s_zeta K s2 d (tr q)).

Definition par_at (v1 v2 : field K) (q : pt) : Prop :=
  interior K P1 q = interior K P2 (tr q) /\
  (interior K P1 q = true -> v1 q = v2 (tr q)) /\
  forall d, (d < nd)%nat -> pa K P1 d q = pa K P2 d (tr q) /\ pb K P1 d q = pb K P2 d (tr q) /\
                            pdb K P1 d q = pdb K P2 d (tr q).

Lemma d1_tr d f g q : length q = nd ->
  (forall k, (Z.abs k <= fd)%Z -> f (shift d k q) = g (tr (shift d k q))) ->
  d1 K P1 d f q = d1 K P2 d g (tr q).
Proof.
  intros Hl H. unfold d1, D1. rewrite Hacc, Hrd. apply DIFF1_ext. intros j Hj _.
  rewrite <- translate_shift by lia. apply H. lia.
Qed.
Lemma d2_tr d f g q : length q = nd ->
  (forall k, (Z.abs k <= fd)%Z -> f (shift d k q) = g (tr (shift d k q))) ->
  d2 K P1 d f q = d2 K P2 d g (tr q).
Proof.
  intros Hl H. unfold d2, D2. rewrite Hacc, Hrd2. apply DIFF2_ext. intros j Hj.
  rewrite <- translate_shift by lia. apply H. lia.
Qed.

Lemma inject_tr amps f g q : length q = nd -> f q = g (tr q) ->
  inject K P1 (p_src P1) amps f q = inject K P2 (p_src P2) amps g (tr q).
Proof.
  intros Hl E. unfold inject. rewrite E. f_equal. clear E. revert amps.
  generalize (p_src P1) (p_src P2) Hsrc. intros ls1 ls2 HF. induction HF as [|l1 l2 ls1 ls2 H HF IH]; intros [|x amps];
    try reflexivity.
  cbn [combine sumf fst snd]. f_equal; [|apply IH].
  destruct H as [[H1 H2]|(H1 & H2 & H3)].
  - destruct (Z.leb_spec 0 l1); [lia|]. destruct (Z.leb_spec 0 l2); [lia|]. reflexivity.
  - destruct (Z.leb_spec 0 l1); [|lia]. destruct (Z.leb_spec 0 l2); [|lia]. cbn [andb].
    destruct (pt_eq_dec (unidx sh1 l1) q) as [E1|E1]; destruct (pt_eq_dec (unidx sh2 l2) (tr q)) as [E2|E2]; try reflexivity.
    + exfalso. apply E2. rewrite H3, E1. reflexivity.
    + exfalso. apply E1. rewrite H3 in E2. apply translate_inj in E2; [exact E2| |]; rewrite ?unidx_length; lia.
Qed.

Lemma eq_step v1 v2 ft s1 s2 q : length q = nd -> par_at v1 v2 q ->
  (forall d k, (Z.abs k <= fd)%Z -> eq_at s1 s2 (shift d k q)) ->
  (forall d k, (d < nd)%nat -> (Z.abs k <= fd)%Z ->
     pa K P1 d (shift d k q) * s_psi K s1 d (shift d k q)
     = pa K P2 d (tr (shift d k q)) * s_psi K s2 d (tr (shift d k q))) ->
  eq_at (step K P1 v1 ft s1) (step K P2 v2 ft s2) q.
Proof.
  intros Hl (Pi & Pv & Pd) HE HA.
  assert (E0 : eq_at s1 s2 q).
  { rewrite <- (shift_0 0 q). apply HE. pose proof (fd_pos K P1). lia. }
  destruct E0 as (W & Wp & Ps & Ze).
  assert (D1e : forall d, d1 K P1 d (s_wfc K s1) q = d1 K P2 d (s_wfc K s2) (tr q)).
  { intros d. apply d1_tr; [exact Hl|]. intros k Hk. apply HE, Hk. }
  assert (T : forall d, (d < nd)%nat -> tmpf K P1 (s_wfc K s1) (s_psi K s1 d) d q
                        = tmpf K P2 (s_wfc K s2) (s_psi K s2 d) d (tr q)).
  { intros d Hd. unfold tmpf. destruct (Pd d Hd) as (_ & -> & ->). rewrite D1e.
    rewrite (d2_tr d (s_wfc K s1) (s_wfc K s2)); [|exact Hl|intros k Hk; apply HE, Hk].
    f_equal. apply d1_tr; [exact Hl|]. intros k Hk. apply HA; assumption. }
  repeat split.
  - cbn. apply inject_tr; [exact Hl|]. unfold mask. rewrite <- Pi. destruct (interior K P1 q) eqn:Hi; [|reflexivity].
    rewrite Pv by reflexivity. rewrite Hdt, W, Wp. f_equal. f_equal. f_equal. unfold wsum, dims. rewrite Hnd.
    apply (sumf_ext K). intros d Hd. apply in_seq in Hd. rewrite T, Ze by lia.
    destruct (Pd d) as (-> & -> & _); [lia|]. reflexivity.
  - cbn. exact W.
  - intros d Hd. cbn. unfold mask. rewrite <- Pi. destruct (interior K P1 q); [|reflexivity].
    rewrite D1e, Ps by exact Hd. destruct (Pd d) as (-> & -> & _); [lia|]. reflexivity.
  - intros d Hd. cbn. unfold mask. rewrite <- Pi. destruct (interior K P1 q); [|reflexivity].
    rewrite T, Ze by exact Hd. destruct (Pd d) as (-> & -> & _); [lia|]. reflexivity.
Qed.

Lemma near_src_tr n q : length q = nd -> near_src K P2 n (tr q) = near_src K P1 n q.
Proof.
  intros Hl. unfold near_src. rewrite Hacc. generalize (p_src P1) (p_src P2) Hsrc.
  intros ls1 ls2 HF. induction HF as [|l1 l2 ls1 ls2 H HF IH]; [reflexivity|]. cbn [existsb]. rewrite IH. f_equal.
  destruct H as [[H1 H2]|(H1 & H2 & H3)].
  - destruct (Z.leb_spec 0 l1); [lia|]. destruct (Z.leb_spec 0 l2); [lia|]. reflexivity.
  - destruct (Z.leb_spec 0 l1); [|lia]. destruct (Z.leb_spec 0 l2); [|lia]. cbn [andb].
    rewrite H3, dist_translate by (rewrite ?unidx_length; lia). reflexivity.
Qed.

(** Cells on a path of at most [n] stencil radii from a source to the cell [r]. *)
Definition on_path (n : Z) (r c : pt) : Prop :=
  length c = nd /\
  exists l, In l (p_src P1) /\ (0 <= l)%Z /\ (dist (unidx sh1 l) c + dist c r <= n * fd)%Z.

Lemma zero_eq s1 s2 q : zero_at K s1 q -> zero_at K s2 (tr q) -> eq_at s1 s2 q.
Proof.
  intros (A1 & A2 & A3 & A4) (B1 & B2 & B3 & B4). repeat split; intros; rewrite ?A1, ?A2, ?A3, ?A4, ?B1, ?B2, ?B3, ?B4; reflexivity.
Qed.

Lemma reach_state v1 v2 f s1 s2 t r :
  (forall q, zero_at K s1 q) -> (forall q, zero_at K s2 q) ->
  (forall c, on_path (Z.of_nat t - 1) r c -> par_at v1 v2 c) ->
  forall k, (k <= t)%nat -> forall q, length q = nd -> (dist q r <= (Z.of_nat t - Z.of_nat k) * fd)%Z ->
  eq_at (state K P1 (fun _ => v1) f k 0 s1) (state K P2 (fun _ => v2) f k 0 s2) q.
Proof.
  intros Z1 Z2 HP. induction k as [|k IH]; intros Hk q Hl Hq.
  - apply zero_eq; [apply Z1|apply Z2].
  - destruct (near_src K P1 (Z.of_nat k) q) eqn:Hn.
    + assert (Hp : par_at v1 v2 q).
      { apply HP. split; [exact Hl|]. apply existsb_exists in Hn. destruct Hn as (l & Hin & Hnl).
        apply andb_true_iff in Hnl. rewrite !Z.leb_le in Hnl. exists l. split; [exact Hin|]. split; [lia|]. nia. }
      rewrite !state_S_last. apply eq_step; [exact Hl|exact Hp| |].
      * intros d j Hj. apply IH; [lia|rewrite shift_length; exact Hl|]. pose proof (dist_shift_l d j q r). nia.
      * intros d j Hd Hj. set (q' := shift d j q).
        assert (Hl' : length q' = nd) by (unfold q'; rewrite shift_length; exact Hl).
        assert (Hd' : (dist q' r <= (Z.of_nat t - Z.of_nat k) * fd)%Z).
        { pose proof (dist_shift_l d j q r). unfold q'. nia. }
        destruct (near_src K P1 (Z.of_nat k - 1) q') eqn:Hn'.
        { assert (Hp' : par_at v1 v2 q').
          { apply HP. split; [exact Hl'|]. apply existsb_exists in Hn'. destruct Hn' as (l & Hin & Hnl).
            apply andb_true_iff in Hnl. rewrite !Z.leb_le in Hnl. exists l. split; [exact Hin|]. split; [lia|]. nia. }
          destruct Hp' as (_ & _ & Hp'). destruct (Hp' d Hd) as (-> & _).
          destruct (IH ltac:(lia) q' Hl' Hd') as (_ & _ & Ep & _). rewrite (Ep d Hd). reflexivity. }
        destruct (supp_state K Kr P1 (fun _ => v1) f k s1 q' Z1 Hn') as (_ & _ & A & _).
        assert (Hn2 : near_src K P2 (Z.of_nat k - 1) (tr q') = false) by (rewrite near_src_tr by exact Hl'; exact Hn').
        destruct (supp_state K Kr P2 (fun _ => v2) f k s2 (tr q') Z2 Hn2) as (_ & _ & B & _).
        rewrite A, B. ring.
    + replace (Z.of_nat k) with (Z.of_nat (S k) - 1)%Z in Hn by lia.
      apply zero_eq; apply (supp_state K Kr); auto. rewrite near_src_tr by exact Hl. exact Hn.
Qed.
End Reach.

(** ** Statements about the public function *)
Section Api.
Variable K : ops.
Hypothesis Kr : is_ring K.
Add Ring KRing3 : Kr.

Lemma causality P pw : geom_ok K P pw ->
  Forall (loc_ok K P) (p_src P) -> Forall (loc_ok K P) (p_rec P) ->
  forall v f1 f2 u nt sr vis1 vis2 vrg1 vrg2 cb1 cb2 st1 st2 U1 R1 S1 U2 R2 S2 t0,
  fvis K P pw vis1 -> fvis K P pw vis2 -> (0 < sr)%Z -> cb_ok nt sr cb1 -> cb_ok nt sr cb2 ->
  scalar_forward K P pw v vis1 vrg1 sr f1 nt cb1 st1 u = Some (U1, R1, S1) ->
  scalar_forward K P pw v vis2 vrg2 sr f2 nt cb2 st2 u = Some (U2, R2, S2) ->
  (forall t, (0 <= t < t0)%Z -> f1 t = f2 t) ->
  forall t, (t <= t0)%Z -> R1 t = R2 t.
Proof.
  intros Hg Hs Hr v f1 f2 u nt sr vis1 vis2 vrg1 vrg2 cb1 cb2 st1 st2 U1 R1 S1 U2 R2 S2 t0 V1 V2 Hsr C1 C2 E1 E2 HF t Ht.
  destruct (fwd_out K Kr P pw Hg Hs Hr _ _ _ _ _ _ _ _ _ _ _ _ V1 Hsr C1 E1) as (_ & A2 & A3 & _).
  destruct (fwd_out K Kr P pw Hg Hs Hr _ _ _ _ _ _ _ _ _ _ _ _ V2 Hsr C2 E2) as (_ & B2 & B3 & _).
  destruct (Z_lt_dec t 0) as [Hn|Hn]; [rewrite A3, B3 by lia; reflexivity|].
  destruct (Z_lt_dec t (Z.of_nat (nsteps nt sr))) as [Hm|Hm]; [|rewrite A3, B3 by lia; reflexivity].
  rewrite <- (Z2Nat.id t) by lia. rewrite A2, B2 by lia. apply (rec_amps_ext K P). apply state_ext_f; [reflexivity| |apply steq_refl].
  intros x Hx. apply HF. lia.
Qed.

Lemma finite_speed P1 pw1 P2 pw2 o :
  geom_ok K P1 pw1 -> geom_ok K P2 pw2 ->
  Forall (loc_ok K P1) (p_src P1) -> Forall (loc_ok K P1) (p_rec P1) ->
  Forall (loc_ok K P2) (p_src P2) -> Forall (loc_ok K P2) (p_rec P2) ->
  length o = length (p_shape P1) -> length (p_shape P2) = length (p_shape P1) ->
  p_acc P2 = p_acc P1 -> (forall d, p_rd P2 d = p_rd P1 d) -> (forall d, p_rd2 P2 d = p_rd2 P1 d) ->
  p_dt2 P2 = p_dt2 P1 ->
  Forall2 (same_loc (p_shape P1) (p_shape P2) o) (p_src P1) (p_src P2) ->
  Forall2 (same_loc (p_shape P1) (p_shape P2) o) (p_rec P1) (p_rec P2) ->
  forall v1 v2 f nt sr vis1 vis2 vrg1 vrg2 cb1 cb2 st1 st2 U1 R1 S1 U2 R2 S2,
  fvis K P1 pw1 vis1 -> fvis K P2 pw2 vis2 -> (0 < sr)%Z -> cb_ok nt sr cb1 -> cb_ok nt sr cb2 ->
  scalar_forward K P1 pw1 v1 vis1 vrg1 sr f nt cb1 st1 (zero_st K) = Some (U1, R1, S1) ->
  scalar_forward K P2 pw2 v2 vis2 vrg2 sr f nt cb2 st2 (zero_st K) = Some (U2, R2, S2) ->
  forall t j,
  (forall c, on_path K P1 (t - 1) (unidx (p_shape P1) (nth j (p_rec P1) 0%Z)) c ->
     interior K P1 c = interior K P2 (translate o c) /\
     (interior K P1 c = true -> v1 (idx (p_shape P1) c) = v2 (idx (p_shape P2) (translate o c))) /\
     forall d, (d < length (p_shape P1))%nat ->
       p_a P1 d (coord d c) = p_a P2 d (coord d (translate o c)) /\
       p_b P1 d (coord d c) = p_b P2 d (coord d (translate o c)) /\
       p_db P1 d (coord d c) = p_db P2 d (coord d (translate o c))) ->
  nth j (R1 t) 0 = nth j (R2 t) 0.
Proof.
  intros G1 G2 S1a R1a S2a R2a Ho Hnd Hacc Hrd Hrd2 Hdt HS HR v1 v2 f nt sr vis1 vis2 vrg1 vrg2 cb1 cb2 st1 st2
    U1 R1 S1 U2 R2 S2 V1 V2 Hsr C1 C2 E1 E2 t j HP.
  destruct (fwd_out K Kr P1 pw1 G1 S1a R1a _ _ _ _ _ _ _ _ _ _ _ _ V1 Hsr C1 E1) as (_ & A2 & A3 & _).
  destruct (fwd_out K Kr P2 pw2 G2 S2a R2a _ _ _ _ _ _ _ _ _ _ _ _ V2 Hsr C2 E2) as (_ & B2 & B3 & _).
  assert (Zm : forall P : par K, forall n, nth n (map (fun _ : Z => o0 K) (p_rec P)) 0 = 0).
  { intros P. induction (p_rec P) as [|x l IH]; intros [|n]; cbn; auto. }
  destruct (Z_lt_dec t 0) as [Hn|Hn]; [rewrite A3, B3, !Zm by lia; reflexivity|].
  destruct (Z_lt_dec t (Z.of_nat (nsteps nt sr))) as [Hm|Hm]; [|rewrite A3, B3, !Zm by lia; reflexivity].
  rewrite <- (Z2Nat.id t) by lia. rewrite A2, B2 by lia.
  destruct (Nat.lt_ge_cases j (length (p_rec P1))) as [Hj|Hj].
  2:{ pose proof (Forall2_len _ _ _ HR). rewrite !nth_overflow; [reflexivity| |]; unfold rec_amps, gather; rewrite map_length; lia. }
  assert (HL : same_loc (p_shape P1) (p_shape P2) o (nth j (p_rec P1) 0%Z) (nth j (p_rec P2) 0%Z)).
  { clear - HR Hj. revert j Hj. induction HR; intros [|j] Hj; cbn in *; try lia; auto. apply IHHR. lia. }
  pose proof (Forall2_len _ _ _ HR) as HRl.
  unfold rec_amps, gather.
  rewrite (nth_indep _ 0 ((fun l => if (0 <=? l)%Z then s_wfc K (state K P1 (fun _ p => v1 (idx (p_shape P1) p)) f (Z.to_nat t) 0 (uinit K P1 pw1 (zero_st K))) (unidx (p_shape P1) l) else 0) 0%Z)) by (rewrite map_length; lia).
  rewrite (map_nth (fun l => if (0 <=? l)%Z then _ else _)).
  rewrite (nth_indep _ 0 ((fun l => if (0 <=? l)%Z then s_wfc K (state K P2 (fun _ p => v2 (idx (p_shape P2) p)) f (Z.to_nat t) 0 (uinit K P2 pw2 (zero_st K))) (unidx (p_shape P2) l) else 0) 0%Z)) by (rewrite map_length; lia).
  rewrite (map_nth (fun l => if (0 <=? l)%Z then _ else _)).
  destruct HL as [[H1 H2]|(H1 & H2 & H3)].
  - destruct (Z.leb_spec 0 (nth j (p_rec P1) 0%Z)); [lia|]. destruct (Z.leb_spec 0 (nth j (p_rec P2) 0%Z)); [lia|]. reflexivity.
  - destruct (Z.leb_spec 0 (nth j (p_rec P1) 0%Z)); [|lia]. destruct (Z.leb_spec 0 (nth j (p_rec P2) 0%Z)); [|lia].
    rewrite H3.
    refine (proj1 (reach_state K Kr P1 P2 o Ho Hnd Hacc Hrd Hrd2 Hdt HS _ _ f _ _ (Z.to_nat t)
      (unidx (p_shape P1) (nth j (p_rec P1) 0%Z)) _ _ _ (Z.to_nat t) _ _ _ _)).
    + intros q. repeat split; intros; unfold uinit, zero_st; cbn [s_wfc s_wfp s_psi s_zeta];
        repeat match goal with |- context[if ?b then _ else _] => destruct b end; reflexivity.
    + intros q. repeat split; intros; unfold uinit, zero_st; cbn [s_wfc s_wfp s_psi s_zeta];
        repeat match goal with |- context[if ?b then _ else _] => destruct b end; reflexivity.
    + intros c Hc. rewrite Z2Nat.id in Hc by lia. destruct (HP c Hc) as (X & Y & W). split; [exact X|]. split; [exact Y|]. exact W.
    + lia.
    + apply unidx_length.
    + rewrite dist_refl. pose proof (fd_pos K P1). lia.
Qed.
End Api.
