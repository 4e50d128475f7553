(** * Scalar forward function: samples and existence of results (proofs). *)
From Coq Require Import List ZArith QArith Ring Ring_theory Lia Bool Permutation.
From Verif Require Import Ops Sums Grid Stencil DualNum ScalarModel ScalarRefine ScalarForward
  ScalarBackward ScalarAdjoint ScalarFunc ScalarApi ScalarGrad ScalarMore PyBackend.
Import ListNotations.
Local Open Scope K_scope.

Local Arguments d1 : simpl never.
Local Arguments d2 : simpl never.
Local Arguments tmpf : simpl never.
Local Arguments wsum : simpl never.
Local Arguments inject : simpl never.
Local Arguments mask : simpl never.
Local Arguments gather : simpl never.

(** Sum of the amplitudes of the sources in the user's cell [q]. *)
Definition amps_at {K : ops} (P : par K) (amps : list K) (q : pt) : K :=
  sumf (combine (p_src P) amps)
       (fun la => if (0 <=? fst la)%Z && (if pt_eq_dec (unidx (p_shape P) (fst la)) (topad K P q) then true else false)
                  then snd la else 0).

(** The user's wavefield at the receivers. *)
Definition at_receivers {K : ops} (P : par K) (w : field K) : list K :=
  map (fun l => if (0 <=? l)%Z then w (unpad K P (unidx (p_shape P) l)) else 0) (p_rec P).

Section More2.
Variable K : ops.
Hypothesis Kr : is_ring K.
Add Ring KRing : Kr.
Variable P : par K.
Variable pw : nat -> Z * Z.
Notation shape := (p_shape P).
Notation nd := (length shape).
Hypothesis Hg : geom_ok K P pw.
Hypothesis Hsrc : Forall (loc_ok K P) (p_src P).
Hypothesis Hrec : Forall (loc_ok K P) (p_rec P).
Notation SF := (scalar_forward K P pw).

Lemma forward_exists v f u nt sr vis vrg cb st0 :
  fvis K P pw vis -> (0 < sr)%Z -> cb_ok nt sr cb ->
  exists U R S, SF v vis vrg sr f nt cb st0 u = Some (U, R, S).
Proof.
  intros V Hs C.
  destruct (scalar_forward_spec K Kr P pw Hg Hsrc Hrec v vis vrg sr f nt cb st0 u V Hs C) as (U & R & S & E & _).
  exists U, R, S. exact E.
Qed.

Lemma nsteps_1 t : (0 <= t)%Z -> nsteps t 1 = Z.to_nat t.
Proof. intros H. unfold nsteps. rewrite Z.div_1_r, Z.mul_1_r. reflexivity. Qed.

Lemma receiver_sample v f u nt sr vis vis' vrg vrg' cb cb' st0 st' U R S Ut Rt St t :
  fvis K P pw vis -> fvis K P pw vis' -> (0 < sr)%Z -> cb_ok nt sr cb -> cb_ok t 1 cb' ->
  (nt mod sr = 0)%Z -> (0 <= t < nt)%Z ->
  SF v vis vrg sr f nt cb st0 u = Some (U, R, S) ->
  SF v vis' vrg' 1 f t cb' st' u = Some (Ut, Rt, St) ->
  R t = at_receivers P (s_wfc K Ut).
Proof.
  intros V V' Hs C C' Hm Ht E E'.
  destruct (fwd_out K Kr P pw Hg Hsrc Hrec _ _ _ _ _ _ _ _ _ _ _ _ V Hs C E) as (_ & A & _).
  destruct (fwd_out K Kr P pw Hg Hsrc Hrec _ _ _ _ _ _ _ _ _ _ _ _ V' Z.lt_0_1 C' E') as (B & _).
  assert (HN : (Z.to_nat t < nsteps nt sr)%nat).
  { unfold nsteps. assert (nt / sr * sr = nt)%Z by (pose proof (Z.div_mod nt sr ltac:(lia)); lia). lia. }
  specialize (A _ HN). rewrite Z2Nat.id in A by lia. rewrite A. unfold rec_amps, gather, at_receivers.
  rewrite nsteps_1 in B by lia. clear A. apply map_ext_in. intros l Hin.
  pose proof (proj1 (Forall_forall _ _) Hrec l Hin) as Hl.
  destruct (Z.leb_spec 0 l) as [H0|]; [|reflexivity].
  destruct Hl as [|[_ Hi]]; [lia|].
  destruct (B (unpad K P (unidx shape l))) as (-> & _).
  - apply In_upts. rewrite topad_unpad. exact Hi.
  - cbn. rewrite topad_unpad. reflexivity.
Qed.

Lemma source_sample v f f' u vis vis' vrg vrg' cb cb' st0 st' U R S U' R' S' t :
  fvis K P pw vis -> fvis K P pw vis' -> cb_ok (t + 1) 1 cb -> cb_ok (t + 1) 1 cb' -> (0 <= t)%Z ->
  (forall s, (0 <= s < t)%Z -> f s = f' s) ->
  SF v vis vrg 1 f (t + 1) cb st0 u = Some (U, R, S) ->
  SF v vis' vrg' 1 f' (t + 1) cb' st' u = Some (U', R', S') ->
  forall q, In q (upts K P) ->
  s_wfc K U q - s_wfc K U' q = amps_at P (f t) q - amps_at P (f' t) q.
Proof.
  intros V V' C C' Ht HF E E' q Hq.
  destruct (fwd_out K Kr P pw Hg Hsrc Hrec _ _ _ _ _ _ _ _ _ _ _ _ V Z.lt_0_1 C E) as (A & _).
  destruct (fwd_out K Kr P pw Hg Hsrc Hrec _ _ _ _ _ _ _ _ _ _ _ _ V' Z.lt_0_1 C' E') as (B & _).
  destruct (A q Hq) as (-> & _). destruct (B q Hq) as (-> & _). cbn [ucrop s_wfc].
  rewrite nsteps_1 by lia. replace (Z.to_nat (t + 1)) with (Datatypes.S (Z.to_nat t)) by lia.
  rewrite !state_S_last. cbn [step s_wfc]. rewrite !Z.add_0_l, !Z2Nat.id by lia.
  assert (X : steq nd (state K P (fun _ p => v (idx shape p)) f (Z.to_nat t) 0 (uinit K P pw u))
                      (state K P (fun _ p => v (idx shape p)) f' (Z.to_nat t) 0 (uinit K P pw u))).
  { apply state_ext_f; [reflexivity| |apply steq_refl]. intros x Hx. apply HF. lia. }
  revert X. generalize (state K P (fun _ p => v (idx shape p)) f (Z.to_nat t) 0 (uinit K P pw u)).
  generalize (state K P (fun _ p => v (idx shape p)) f' (Z.to_nat t) 0 (uinit K P pw u)).
  intros s2 s1 X. unfold inject.
  assert (M : mask K P (fun p => v (idx shape p) * v (idx shape p) * p_dt2 P * wsum K P s1 p + two * s_wfc K s1 p - s_wfp K s1 p) (topad K P q)
            = mask K P (fun p => v (idx shape p) * v (idx shape p) * p_dt2 P * wsum K P s2 p + two * s_wfc K s2 p - s_wfp K s2 p) (topad K P q)).
  { apply mask_ext. rewrite (wsum_ext K P s1 s2) by exact X. destruct X as (-> & -> & _). reflexivity. }
  rewrite M. fold (amps_at P (f t) q). fold (amps_at P (f' t) q). ring.
Qed.

(** C12 for intervals that divide the number of steps. *)
Lemma all_steps v f u nt sr vis vis1 vrg vrg1 cb cb1 st0 st1 :
  fvis K P pw vis -> fvis K P pw vis1 -> (0 < sr)%Z -> (0 <= nt)%Z -> (nt mod sr = 0)%Z ->
  cb_ok nt sr cb -> cb_ok nt 1 cb1 ->
  exists U R S U1 R1 S1,
    SF v vis vrg sr f nt cb st0 u = Some (U, R, S) /\
    SF v vis1 vrg1 1 f nt cb1 st1 u = Some (U1, R1, S1) /\
    ueq K P U U1 /\ (forall t, R t = R1 t) /\
    (forall t, (0 <= t < nt)%Z -> exists Ut Rt St,
       SF v vis1 vrg1 1 f t None st1 u = Some (Ut, Rt, St) /\ R t = at_receivers P (s_wfc K Ut)).
Proof.
  intros V V1 Hs Hn Hm C C1.
  destruct (forward_exists v f u nt sr vis vrg cb st0 V Hs C) as (U & R & S & E).
  destruct (forward_exists v f u nt 1 vis1 vrg1 cb1 st1 V1 Z.lt_0_1 C1) as (U1 & R1 & S1 & E1).
  exists U, R, S, U1, R1, S1. split; [exact E|]. split; [exact E1|].
  destruct (forward_all_steps K Kr P pw Hg Hsrc Hrec v f u nt sr vis vis1 vrg vrg1 cb cb1 st0 st1 U R S U1 R1 S1 V V1 Hs Hn Hm C C1 E E1) as [H1 H2].
  split; [exact H1|]. split; [exact H2|]. intros t Ht.
  assert (Ct : cb_ok t 1 None) by (cbn; lia).
  destruct (forward_exists v f u t 1 vis1 vrg1 None st1 V1 Z.lt_0_1 Ct) as (Ut & Rt & St & Et).
  exists Ut, Rt, St. split; [exact Et|].
  apply (receiver_sample v f u nt sr vis vis1 vrg vrg1 cb None st0 st1 U R S Ut Rt St t); auto.
Qed.

Lemma callbacks_passive v f u nt sr c vis vrg st0 :
  fvis K P pw vis -> (0 < sr)%Z -> (0 < c)%Z -> (nt = 0 \/ sr <= nt)%Z ->
  exists U R S U' R' S',
    SF v vis vrg sr f nt None st0 u = Some (U, R, S) /\
    SF v vis vrg sr f nt (Some c) st0 u = Some (U', R', S') /\
    ueq K P U U' /\ (forall t, R t = R' t).
Proof.
  intros V Hs Hc Hn.
  destruct (forward_exists v f u nt sr vis vrg None st0 V Hs Hn) as (U & R & S & E).
  destruct (forward_exists v f u nt sr vis vrg (Some c) st0 V Hs Hc) as (U' & R' & S' & E').
  exists U, R, S, U', R', S'. split; [exact E|]. split; [exact E'|].
  destruct (forward_same K Kr P pw Hg Hsrc Hrec v f u nt sr vis vis vrg vrg None (Some c) st0 st0 U R S U' R' S' V V Hs Hn Hc E E')
    as (H1 & H2 & _). split; assumption.
Qed.
End More2.
