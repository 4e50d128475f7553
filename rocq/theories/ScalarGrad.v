(** * Gradient theorems for the scalar propagator (proofs). *)
From Coq Require Import List ZArith QArith Ring Ring_theory Lia Bool Permutation.
From Verif Require Import Ops Sums Grid Stencil DualNum ScalarModel ScalarRefine ScalarForward
  ScalarBackward ScalarAdjoint ScalarFunc ScalarApi.
Import ListNotations.
Local Open Scope K_scope.

Local Arguments d1 : simpl never.
Local Arguments d2 : simpl never.
Local Arguments tmpf : simpl never.
Local Arguments wsum : simpl never.
Local Arguments inject : simpl never.
Local Arguments mask : simpl never.
Local Arguments gather : simpl never.

(** Constants as dual numbers. *)
Definition dl {K : ops} (l : list K) : list (dual K) := map dconst l.
Definition dst {K : ops} (s : st K) : st (dual K) :=
  mkst (dual K) (fun p => dconst (s_wfc K s p)) (fun p => dconst (s_wfp K s p))
       (fun d p => dconst (s_psi K s d p)) (fun d p => dconst (s_zeta K s d p)).
(** [v + eps dv] *)
Definition perturb {K : ops} (v dv : arr K) : arr (dual K) := fun i => (v i, dv i).
Definition dconsta {K : ops} (v : arr K) : arr (dual K) := fun i => dconst (v i).

(** The contribution of step [u] to the derivative of [<G, wavefields> + <gr, receivers>] in
    the direction [dv] of the wavespeed: three consecutive runs, each started from the
    wavefields returned by the previous one, of [u] steps with wavespeed [v], one step with
    [v + eps dv], and [nt - u - 1] steps with [v]. *)
Definition step_contrib {K : ops} (P : par K) (pw : nat -> Z * Z) (vis : list (list Z * pt))
    (v dv : arr K) (F : Z -> list K) (nt : Z) (U G : st K) (gr : Z -> list K) (u : Z) (e : K)
    : Prop :=
  let run := fun w f n s => scalar_forward (dual K) (dpar P) pw w vis false 1 f n None (fun _ _ => o0 (dual K)) s in
  exists UA RA SA UB RB SB UC RC SC,
    run (dconsta v) (fun t => dl (F t)) u (dst U) = Some (UA, RA, SA) /\
    run (perturb v dv) (fun t => dl (F (u + t)%Z)) 1%Z UA = Some (UB, RB, SB) /\
    run (dconsta v) (fun t => dl (F (u + 1 + t)%Z)) (nt - u - 1)%Z UB = Some (UC, RC, SC) /\
    e = udot K P G (sep UC)
        + tdot u gr (fun t => lep (RA t))
        + ldot (gr u) (lep (RB 0%Z))
        + tdot (nt - u - 1) (fun t => gr (u + 1 + t)%Z) (fun t => lep (RC t)).

Section Grad.
Variable K : ops.
Hypothesis Kr : is_ring K.
Add Ring KRing : Kr.
Variable P : par K.
Variable pw : nat -> Z * Z.
Notation shape := (p_shape P).
Notation fd := (fd_pad (p_acc P)).
Notation inint p := (interior K P p = true).
Notation nd := (length shape).
Notation DP := (dpar P).
Notation I := (ipts K P).
Hypothesis Hg : geom_ok K P pw.
Hypothesis Hsrc : Forall (loc_ok K P) (p_src P).
Hypothesis Hrec : Forall (loc_ok K P) (p_rec P).

Lemma geom_dual : geom_ok (dual K) DP pw.
Proof.
  intros d Hd. destruct (Hg d Hd) as (H1 & H2 & H3 & H4 & H5).
  split; [exact H1|]. split; [exact H2|]. split; [exact H3|]. split.
  - intros y Hy. destruct (H4 y Hy) as [Ea Eb].
    cbn [dpar p_a p_b]. rewrite Ea, Eb. split; reflexivity.
  - intros y Hy. cbn [dpar p_db p_b p_acc p_rd]. apply dual_eq.
    + rewrite fst_DIFF1. cbn. apply H5. exact Hy.
    + rewrite (snd_DIFF1 K Kr). cbn. symmetry. apply (DIFF1_zero K Kr). reflexivity.
Qed.

Lemma loc_dual l : Forall (loc_ok K P) l -> Forall (loc_ok (dual K) DP) l.
Proof. intros H. exact H. Qed.

Lemma bgv_sum v2 gr w n t s p :
  bgv K P v2 gr w n t s p
  = sumk K n (fun k => s_wfc K (bst K P v2 gr (n - 1 - k) (t + Z.of_nat k + 1)%Z s) p
                       * w (t + Z.of_nat k)%Z p).
Proof.
  revert t. induction n as [|n IH]; intros t; [reflexivity|].
  rewrite sumk_S. cbn [bgv]. rewrite IH.
  replace (S n - 1 - 0)%nat with n by lia. replace (t + Z.of_nat 0)%Z with t by lia.
  match goal with |- ?a + ?b = ?c + ?d => replace a with d; [ring|] end.
  apply sumk_ext. intros k Hk. replace (S n - 1 - S k)%nat with (n - 1 - k)%nat by lia.
  replace (t + Z.of_nat (S k))%Z with (t + 1 + Z.of_nat k)%Z by lia. reflexivity.
Qed.

Lemma dot_sumk_l n (f : nat -> field K) (g : field K) :
  dot I (fun p => sumk K n (fun k => f k p)) g = sumk K n (fun k => dot I (f k) g).
Proof.
  induction n as [|n IH].
  - unfold sumk. cbn. apply (dot_zero_l K Kr). reflexivity.
  - rewrite (sumk_S_last K Kr), <- IH, <- (dot_add_l K Kr). apply (dot_ext K); [|reflexivity].
    intros p _. apply (sumk_S_last K Kr).
Qed.

(** Contribution of step [k], as computed by the backward run. *)
Definition ckp (v : arr K) (F : Z -> list K) (N : nat) (U G : st K) (gr : Z -> list K) (k : nat) : field K :=
  let vf := fun p => v (idx shape p) in
  let v2 := fun p => v (idx shape p) * v (idx shape p) * p_dt2 P in
  fun p => s_wfc K (bst K P v2 gr (N - 1 - k) (Z.of_nat k + 1)%Z (sneg K (uinit K P pw G))) p
     * (two * vf p * p_dt2 P * wsum K P (state K P (fun _ => vf) F k 0 (uinit K P pw U)) p).

(** The model gradient returned by the backward pass, from the forward pass's snapshots. *)
Lemma grad_v_sum (v : arr K) F sr nt cb cb' visF visB store0 U G gr U' R' S' G0 gf gv :
  (0 < sr)%Z -> (0 <= nt)%Z -> cb_ok nt sr cb -> cb_ok nt sr cb' -> fvis K P pw visF -> bvis K P pw visB ->
  scalar_forward K P pw v visF true sr F nt cb store0 U = Some (U', R', S') ->
  scalar_backward K P pw v visB S' true sr gr nt cb' G = Some (G0, gf, gv) ->
  forall dv : arr K, adot (prodZ shape) gv dv
    = ofZ K sr * sumk K (Z.to_nat (nt / sr))
        (fun j => dot I (ckp v F (nsteps nt sr) U G gr (j * Z.to_nat sr)) (fun p => dv (idx shape p))).
Proof.
  intros Hsr Hnt Hcb Hcb' HvF HvB EF EB dv.
  destruct (scalar_forward_spec K Kr P pw Hg Hsrc Hrec v visF true sr F nt cb store0 U HvF Hsr Hcb)
    as (U1 & R1 & S1 & EF1 & _ & _ & _ & FS).
  rewrite EF in EF1. injection EF1 as <- <- <-.
  destruct (scalar_backward_spec K Kr P pw Hg Hsrc Hrec v visB S' true sr gr nt cb' G HvB Hsr Hcb')
    as (G1 & gf1 & gv1 & EB1 & _ & _ & _ & BV & BZ).
  rewrite EB in EB1. injection EB1 as <- <- <-.
  rewrite (adot_interior K Kr P pw Hg) by exact BZ.
  set (N := nsteps nt sr) in *.
  assert (HN : N = (Z.to_nat (nt / sr) * Z.to_nat sr)%nat).
  { unfold N, nsteps. rewrite Z2Nat.inj_mul; [reflexivity| |lia]. apply Z.div_pos; lia. }
  rewrite (dot_ext K _ _ _ (fun p => sumk K N (fun k =>
     if (Z.of_nat k mod sr =? 0)%Z then ofZ K sr * ckp v F N U G gr k p else 0)) (fun p => dv (idx shape p))).
  - rewrite dot_sumk_l. rewrite <- (sumk_scal K Kr).
    set (g := fun z : Z => dot I (fun p => if (z mod sr =? 0)%Z then ofZ K sr * ckp v F N U G gr (Z.to_nat z) p else 0)
                         (fun p => dv (idx shape p))).
    rewrite (sumk_ext K N _ (fun k => g (Z.of_nat k))).
    2:{ intros k Hk. unfold g. rewrite Nat2Z.id. reflexivity. }
    rewrite (f_equal (fun n => sumk K n (fun k => g (Z.of_nat k))) HN). rewrite (sumk_sampled K Kr).
    + apply sumk_ext. intros j Hj. unfold g. rewrite Z_mod_mult. cbn [Z.eqb].
      replace (Z.to_nat (Z.of_nat j * sr)) with (j * Z.to_nat sr)%nat by nia.
      apply (dot_scal_l K Kr).
    + exact Hsr.
    + intros k Hk Hm. unfold g. apply (dot_zero_l K Kr). intros p _.
      destruct (Z.eqb_spec (Z.of_nat k mod sr) 0); [contradiction|reflexivity].
  - intros p Hp. apply In_box_pts in Hp. rewrite BV by exact Hp. rewrite bgv_sum.
    apply sumk_ext. intros k Hk. unfold bweight. cbn [andb].
    destruct (Z.eq_dec (Z.of_nat k mod sr) 0) as [E|E].
    + replace (0 + Z.of_nat k)%Z with (Z.of_nat k) by lia. rewrite FS by auto.
      destruct (Z.eqb_spec (Z.of_nat k mod sr) 0); [|contradiction]. unfold ckp. ring.
    + replace (0 + Z.of_nat k)%Z with (Z.of_nat k) by lia.
      destruct (Z.eqb_spec (Z.of_nat k mod sr) 0); [contradiction|]. ring.
  - reflexivity.
Qed.

(** Directional derivative of [<G, wavefields> + <gr, receivers>]. *)
Lemma grad_main (V : arr (dual K)) (F : Z -> list (dual K)) (U : st (dual K)) (G : st K) gr
    sr nt visD visB vrgD vrgB cbD cbB store0D store U' R' S' G0 gf gv :
  (0 < sr)%Z -> (0 <= nt)%Z -> cb_ok nt sr cbD -> cb_ok nt sr cbB -> fvis K P pw visD -> bvis K P pw visB ->
  scalar_forward (dual K) DP pw V visD vrgD sr F nt cbD store0D U = Some (U', R', S') ->
  scalar_backward K P pw (are V) visB store vrgB sr gr nt cbB G = Some (G0, gf, gv) ->
  udot K P G (sep U') + tdot nt gr (fun t => lep (R' t))
  = udot K P G0 (sep U) + tdot nt gf (fun t => lep (F t))
    + sumk K (nsteps nt sr) (fun k =>
        dot I (ckp (are V) (fun t => lre (F t)) (nsteps nt sr) (sre U) G gr k) (fun p => snd (V (idx shape p)))).
Proof.
  intros Hsr Hnt HcD HcB HvD HvB ED EB.
  destruct (scalar_forward_spec (dual K) (dual_is_ring K Kr) DP pw geom_dual Hsrc Hrec
              V visD vrgD sr F nt cbD store0D U HvD Hsr HcD)
    as (U1 & R1 & S1 & ED1 & D1 & D2 & D3 & _).
  rewrite ED in ED1. injection ED1 as <- <- <-.
  destruct (scalar_backward_spec K Kr P pw Hg Hsrc Hrec (are V) visB store vrgB sr gr nt cbB G HvB Hsr HcB)
    as (G1 & gf1 & gv1 & EB1 & B1 & B2 & B3 & _ & _).
  rewrite EB in EB1. injection EB1 as <- <- <-.
  set (N := nsteps nt sr) in *.
  assert (HN : (Z.of_nat N <= nt)%Z).
  { unfold N, nsteps. pose proof (Z.mul_div_le nt sr). nia. }
  set (vf := fun p => V (idx shape p)).
  set (v2 := fun p => are V (idx shape p) * are V (idx shape p) * p_dt2 P).
  pose proof (adjoint_user K Kr P pw Hg Hsrc Hrec (fun _ => vf) (fre vf) F gr v2 N U G
     (fun _ _ => eq_refl) (fun p _ => eq_refl)) as A. cbv zeta in A.
  rewrite (udot_ext K P G G (sep U') (ucrop K P (sep (state (dual K) DP (fun _ => vf) F N 0 (uinit (dual K) DP pw U))))).
  2:{ intros q Hq. repeat split. }
  2:{ intros q Hq. destruct (D1 q Hq) as (X1 & X2 & X3). cbn. unfold fep.
      rewrite X1, X2. split; [reflexivity|]. split; [reflexivity|]. intros d Hd.
      destruct (X3 d Hd) as [Y1 Y2]. rewrite Y1, Y2. split; reflexivity. }
  rewrite (udot_ext K P G0 _ (sep U) (sep U) B1).
  2:{ intros q Hq. repeat split. }
  unfold tdot.
  rewrite (sumf_zrange_trunc K Kr nt N (fun t => ldot (gr t) (lep (R' t)))); [|exact HN|].
  2:{ intros t Ht. rewrite D3 by lia. unfold lep. rewrite map_map. cbn. apply (ldot_zero_r K Kr). }
  rewrite (sumf_zrange_trunc K Kr nt N (fun t => ldot (gf t) (lep (F t)))); [|exact HN|].
  2:{ intros t Ht. rewrite B3 by lia. apply (ldot_zero_l K Kr). }
  rewrite (sumk_ext K N (fun k => ldot (gr (Z.of_nat k)) (lep (R' (Z.of_nat k))))
     (fun k => ldot (gr (Z.of_nat k)) (lep (rec_amps (dual K) DP (state (dual K) DP (fun _ => vf) F k 0 (uinit (dual K) DP pw U)))))).
  2:{ intros k Hk. rewrite D2 by exact Hk. reflexivity. }
  rewrite (sumk_ext K N (fun k => ldot (gf (Z.of_nat k)) (lep (F (Z.of_nat k))))
     (fun k => ldot (gather K P (p_src P) (s_wfc K (bst K P v2 gr (N - 1 - k) (Z.of_nat k + 1) (sneg K (uinit K P pw G)))))
                    (lep (F (Z.of_nat k))))).
  2:{ intros k Hk. rewrite B2 by exact Hk. reflexivity. }
  exact A.
Qed.

End Grad.

Section Grad2.
Variable K : ops.
Hypothesis Kr : is_ring K.
Add Ring KRing2 : Kr.
Variable P : par K.
Variable pw : nat -> Z * Z.
Notation shape := (p_shape P).
Notation inint p := (interior K P p = true).
Notation nd := (length shape).
Notation DP := (dpar P).
Notation I := (ipts K P).
Hypothesis Hg : geom_ok K P pw.
Hypothesis Hsrc : Forall (loc_ok K P) (p_src P).
Hypothesis Hrec : Forall (loc_ok K P) (p_rec P).

Lemma ckp_step_contrib (v dv : arr K) F N U G gr u vis e :
  fvis K P pw vis -> (u < N)%nat ->
  step_contrib P pw vis v dv F (Z.of_nat N) U G gr (Z.of_nat u) e ->
  e = dot I (ckp K P pw v F N U G gr u) (fun p => dv (idx shape p)).
Proof.
  intros Hvis Hu (UA & RA & SA & UB & RB & SB & UC & RC & SC & EA & EB & EC & Ee).
  pose proof (dual_is_ring K Kr) as Dr. pose proof (geom_dual K Kr P pw Hg) as Dg.
  assert (N1 : forall n, (0 <= n)%Z -> nsteps n 1 = Z.to_nat n).
  { intros n Hn. unfold nsteps. rewrite Z.div_1_r, Z.mul_1_r. reflexivity. }
  assert (C1 : forall n, (0 <= n)%Z -> cb_ok n 1 None) by (intros n Hn; cbn; lia).
  destruct (scalar_forward_spec (dual K) Dr DP pw Dg Hsrc Hrec (dconsta v) vis false 1
     (fun t => dl (F t)) (Z.of_nat u) None (fun _ _ => o0 (dual K)) (dst U) Hvis ltac:(lia) (C1 (Z.of_nat u) ltac:(lia)))
    as (U1 & R1 & S1 & E1 & A1 & A2 & _).
  rewrite EA in E1. injection E1 as <- <- <-. rewrite N1, Nat2Z.id in A1, A2 by lia.
  destruct (scalar_forward_spec (dual K) Dr DP pw Dg Hsrc Hrec (perturb v dv) vis false 1
     (fun t => dl (F (Z.of_nat u + t)%Z)) 1 None (fun _ _ => o0 (dual K)) UA Hvis ltac:(lia) (C1 1%Z ltac:(lia)))
    as (U1 & R1 & S1 & E1 & B1 & B2 & _).
  rewrite EB in E1. injection E1 as <- <- <-. rewrite N1 in B1, B2 by lia.
  change (Z.to_nat 1) with 1%nat in *.
  destruct (scalar_forward_spec (dual K) Dr DP pw Dg Hsrc Hrec (dconsta v) vis false 1
     (fun t => dl (F (Z.of_nat u + 1 + t)%Z)) (Z.of_nat N - Z.of_nat u - 1) None (fun _ _ => o0 (dual K)) UB
     Hvis ltac:(lia) (C1 (Z.of_nat N - Z.of_nat u - 1)%Z ltac:(lia)))
    as (U1 & R1 & S1 & E1 & D1 & D2 & _).
  rewrite EC in E1. injection E1 as <- <- <-. rewrite N1 in D1, D2 by lia.
  replace (Z.to_nat (Z.of_nat N - Z.of_nat u - 1)) with (N - u - 1)%nat in * by lia.
  (* the time-varying run *)
  set (vc := fun p => dconst (v (idx shape p)) : dual K).
  set (vp := fun p => (v (idx shape p), dv (idx shape p)) : dual K).
  set (vt := fun t : Z => if (t =? Z.of_nat u)%Z then vp else vc).
  set (DF := fun t => dl (F t)).
  set (s0 := uinit (dual K) DP pw (dst U)).
  set (stt := fun k => state (dual K) DP vt DF k 0 s0).
  change (fun p : pt => dconsta v (idx (p_shape DP) p)) with vc in *.
  change (fun p : pt => perturb v dv (idx (p_shape DP) p)) with vp in *.
  assert (Xa : forall k, (k <= u)%nat ->
            steq nd (state (dual K) DP (fun _ => vc) DF k 0 s0) (stt k)).
  { intros k Hk. unfold stt.
    assert (G1 : forall n t s, (0 <= t)%Z -> (t + Z.of_nat n <= Z.of_nat u)%Z ->
       state (dual K) DP (fun _ => vc) DF n t s = state (dual K) DP vt DF n t s).
    { induction n as [|n IH]; intros t s Ht Hn; [reflexivity|]. cbn [state].
      unfold vt at 2. destruct (Z.eqb_spec t (Z.of_nat u)); [lia|]. apply IH; lia. }
    rewrite G1 by lia. apply steq_refl. }
  assert (ZA : steq nd (uinit (dual K) DP pw UA) (stt u)).
  { eapply steq_trans; [|apply (Xa u); lia]. apply (restart (dual K) Dr DP pw Dg Hsrc). exact A1. }
  assert (Xb : steq nd (state (dual K) DP (fun _ => vp) (fun t => dl (F (Z.of_nat u + t)%Z)) 1 0
                 (uinit (dual K) DP pw UA)) (stt (S u))).
  { eapply steq_trans.
    - apply (state_ext_f (dual K) DP _ (fun _ => vp) _ (fun t => dl (F (Z.of_nat u + t)%Z)) 1 0 _ (stt u)); auto.
    - unfold stt at 2. rewrite (state_S_last (dual K) DP vt DF u). fold (stt u). cbn [state].
      replace (0 + Z.of_nat u)%Z with (Z.of_nat u) by lia.
      replace (Z.of_nat u + 0)%Z with (Z.of_nat u) by lia.
      replace (vt (Z.of_nat u)) with vp by (unfold vt; rewrite Z.eqb_refl; reflexivity).
      apply steq_refl. }
  assert (ZB : steq nd (uinit (dual K) DP pw UB) (stt (S u))).
  { eapply steq_trans; [|exact Xb]. apply (restart (dual K) Dr DP pw Dg Hsrc). exact B1. }
  assert (Xc : forall k, steq nd (state (dual K) DP (fun _ => vc) (fun t => dl (F (Z.of_nat u + 1 + t)%Z)) k 0
                 (uinit (dual K) DP pw UB)) (stt (S u + k)%nat)).
  { intros k. eapply steq_trans; [apply (state_ext_f (dual K) DP _ (fun _ => vc) _ _ k 0 _ _
       (fun _ _ => eq_refl) (fun _ _ => eq_refl) ZB)|].
    unfold stt at 2. rewrite state_add. fold s0. fold (stt (S u)).
    eapply steq_trans.
    - apply steq_sym. apply (state_shift (dual K) DP (fun _ => vc) DF k (Z.of_nat u + 1) 0).
    - replace (0 + Z.of_nat (S u))%Z with (Z.of_nat u + 1 + 0)%Z by lia.
      assert (G1 : forall n t s, (Z.of_nat u < t)%Z ->
         state (dual K) DP (fun _ => vc) DF n t s = state (dual K) DP vt DF n t s).
      { induction n as [|n IH]; intros t s Ht; [reflexivity|]. cbn [state].
        unfold vt at 2. destruct (Z.eqb_spec t (Z.of_nat u)); [lia|]. apply IH; lia. }
      rewrite G1 by lia. apply steq_refl. }
  pose proof (adjoint_user K Kr P pw Hg Hsrc Hrec vt (fun p => v (idx shape p)) DF gr
     (fun p => v (idx shape p) * v (idx shape p) * p_dt2 P) N (dst U) G
     ltac:(intros t p; unfold vt; destruct (t =? Z.of_nat u)%Z; reflexivity)
     ltac:(reflexivity)) as A. cbv zeta beta in A.
  change (uinit (dual K) DP pw (dst U)) with s0 in A. change (state (dual K) DP vt DF N 0 s0) with (stt N) in A.
  change (fun k => ldot (gr (Z.of_nat k)) (lep (rec_amps (dual K) DP (state (dual K) DP vt DF k 0 s0))))
    with (fun k => ldot (gr (Z.of_nat k)) (lep (rec_amps (dual K) DP (stt k)))) in A.
  assert (HNu : (S u + (N - u - 1))%nat = N) by lia.
  assert (L1 : udot K P G (sep UC) = udot K P G (ucrop K P (sep (stt N)))).
  { apply udot_ext; [intros q Hq; repeat split|].
    assert (Q : ueq (dual K) DP UC (ucrop (dual K) DP (stt N))).
    { eapply ueq_trans; [exact D1|]. apply ueq_crop.
      eapply steq_trans; [apply Xc|]. rewrite HNu. apply steq_refl. }
    intros q Hq. destruct (Q q Hq) as (Q1 & Q2 & Q3). cbn. unfold fep. rewrite Q1, Q2.
    split; [reflexivity|]. split; [reflexivity|]. intros d Hd. destruct (Q3 d Hd) as [Q4 Q5].
    rewrite Q4, Q5. split; reflexivity. }
  assert (L2 : tdot (Z.of_nat u) gr (fun t => lep (RA t))
             = sumk K u (fun k => ldot (gr (Z.of_nat k)) (lep (rec_amps (dual K) DP (stt k))))).
  { unfold tdot. rewrite sumf_zrange. apply sumk_ext. intros k Hk. rewrite A2 by exact Hk.
    do 2 f_equal. apply rec_amps_ext. apply Xa. lia. }
  assert (L3 : lep (RB 0%Z) = lep (rec_amps (dual K) DP (stt u))).
  { change 0%Z with (Z.of_nat 0). rewrite B2 by lia. f_equal. apply rec_amps_ext. exact ZA. }
  assert (L4 : tdot (Z.of_nat N - Z.of_nat u - 1) (fun t => gr (Z.of_nat u + 1 + t)%Z) (fun t => lep (RC t))
             = sumk K (N - u - 1) (fun k => ldot (gr (Z.of_nat (S u + k))) (lep (rec_amps (dual K) DP (stt (S u + k)%nat))))).
  { unfold tdot. replace (Z.of_nat N - Z.of_nat u - 1)%Z with (Z.of_nat (N - u - 1)) by lia.
    rewrite sumf_zrange. apply sumk_ext. intros k Hk. rewrite D2 by exact Hk.
    f_equal; [f_equal; lia|]. f_equal. apply rec_amps_ext. apply Xc. }
  rewrite Ee, L1, L2, L3, L4.
  match type of A with ?a + ?b = _ => assert (L5 : b =
     sumk K u (fun k => ldot (gr (Z.of_nat k)) (lep (rec_amps (dual K) DP (stt k))))
     + ldot (gr (Z.of_nat u)) (lep (rec_amps (dual K) DP (stt u)))
     + sumk K (N - u - 1) (fun k => ldot (gr (Z.of_nat (S u + k))) (lep (rec_amps (dual K) DP (stt (S u + k)%nat))))) end.
  { transitivity (sumk K (S u + (N - u - 1)) (fun k => ldot (gr (Z.of_nat k)) (lep (rec_amps (dual K) DP (stt k))))).
    - rewrite HNu. reflexivity.
    - rewrite (sumk_add K Kr), (sumk_S_last K Kr). reflexivity. }
  rewrite L5 in A.
  match goal with |- ?x = _ => match type of A with ?y = _ => replace x with y by ring end end.
  rewrite A. clear - Kr Hu.
  assert (E1 : udot K P (ucrop K P (sneg K (bst K P (fun p => v (idx shape p) * v (idx shape p) * p_dt2 P) gr N 0
                  (sneg K (uinit K P pw G))))) (sep (dst U)) = 0).
  { assert (Z0 : forall f : field K, dot (upts K P) f (fun _ => 0) = 0).
    { intros f. rewrite (dot_comm K Kr). apply (dot_zero_l K Kr). reflexivity. }
    unfold udot, sep, dst, fep, dconst. cbn [s_wfc s_wfp s_psi s_zeta snd].
    rewrite !Z0. rewrite (sumf_zero K Kr); [ring|]. intros d _. rewrite !Z0. ring. }
  rewrite E1.
  rewrite (sumk_zero K Kr N (fun k => ldot _ _)).
  2:{ intros k Hk. unfold DF, lep, dl. rewrite map_map. cbn. apply (ldot_zero_r K Kr). }
  replace N with (u + S (N - u - 1))%nat at 1 by lia.
  rewrite (sumk_add K Kr), (sumk_S K), !(sumk_zero K Kr).
  - rewrite Nat.add_0_r. unfold ckp. unfold vt. rewrite Z.eqb_refl.
    match goal with |- 0 + 0 + (0 + (?a + 0)) = ?b => replace a with b; [ring|] end.
    apply (dot_ext K); [|reflexivity]. intros p _.
    do 2 f_equal. apply wsum_ext. apply state_ext_f; [reflexivity| |apply steq_refl].
    intros t Ht. unfold DF, lre, dl. rewrite map_map. symmetry. apply map_id.
  - intros k Hk. rewrite (dot_comm K Kr). apply (dot_zero_l K Kr). intros p _. unfold vt.
    destruct (Z.eqb_spec (Z.of_nat (u + S k)) (Z.of_nat u)); [lia|]. reflexivity.
  - intros k Hk. rewrite (dot_comm K Kr). apply (dot_zero_l K Kr). intros p _. unfold vt.
    destruct (Z.eqb_spec (Z.of_nat k) (Z.of_nat u)); [lia|]. reflexivity.
Qed.

(** The three runs never fail. *)
Lemma step_contrib_exists (v dv : arr K) F nt U G gr u vis :
  fvis K P pw vis -> (0 <= u < nt)%Z -> exists e, step_contrib P pw vis v dv F nt U G gr u e.
Proof.
  intros Hvis Hu. unfold step_contrib.
  pose proof (dual_is_ring K Kr) as Dr. pose proof (geom_dual K Kr P pw Hg) as Dg.
  assert (C1 : forall n, (0 <= n)%Z -> cb_ok n 1 None) by (intros n Hn; cbn; lia).
  destruct (scalar_forward_spec (dual K) Dr DP pw Dg Hsrc Hrec (dconsta v) vis false 1
     (fun t => dl (F t)) u None (fun _ _ => o0 (dual K)) (dst U) Hvis ltac:(lia) (C1 u ltac:(lia)))
    as (UA & RA & SA & EA & _).
  destruct (scalar_forward_spec (dual K) Dr DP pw Dg Hsrc Hrec (perturb v dv) vis false 1
     (fun t => dl (F (u + t)%Z)) 1 None (fun _ _ => o0 (dual K)) UA Hvis ltac:(lia) (C1 1%Z ltac:(lia)))
    as (UB & RB & SB & EB & _).
  destruct (scalar_forward_spec (dual K) Dr DP pw Dg Hsrc Hrec (dconsta v) vis false 1
     (fun t => dl (F (u + 1 + t)%Z)) (nt - u - 1) None (fun _ _ => o0 (dual K)) UB
     Hvis ltac:(lia) (C1 (nt - u - 1)%Z ltac:(lia)))
    as (UC & RC & SC & EC & _).
  eexists. exists UA, RA, SA, UB, RB, SB, UC, RC, SC. repeat split; eassumption.
Qed.

(** ** Statements used by the property file *)

(** C01 *)
Lemma scalar_linear_gradient (v : arr K) F U G gr sr nt visF visB vrgF vrgB cbF cbB store0 store :
  (0 < sr)%Z -> (0 <= nt)%Z -> cb_ok nt sr cbF -> cb_ok nt sr cbB -> fvis K P pw visF -> bvis K P pw visB ->
  exists U' R' S' G0 gf gv,
    scalar_forward K P pw v visF vrgF sr F nt cbF store0 U = Some (U', R', S') /\
    scalar_backward K P pw v visB store vrgB sr gr nt cbB G = Some (G0, gf, gv) /\
    udot K P G U' + tdot nt gr R' = udot K P G0 U + tdot nt gf F.
Proof.
  intros Hsr Hnt HcF HcB HvF HvB.
  destruct (scalar_forward_spec K Kr P pw Hg Hsrc Hrec v visF vrgF sr F nt cbF store0 U HvF Hsr HcF)
    as (U' & R' & S' & EF & F1 & F2 & F3 & _).
  destruct (scalar_backward_spec K Kr P pw Hg Hsrc Hrec v visB store vrgB sr gr nt cbB G HvB Hsr HcB)
    as (G0 & gf & gv & EB & _).
  exists U', R', S', G0, gf, gv. split; [exact EF|]. split; [exact EB|].
  pose proof (geom_dual K Kr P pw Hg) as Dg.
  destruct (scalar_forward_spec (dual K) (dual_is_ring K Kr) DP pw Dg Hsrc Hrec (dconsta v) visF false sr
     (fun t => eps_l K (F t)) nt cbF (fun _ _ => o0 (dual K)) (eps_st K U) HvF Hsr HcF)
    as (DU & DR & DS & ED & D1 & D2 & D3 & _).
  pose proof (grad_main K Kr P pw Hg Hsrc Hrec (dconsta v) (fun t => eps_l K (F t)) (eps_st K U) G gr sr nt
     visF visB false vrgB cbF cbB _ store DU DR DS G0 gf gv Hsr Hnt HcF HcB HvF HvB ED EB) as A.
  set (N := nsteps nt sr) in *.
  set (vf := fun p => v (idx shape p)).
  assert (XS : forall k, steq nd (sep (state (dual K) DP (fun _ p => dconsta v (idx shape p)) (fun t => eps_l K (F t)) k 0
            (uinit (dual K) DP pw (eps_st K U)))) (state K P (fun _ => vf) F k 0 (uinit K P pw U))).
  { intros k. eapply steq_trans; [apply (sep_state_const K Kr P vf)|].
    apply state_ext_f; [reflexivity|intros t _; apply lep_eps|apply (sep_uinit K P pw (eps_st K U))]. }
  rewrite (udot_ext K P G G (sep DU) U') in A.
  2:{ intros q Hq. repeat split. }
  2:{ apply (ueq_trans K P _ (ucrop K P (sep (state (dual K) DP (fun _ p => dconsta v (idx shape p)) (fun t => eps_l K (F t)) N 0
            (uinit (dual K) DP pw (eps_st K U)))))).
      - intros q Hq. destruct (D1 q Hq) as (X1 & X2 & X3). cbn. unfold fep. rewrite X1, X2.
        split; [reflexivity|]. split; [reflexivity|]. intros d Hd. destruct (X3 d Hd) as [Y1 Y2].
        rewrite Y1, Y2. split; reflexivity.
      - apply (ueq_trans K P _ (ucrop K P (state K P (fun _ => vf) F N 0 (uinit K P pw U)))).
        + apply ueq_crop, XS.
        + apply ueq_sym. exact F1. }
  assert (T1 : tdot nt gr (fun t => lep (DR t)) = tdot nt gr R').
  { unfold tdot. apply sumf_ext. intros t Ht. apply In_zrange in Ht. f_equal.
    destruct (Z.lt_ge_cases t (Z.of_nat N)) as [L|L].
    - replace t with (Z.of_nat (Z.to_nat t)) by lia. rewrite D2, F2 by lia.
      unfold rec_amps. rewrite lep_gather. apply gather_ext. apply XS.
    - rewrite D3, F3 by lia. unfold lep. rewrite map_map. reflexivity. }
  assert (T2 : tdot nt gf (fun t => lep (eps_l K (F t))) = tdot nt gf F).
  { unfold tdot. apply sumf_ext. intros t Ht. rewrite lep_eps. reflexivity. }
  rewrite T1, T2 in A. rewrite A.
  rewrite (udot_ext K P G0 G0 (sep (eps_st K U)) U) by (intros q Hq; repeat split).
  rewrite (sumk_zero K Kr); [ring|]. intros k Hk. rewrite (dot_comm K Kr). apply (dot_zero_l K Kr).
  reflexivity.
Qed.

(** C02 *)
Lemma scalar_gradient_exact (V : arr (dual K)) (F : Z -> list (dual K)) (U : st (dual K)) (G : st K) gr
    nt visD visF visB vrgD cbD cbF cbB store0D store0 :
  oq K (inject_Z 1) = 1 ->
  (0 <= nt)%Z -> cb_ok nt 1 cbD -> cb_ok nt 1 cbF -> cb_ok nt 1 cbB ->
  fvis K P pw visD -> fvis K P pw visF -> bvis K P pw visB ->
  exists U' R' SD UK RK S' G0 gf gv,
    scalar_forward (dual K) DP pw V visD vrgD 1 F nt cbD store0D U = Some (U', R', SD) /\
    scalar_forward K P pw (are V) visF true 1 (fun t => lre (F t)) nt cbF store0 (sre U) = Some (UK, RK, S') /\
    scalar_backward K P pw (are V) visB S' true 1 gr nt cbB G = Some (G0, gf, gv) /\
    udot K P G (sep U') + tdot nt gr (fun t => lep (R' t))
    = udot K P G0 (sep U) + tdot nt gf (fun t => lep (F t)) + adot (prodZ shape) gv (aep V).
Proof.
  intros Hq Hnt HcD HcF HcB HvD HvF HvB.
  destruct (scalar_forward_spec (dual K) (dual_is_ring K Kr) DP pw (geom_dual K Kr P pw Hg) Hsrc Hrec
     V visD vrgD 1 F nt cbD store0D U HvD ltac:(lia) HcD) as (U' & R' & SD & ED & _).
  destruct (scalar_forward_spec K Kr P pw Hg Hsrc Hrec (are V) visF true 1 (fun t => lre (F t)) nt cbF store0
     (sre U) HvF ltac:(lia) HcF) as (UK & RK & S' & EF & _).
  destruct (scalar_backward_spec K Kr P pw Hg Hsrc Hrec (are V) visB S' true 1 gr nt cbB G HvB ltac:(lia) HcB)
    as (G0 & gf & gv & EB & _).
  exists U', R', SD, UK, RK, S', G0, gf, gv. split; [exact ED|]. split; [exact EF|]. split; [exact EB|].
  rewrite (grad_main K Kr P pw Hg Hsrc Hrec V F U G gr 1 nt visD visB vrgD true cbD cbB store0D S' U' R' SD
     G0 gf gv ltac:(lia) Hnt HcD HcB HvD HvB ED EB).
  f_equal.
  rewrite (grad_v_sum K Kr P pw Hg Hsrc Hrec (are V) (fun t => lre (F t)) 1 nt cbF cbB visF visB store0 (sre U) G gr
     UK RK S' G0 gf gv ltac:(lia) Hnt HcF HcB HvF HvB EF EB).
  unfold ofZ. rewrite Hq, Z.div_1_r.
  replace (nsteps nt 1) with (Z.to_nat nt) by (unfold nsteps; rewrite Z.div_1_r; f_equal; lia).
  change (Z.to_nat 1) with 1%nat.
  rewrite (sumk_ext K (Z.to_nat nt) (fun j => dot I (ckp K P pw _ _ _ _ _ _ (j * 1)) _)
     (fun j => dot I (ckp K P pw (are V) (fun t => lre (F t)) (Z.to_nat nt) (sre U) G gr j) (fun p => aep V (idx shape p)))).
  - unfold aep. ring.
  - intros j _. rewrite Nat.mul_1_r. reflexivity.
Qed.

(** C03 *)
Lemma scalar_gradient_sampled (v : arr K) F U G gr sr nt visF visB cbF cbB store0 U' R' S' G0 gf gv dv (e : nat -> K) :
  oq K (inject_Z sr) = sumk K (Z.to_nat sr) (fun _ => 1) ->
  (0 < sr)%Z -> (0 <= nt)%Z -> cb_ok nt sr cbF -> cb_ok nt sr cbB -> fvis K P pw visF -> bvis K P pw visB ->
  scalar_forward K P pw v visF true sr F nt cbF store0 U = Some (U', R', S') ->
  scalar_backward K P pw v visB S' true sr gr nt cbB G = Some (G0, gf, gv) ->
  (forall j, (j < Z.to_nat (nt / sr))%nat ->
     step_contrib P pw visF v dv F (nt / sr * sr) U G gr (Z.of_nat j * sr) (e j)) ->
  adot (prodZ shape) gv dv = sumk K (Z.to_nat sr) (fun _ => sumk K (Z.to_nat (nt / sr)) e).
Proof.
  intros Hone Hsr Hnt HcF HcB HvF HvB EF EB He.
  transitivity (ofZ K sr * sumk K (Z.to_nat (nt / sr)) e).
  2:{ unfold ofZ. rewrite Hone. generalize (sumk K (Z.to_nat (nt / sr)) e). intros x.
      unfold sumk. rewrite <- (sumf_scal_r K Kr). apply sumf_ext. intros a _. ring. }
  rewrite (grad_v_sum K Kr P pw Hg Hsrc Hrec v F sr nt cbF cbB visF visB store0 U G gr
     U' R' S' G0 gf gv Hsr Hnt HcF HcB HvF HvB EF EB).
  f_equal. apply sumk_ext. intros j Hj. symmetry.
  assert (Hq : (0 <= nt / sr)%Z) by (apply Z.div_pos; lia).
  apply (ckp_step_contrib v dv F (nsteps nt sr) U G gr (j * Z.to_nat sr) visF).
  - exact HvF.
  - unfold nsteps. nia.
  - replace (Z.of_nat (nsteps nt sr)) with (nt / sr * sr)%Z by (unfold nsteps; nia).
    replace (Z.of_nat (j * Z.to_nat sr)) with (Z.of_nat j * sr)%Z by nia.
    apply He. exact Hj.
Qed.

(** C03, second part: the other gradients do not depend on the interval. *)
Lemma scalar_gradient_interval (v : arr K) G gr sr1 sr2 nt vis1 vis2 st1 st2 vrg1 vrg2 cb1 cb2
    G1 gf1 gv1 G2 gf2 gv2 :
  (0 < sr1)%Z -> (0 < sr2)%Z -> (nt / sr1 * sr1 = nt / sr2 * sr2)%Z ->
  cb_ok nt sr1 cb1 -> cb_ok nt sr2 cb2 -> bvis K P pw vis1 -> bvis K P pw vis2 ->
  scalar_backward K P pw v vis1 st1 vrg1 sr1 gr nt cb1 G = Some (G1, gf1, gv1) ->
  scalar_backward K P pw v vis2 st2 vrg2 sr2 gr nt cb2 G = Some (G2, gf2, gv2) ->
  ueq K P G1 G2 /\ forall t, gf1 t = gf2 t.
Proof.
  intros H1 H2 En C1 C2 V1 V2 E1 E2.
  destruct (scalar_backward_spec K Kr P pw Hg Hsrc Hrec v vis1 st1 vrg1 sr1 gr nt cb1 G V1 H1 C1)
    as (? & ? & ? & EB & A1 & A2 & A3 & _). rewrite E1 in EB. injection EB as <- <- <-.
  destruct (scalar_backward_spec K Kr P pw Hg Hsrc Hrec v vis2 st2 vrg2 sr2 gr nt cb2 G V2 H2 C2)
    as (? & ? & ? & EB & B1 & B2 & B3 & _). rewrite E2 in EB. injection EB as <- <- <-.
  assert (En' : nsteps nt sr1 = nsteps nt sr2) by (unfold nsteps; rewrite En; reflexivity).
  rewrite En' in *. split.
  - eapply ueq_trans; [exact A1|]. apply ueq_sym. exact B1.
  - intros t. destruct (Z.lt_ge_cases t 0) as [L|L]; [rewrite A3, B3 by lia; reflexivity|].
    destruct (Z.lt_ge_cases t (Z.of_nat (nsteps nt sr2))) as [L'|L'].
    + replace t with (Z.of_nat (Z.to_nat t)) by lia. rewrite A2, B2 by lia. reflexivity.
    + rewrite A3, B3 by lia. reflexivity.
Qed.

End Grad2.
