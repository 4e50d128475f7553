(** * Physics of the scalar propagator: time reversal, reciprocity, causality (proofs). *)
From Coq Require Import List ZArith QArith Ring Ring_theory Lia Bool Permutation.
From Verif Require Import Ops Sums Grid Stencil DualNum ScalarModel ScalarRefine ScalarForward
  ScalarBackward ScalarAdjoint ScalarFunc ScalarApi ScalarGrad ScalarMore.
Import ListNotations.
Local Open Scope K_scope.

Local Arguments d1 : simpl never.
Local Arguments d2 : simpl never.
Local Arguments tmpf : simpl never.
Local Arguments wsum : simpl never.
Local Arguments inject : simpl never.
Local Arguments mask : simpl never.
Local Arguments gather : simpl never.

(** PML profiles that are zero everywhere, as [setup_pml] returns for [pml_width=0]
    (common.py:2533-2536). *)
Definition no_pml {K : ops} (P : par K) : Prop :=
  forall d y, p_a P d y = 0 /\ p_b P d y = 0 /\ p_db P d y = 0.

(** scalar.py:508-530: scaling of the source amplitudes by [-v^2 dt^2] at the source. *)
Definition scale_sources {K : ops} (v : arr K) (dt2 : K) (locs : list Z) (amps : list K) : list K :=
  map (fun la => - snd la * (v (py_masked (fst la)) * v (py_masked (fst la))) * dt2)
      (combine locs amps).

(** Exchange of the two wavefields. *)
Definition swap_wf {K : ops} (u : st K) : st K :=
  mkst K (s_wfp K u) (s_wfc K u) (s_psi K u) (s_zeta K u).

(** The same problem with other sources and receivers. *)
Definition with_locs {K : ops} (P : par K) (src rec : list Z) : par K :=
  mkpar (p_acc P) (p_shape P) (p_rd P) (p_rd2 P) (p_a P) (p_b P) (p_db P) (p_dt2 P) src rec.

Definition zero_st (K : ops) : st K :=
  mkst K (fun _ => 0) (fun _ => 0) (fun _ _ => 0) (fun _ _ => 0).

Section Phys.
Variable K : ops.
Hypothesis Kr : is_ring K.
Add Ring KRing : Kr.
Variable P : par K.
Notation shape := (p_shape P).
Notation fd := (fd_pad (p_acc P)).
Notation inint p := (interior K P p = true).
Notation nd := (length shape).
Notation I := (ipts K P).
Hypothesis NP : no_pml P.

Definition lap (w : field K) : field K := fun p => sumf (dims K P) (fun d => d2 K P d w p).

Lemma wsum_lap s p : wsum K P s p = lap (s_wfc K s) p.
Proof.
  unfold wsum, lap. apply (sumf_ext K). intros d _. unfold tmpf, pa, pb, pdb.
  destruct (NP d (coord d p)) as (-> & -> & ->).
  assert (E : d1 K P d (fun q => p_a P d (coord d q) * s_psi K s d q) p = 0).
  { unfold d1, D1. apply (DIFF1_zero K Kr). intros k _ _. destruct (NP d (coord d (shift d k p))) as (-> & _). ring. }
  rewrite E. ring.
Qed.

(** One step without PML and sources, on the pair of wavefields. *)
Definition wstep (v : field K) (xy : field K * field K) : field K * field K :=
  (mask K P (fun p => v p * v p * p_dt2 P * lap (fst xy) p + two * fst xy p - snd xy p), fst xy).
Definition weq (a b : field K * field K) : Prop :=
  (forall p, fst a p = fst b p) /\ (forall p, snd a p = snd b p).
Definition wswap (a : field K * field K) := (snd a, fst a).
Definition wof (s : st K) := (s_wfc K s, s_wfp K s).
Fixpoint wrun (v : field K) (n : nat) (a : field K * field K) :=
  match n with O => a | S n' => wrun v n' (wstep v a) end.

Lemma weq_refl a : weq a a. Proof. split; reflexivity. Qed.
Lemma weq_sym a b : weq a b -> weq b a. Proof. intros [H1 H2]. split; intros; symmetry; auto. Qed.
Lemma weq_trans a b c : weq a b -> weq b c -> weq a c.
Proof. intros [H1 H2] [H3 H4]. split; intros; [rewrite H1; apply H3|rewrite H2; apply H4]. Qed.
Lemma lap_ext f g p : (forall q, f q = g q) -> lap f p = lap g p.
Proof. intros H. unfold lap. apply (sumf_ext K). intros d _. apply d2_ext. exact H. Qed.
Lemma wstep_ext v a b : weq a b -> weq (wstep v a) (wstep v b).
Proof.
  intros [H1 H2]. split; [|exact H1]. intros p. cbn. apply mask_ext. rewrite (lap_ext _ (fst b)) by exact H1.
  rewrite H1, H2. reflexivity.
Qed.
Lemma wrun_ext v n a b : weq a b -> weq (wrun v n a) (wrun v n b).
Proof. revert a b. induction n; intros a b H; cbn; [exact H|]. apply IHn, wstep_ext, H. Qed.
Lemma wrun_S_last v n a : wrun v (S n) a = wstep v (wrun v n a).
Proof. revert a. induction n; intros a; [reflexivity|]. cbn [wrun] in *. apply IHn. Qed.

Definition wsupp (a : field K * field K) := fsupp K P (fst a) /\ fsupp K P (snd a).
Lemma wsupp_step v a : wsupp a -> wsupp (wstep v a).
Proof. intros [H1 H2]. split; [apply fsupp_mask|exact H1]. Qed.
Lemma wsupp_run v n a : wsupp a -> wsupp (wrun v n a).
Proof. revert a. induction n; intros a H; cbn; [exact H|]. apply IHn, wsupp_step, H. Qed.

Lemma reverse_1 v a : wsupp a -> weq (wstep v (wswap (wstep v a))) (wswap a).
Proof.
  intros [H1 H2]. split; [|intros; reflexivity]. intros p. cbn. unfold mask at 1.
  destruct (interior K P p) eqn:Hi; [|symmetry; apply H2; exact Hi].
  unfold mask. rewrite Hi. ring.
Qed.
Lemma reverse_n v n a : wsupp a -> weq (wrun v n (wswap (wrun v n a))) (wswap a).
Proof.
  revert a. induction n; intros a H; [apply weq_refl|].
  rewrite wrun_S_last. rewrite (wrun_S_last v n). 
  (* wrun n (wswap (wstep (wrun n a))) preceded by one step *)
  rewrite <- wrun_S_last. cbn [wrun].
  eapply weq_trans; [apply wrun_ext; apply reverse_1; apply wsupp_run; exact H|].
  apply IHn; exact H.
Qed.

Lemma inject_zero_amps locs amps (f : field K) p :
  Forall (fun x => x = 0) amps -> inject K P locs amps f p = f p.
Proof.
  intros H. unfold inject. rewrite (sumf_zero K Kr); [ring|]. intros [l x] Hin. cbn [fst snd].
  apply in_combine_r in Hin. rewrite Forall_forall in H. rewrite (H x Hin).
  destruct ((0 <=? l)%Z && _); reflexivity.
Qed.

Lemma wof_state v f n t s :
  (forall u, Forall (fun x => x = 0) (f u)) ->
  weq (wof (state K P (fun _ => v) f n t s)) (wrun v n (wof s)).
Proof.
  intros Hf. revert t s. induction n; intros t s; cbn [state wrun]; [apply weq_refl|].
  eapply weq_trans; [apply IHn|]. apply wrun_ext. split; [|reflexivity]. intros p. cbn.
  rewrite inject_zero_amps by apply Hf. apply mask_ext. rewrite wsum_lap. reflexivity.
Qed.

(** ** Time reversal *)
Section Reverse.
Variable pw : nat -> Z * Z.
Hypothesis Hg : geom_ok K P pw.
Hypothesis Hsrc : Forall (loc_ok K P) (p_src P).
Hypothesis Hrec : Forall (loc_ok K P) (p_rec P).

Lemma time_reversal v f1 f2 u x nt sr vis1 vis2 vrg1 vrg2 cb1 cb2 st1 st2 U1 R1 S1 U2 R2 S2 :
  fvis K P pw vis1 -> fvis K P pw vis2 -> (0 < sr)%Z -> (0 <= nt)%Z -> 
  cb_ok nt sr cb1 -> cb_ok nt sr cb2 ->
  (forall t, Forall (fun x => x = 0) (f1 t)) -> (forall t, Forall (fun x => x = 0) (f2 t)) ->
  scalar_forward K P pw v vis1 vrg1 sr f1 nt cb1 st1 u = Some (U1, R1, S1) ->
  (forall q, In q (upts K P) -> s_wfc K x q = s_wfp K U1 q /\ s_wfp K x q = s_wfc K U1 q) ->
  scalar_forward K P pw v vis2 vrg2 sr f2 nt cb2 st2 x = Some (U2, R2, S2) ->
  forall q, In q (upts K P) -> s_wfc K U2 q = s_wfp K u q /\ s_wfp K U2 q = s_wfc K u q.
Proof.
  intros V1 V2 Hs Hn C1 C2 F1 F2 E1 HX E2 q Hq.
  destruct (fwd_out K Kr P pw Hg Hsrc Hrec _ _ _ _ _ _ _ _ _ _ _ _ V1 Hs C1 E1) as (A1 & _).
  destruct (fwd_out K Kr P pw Hg Hsrc Hrec _ _ _ _ _ _ _ _ _ _ _ _ V2 Hs C2 E2) as (B1 & _).
  set (vf := fun p => v (idx shape p)) in *. set (N := nsteps nt sr) in *.
  assert (WU : wsupp (wof (uinit K P pw u))).
  { destruct (ssupp_uinit K P pw u) as (S1' & S2' & _). split; assumption. }
  pose proof (wof_state vf f1 N 0 (uinit K P pw u) F1) as W1.
  pose proof (wof_state vf f2 N 0 (uinit K P pw x) F2) as W2.
  pose proof (wsupp_run vf N _ WU) as WS.
  assert (WX : weq (wof (uinit K P pw x)) (wswap (wrun vf N (wof (uinit K P pw u))))).
  { assert (T1 : forall p, fst (wof (uinit K P pw x)) p = snd (wrun vf N (wof (uinit K P pw u))) p).
    { intros p. cbn. destruct (interior K P p) eqn:Hi; [|symmetry; apply WS; exact Hi].
      assert (Hin : In (unpad K P p) (upts K P)) by (apply In_upts; rewrite topad_unpad; exact Hi).
      destruct (HX _ Hin) as (-> & _). destruct (A1 _ Hin) as (_ & -> & _). cbn. rewrite topad_unpad.
      apply W1. }
    assert (T2 : forall p, snd (wof (uinit K P pw x)) p = fst (wrun vf N (wof (uinit K P pw u))) p).
    { intros p. cbn. destruct (interior K P p) eqn:Hi; [|symmetry; apply WS; exact Hi].
      assert (Hin : In (unpad K P p) (upts K P)) by (apply In_upts; rewrite topad_unpad; exact Hi).
      destruct (HX _ Hin) as (_ & ->). destruct (A1 _ Hin) as (-> & _). cbn. rewrite topad_unpad.
      apply W1. }
    split; assumption. }
  assert (WF : weq (wof (state K P (fun _ => vf) f2 N 0 (uinit K P pw x))) (wswap (wof (uinit K P pw u)))).
  { eapply weq_trans; [exact W2|]. eapply weq_trans; [apply wrun_ext; exact WX|]. apply reverse_n. exact WU. }
  destruct (B1 q Hq) as (-> & -> & _). destruct WF as [Wa Wb]. cbn in Wa, Wb. cbn.
  rewrite Wa, Wb. apply In_upts in Hq. rewrite Hq, unpad_topad. split; reflexivity.
Qed.
End Reverse.

(** ** Reciprocity *)

Definition deltaf (a : pt) : field K := fun p => if pt_eq_dec a p then 1 else 0.

(** Impulse response: the wavefields after [j] steps from a unit impulse at [a]. *)
Definition imp (v : field K) (a : pt) (j : nat) : field K := fst (wrun v j (deltaf a, fun _ => 0)).

Definition zerof : field K := fun _ => 0.

Lemma lap_scal c f p : lap (fun q => c * f q) p = c * lap f p.
Proof.
  unfold lap. rewrite <- (sumf_scal K Kr). apply (sumf_ext K). intros d _. unfold d2, D2.
  apply (DIFF2_scal K Kr).
Qed.
Lemma lap_add f g p : lap (fun q => f q + g q) p = lap f p + lap g p.
Proof.
  unfold lap. rewrite <- (sumf_add K Kr). apply (sumf_ext K). intros d _. unfold d2, D2.
  apply (DIFF2_add K Kr).
Qed.
Lemma lap_zero p : lap (fun _ => 0) p = 0.
Proof.
  unfold lap. apply (sumf_zero K Kr). intros d _. unfold d2, D2. apply (DIFF2_zero K Kr). reflexivity.
Qed.
Lemma lap_sum {A} (l : list A) (f : A -> field K) p :
  lap (fun q => sumf l (fun x => f x q)) p = sumf l (fun x => lap (f x) p).
Proof.
  induction l as [|x l IH]; cbn [sumf]; [apply lap_zero|]. rewrite (lap_add (f x)). rewrite IH. reflexivity.
Qed.

(** Two steps of the impulse response. *)
Lemma imp_0 v a p : imp v a 0 p = deltaf a p. Proof. reflexivity. Qed.
Lemma imp_1 v a p : imp v a 1 p = mask K P (fun p => v p * v p * p_dt2 P * lap (imp v a 0) p + two * imp v a 0 p) p.
Proof. unfold imp. cbn. apply mask_ext. unfold two. ring. Qed.
Lemma imp_SS v a j p : imp v a (S (S j)) p
  = mask K P (fun p => v p * v p * p_dt2 P * lap (imp v a (S j)) p + two * imp v a (S j) p - imp v a j p) p.
Proof.
  unfold imp. rewrite (wrun_S_last v (S j)). cbn [wstep fst]. apply mask_ext.
  rewrite (wrun_S_last v j). reflexivity.
Qed.

(** Convolution: the wavefield of a source series [f] at [a] is the sum of the impulse
    responses. *)
Definition conv (v : field K) (a : pt) (f : nat -> K) (n : nat) : field K :=
  fun p => sumk K n (fun k => f k * imp v a (n - 1 - k) p).

Lemma conv_0 v a f p : conv v a f 0 p = 0. Proof. reflexivity. Qed.

(** [conv] satisfies the wave equation with source [f]. *)
Lemma conv_step v a f n p : inint a ->
  conv v a f (S n) p =
  mask K P (fun p => v p * v p * p_dt2 P * lap (conv v a f n) p + two * conv v a f n p
                     - (match n with O => 0 | S m => conv v a f m p end)) p
  + f n * deltaf a p.
Proof.
  intros Ha. unfold conv at 1. rewrite (sumk_S_last K Kr). replace (S n - 1 - n)%nat with 0%nat by lia.
  rewrite imp_0. f_equal. unfold mask at 1. destruct (interior K P p) eqn:Hi.
  - destruct n as [|n].
    + unfold conv, sumk. cbn [seq sumf]. rewrite lap_zero. ring.
    + rewrite (sumk_S_last K Kr). replace (S (S n) - 1 - n)%nat with 1%nat by lia. rewrite imp_1.
      unfold mask at 1. rewrite Hi.
      assert (E1 : sumk K n (fun k => f k * imp v a (S (S n) - 1 - k) p)
        = sumk K n (fun k => f k * (v p * v p * p_dt2 P * lap (imp v a (S n - 1 - k)) p
             + two * imp v a (S n - 1 - k) p - imp v a (n - 1 - k) p))).
      { apply sumk_ext. intros k Hk. replace (S (S n) - 1 - k)%nat with (S (S (n - 1 - k))) by lia.
        replace (S n - 1 - k)%nat with (S (n - 1 - k)) by lia. rewrite imp_SS. unfold mask. rewrite Hi. reflexivity. }
      rewrite E1.
      assert (E2 : lap (conv v a f (S n)) p = sumk K (S n) (fun k => f k * lap (imp v a (S n - 1 - k)) p)).
      { unfold conv, sumk. rewrite (lap_sum (seq 0 (S n)) (fun k q => f k * imp v a (S n - 1 - k) q)).
        apply (sumf_ext K). intros k _. apply lap_scal. }
      rewrite E2. unfold conv. rewrite !(sumk_S_last K Kr).
      replace (S n - 1 - n)%nat with 0%nat by lia.
      assert (E3 : sumk K n (fun k => f k * (v p * v p * p_dt2 P * lap (imp v a (S n - 1 - k)) p
             + two * imp v a (S n - 1 - k) p - imp v a (n - 1 - k) p))
        = v p * v p * p_dt2 P * sumk K n (fun k => f k * lap (imp v a (S n - 1 - k)) p)
          + two * sumk K n (fun k => f k * imp v a (S n - 1 - k) p)
          - sumk K n (fun k => f k * imp v a (n - 1 - k) p)).
      { unfold sumk. rewrite <- !(sumf_scal K Kr), <- (sumf_add K Kr), <- (sumf_sub K Kr).
        apply (sumf_ext K). intros k _. ring. }
      rewrite E3. ring.
  - apply (sumk_zero K Kr). intros k Hk. destruct (S n - 1 - k)%nat as [|[|j]] eqn:E; [lia| |].
    + rewrite imp_1. unfold mask. rewrite Hi. ring.
    + rewrite imp_SS. unfold mask. rewrite Hi. ring.
Qed.

Lemma inject_single l x (f : field K) p : (0 <= l)%Z ->
  inject K P [l] [x] f p = f p + x * deltaf (unidx shape l) p.
Proof.
  intros Hl. unfold inject. cbn [combine sumf fst snd]. destruct (Z.leb_spec 0 l); [|lia].
  cbn [andb]. unfold deltaf. destruct (pt_eq_dec (unidx shape l) p); ring.
Qed.
End Phys.

Section Recip.
Variable K : ops.
Hypothesis Kr : is_ring K.
Add Ring KRing2 : Kr.
Variable P : par K.
Notation shape := (p_shape P).
Notation I := (ipts K P).
Notation inint p := (interior K P p = true).
Notation nd := (length shape).
Hypothesis NP : no_pml P.

(** Symmetry of the Laplacian. *)
Lemma lap_sym (f g : field K) : fsupp K P f -> fsupp K P g ->
  dot I f (lap K P g) = dot I (lap K P f) g.
Proof.
  intros Hf Hg'. unfold lap.
  assert (E : forall l, dot I f (fun p => sumf l (fun d => d2 K P d g p))
                        = dot I (fun p => sumf l (fun d => d2 K P d f p)) g).
  { induction l as [|d l IH]; cbn [sumf].
    - rewrite (dot_comm K Kr). rewrite !(dot_zero_l K Kr) by reflexivity. reflexivity.
    - rewrite (dot_add_r K Kr), (dot_add_l K Kr). rewrite IH. f_equal. unfold d2.
      apply (D2_sbp K Kr); [apply NoDup_ipts|apply fsupp_supp; assumption|apply fsupp_supp; assumption]. }
  apply E.
Qed.

(** The adjoint recursion, [h_{j+1} = L D h_j + 2 h_j - h_{j-1}]. *)
Definition hstep (D : field K) (xy : field K * field K) : field K * field K :=
  (mask K P (fun p => lap K P (fun q => D q * fst xy q) p + two * fst xy p - snd xy p), fst xy).
Fixpoint hrun (D : field K) (n : nat) (a : field K * field K) :=
  match n with O => a | S n' => hrun D n' (hstep D a) end.

Lemma hsupp D n a : wsupp K P a -> wsupp K P (hrun D n a).
Proof.
  revert a. induction n; intros a H; cbn; [exact H|]. apply IHn. split; [apply fsupp_mask|apply H].
Qed.

(** Pairing [<x, c> - <y, d>] is preserved when one side steps forward. *)
Definition wpair (a c : field K * field K) : K := dot I (fst a) (fst c) - dot I (snd a) (snd c).

Lemma wpair_step v a c D : wsupp K P a -> wsupp K P c ->
  (forall p, inint p -> D p = v p * v p * p_dt2 P) ->
  wpair (wstep K P v a) c = wpair a (hstep D c).
Proof.
  intros [A1 A2] [C1 C2] HD. unfold wpair, wstep, hstep. cbn [fst snd].
  rewrite (dot_mask_l K P), (dot_mask_r K P).
  assert (E : dot I (fun p => v p * v p * p_dt2 P * lap K P (fst a) p) (fst c)
              = dot I (fst a) (lap K P (fun q => D q * fst c q))).
  { rewrite lap_sym; [|exact A1|apply (fsupp_mul K Kr); exact C1].
    unfold dot. apply (sumf_ext K). intros p Hp. apply In_ipts in Hp. rewrite HD by exact Hp. ring. }
  rewrite (dot_sub_l K Kr), (dot_sub_r K Kr), (dot_add_l K Kr), (dot_add_r K Kr), E.
  rewrite (dot_scal_l K Kr), (dot_scal_r K Kr). ring.
Qed.
Lemma hrun_S_last D n a : hrun D (S n) a = hstep D (hrun D n a).
Proof. revert a. induction n; intros a; [reflexivity|]. cbn [hrun] in *. apply IHn. Qed.
Lemma wpair_run v n a c D : wsupp K P a -> wsupp K P c ->
  (forall p, inint p -> D p = v p * v p * p_dt2 P) ->
  wpair (wrun K P v n a) c = wpair a (hrun D n c).
Proof.
  intros Ha Hc HD. revert c Hc. induction n; intros c Hc; [reflexivity|].
  rewrite wrun_S_last. rewrite (wpair_step v _ c D); [|apply wsupp_run; exact Ha|exact Hc|exact HD].
  rewrite IHn; [reflexivity|]. apply (hsupp D 1 c Hc).
Qed.

(** [D h] follows the forward recursion. *)
Lemma D_hrun v D n a b : (forall p, inint p -> D p = v p * v p * p_dt2 P) ->
  wsupp K P a -> wsupp K P b ->
  (forall p, fst b p = D p * fst a p) -> (forall p, snd b p = D p * snd a p) ->
  (forall p, fst (wrun K P v n b) p = D p * fst (hrun D n a) p) /\
  (forall p, snd (wrun K P v n b) p = D p * snd (hrun D n a) p).
Proof.
  intros HD. revert a b. induction n; intros a b Sa Sb H1 H2; [split; assumption|].
  cbn [wrun hrun]. apply IHn.
  - apply (hsupp D 1 a Sa).
  - apply wsupp_step. exact Sb.
  - intros p. cbn. unfold mask. destruct (interior K P p) eqn:Hi; [|ring].
    rewrite (lap_ext K P (fst b) (fun q => D q * fst a q)) by exact H1. rewrite H1, H2, HD by exact Hi. ring.
  - exact H1.
Qed.

Lemma fsupp_delta a : inint a -> fsupp K P (deltaf K a).
Proof. intros Ha p Hp. unfold deltaf. destruct (pt_eq_dec a p); [congruence|reflexivity]. Qed.

Lemma dot_delta a f : inint a -> dot I (deltaf K a) f = f a.
Proof.
  intros Ha. unfold dot.
  rewrite (sumf_single K Kr I a); [|apply NoDup_ipts|apply In_ipts; exact Ha|].
  - unfold deltaf. destruct (pt_eq_dec a a); [ring|congruence].
  - intros x _ Hx. unfold deltaf. destruct (pt_eq_dec a x); [congruence|ring].
Qed.

Lemma imp_reciprocal v a b j : inint a -> inint b ->
  v a * v a * p_dt2 P * imp K P v a j b = v b * v b * p_dt2 P * imp K P v b j a.
Proof.
  intros Ha Hb. set (D := fun p => v p * v p * p_dt2 P).
  assert (HD : forall p, inint p -> D p = v p * v p * p_dt2 P) by reflexivity.
  set (A := (deltaf K a, (fun _ : pt => o0 K) : field K)). set (B := (deltaf K b, (fun _ : pt => o0 K) : field K)).
  assert (SA : wsupp K P A) by (split; [apply fsupp_delta; exact Ha|intros ? _; reflexivity]).
  assert (SB : wsupp K P B) by (split; [apply fsupp_delta; exact Hb|intros ? _; reflexivity]).
  pose proof (wpair_run v j A B D SA SB HD) as E. unfold wpair in E.
  assert (L : dot I (fst (wrun K P v j A)) (fst B) = imp K P v a j b).
  { rewrite (dot_comm K Kr). apply (dot_delta b). exact Hb. }
  assert (R : dot I (fst A) (fst (hrun D j B)) = fst (hrun D j B) a) by (apply dot_delta; exact Ha).
  assert (Z1 : dot I (snd (wrun K P v j A)) (snd B) = 0).
  { rewrite (dot_comm K Kr). apply (dot_zero_l K Kr). reflexivity. }
  assert (Z2 : dot I (snd A) (snd (hrun D j B)) = 0) by (apply (dot_zero_l K Kr); reflexivity).
  rewrite L, R, Z1, Z2 in E.
  assert (E' : imp K P v a j b = fst (hrun D j B) a) by (transitivity (imp K P v a j b - 0); [ring|rewrite E; ring]).
  rewrite E'. clear E E' L R Z1 Z2.
  (* forward run from D delta_b *)
  set (B' := ((fun p => D b * deltaf K b p) : field K, (fun _ : pt => o0 K) : field K)).
  assert (SB' : wsupp K P B') by (split; [apply (fsupp_mul K Kr); apply fsupp_delta; exact Hb|intros ? _; reflexivity]).
  destruct (D_hrun v D j B B' HD SB SB') as [H1 _].
  - intros p. cbn. unfold deltaf. destruct (pt_eq_dec b p) as [<-|]; [reflexivity|ring].
  - intros p. cbn. ring.
  - specialize (H1 a). change (v a * v a * p_dt2 P) with (D a). rewrite <- H1.
    (* scaling *)
    assert (G : forall n (x y : field K * field K), (forall p, fst x p = D b * fst y p) -> (forall p, snd x p = D b * snd y p) ->
      (forall p, fst (wrun K P v n x) p = D b * fst (wrun K P v n y) p)).
    { induction n; intros x y X1 X2; [exact X1|]. cbn [wrun]. apply IHn.
      - intros p. cbn. unfold mask. destruct (interior K P p); [|ring].
        rewrite (lap_ext K P (fst x) (fun q => D b * fst y q)) by exact X1. rewrite (lap_scal K Kr P). rewrite X1, X2. ring.
      - exact X1. }
    rewrite (G j B' B); [reflexivity| |]; intros; cbn; ring.
Qed.
End Recip.

(** The state driven by a single source from rest is the convolution. *)
Section Drive.
Variable K : ops.
Hypothesis Kr : is_ring K.
Add Ring KRing3 : Kr.
Variable P : par K.
Notation shape := (p_shape P).
Notation inint p := (interior K P p = true).
Hypothesis NP : no_pml P.

Lemma drive_conv (la : Z) v (f : Z -> list K) (g : nat -> K) n s :
  p_src P = [la] -> (0 <= la)%Z -> inint (unidx shape la) ->
  (forall k, f (Z.of_nat k) = [g k]) ->
  (forall p, s_wfc K s p = 0) -> (forall p, s_wfp K s p = 0) ->
  (forall p, s_wfc K (state K P (fun _ => v) f n 0 s) p = conv K P v (unidx shape la) g n p) /\
  (forall p, s_wfp K (state K P (fun _ => v) f n 0 s) p
             = match n with O => 0 | S m => conv K P v (unidx shape la) g m p end).
Proof.
  intros Es Hla Hint Hf W1 W2. induction n as [|n [IH1 IH2]].
  - split; intros; cbn; auto.
  - rewrite state_S_last. split; [|exact IH1].
    intros p. rewrite (conv_step K Kr P) by exact Hint. cbn [step s_wfc]. rewrite Es, Z.add_0_l, Hf.
    rewrite (inject_single K Kr P) by exact Hla. f_equal. apply mask_ext.
    rewrite (wsum_lap K Kr P NP). rewrite (lap_ext K P _ (conv K P v (unidx shape la) g n)) by exact IH1.
    rewrite IH1, IH2. reflexivity.
Qed.
End Drive.

Section Reciprocity.
Variable K : ops.
Hypothesis Kr : is_ring K.
Add Ring KRing4 : Kr.
Variable P : par K.
Variable pw : nat -> Z * Z.
Notation shape := (p_shape P).
Hypothesis Hg : geom_ok K P pw.
Hypothesis NP : no_pml P.

Lemma reciprocity (la lb : Z) (v : arr K) (f : Z -> K) nt sr vis1 vis2 vrg1 vrg2 cb1 cb2 st1 st2
    U1 R1 S1 U2 R2 S2 :
  let PA := with_locs P [la] [lb] in
  let PB := with_locs P [lb] [la] in
  (0 <= la)%Z -> loc_ok K P la -> (0 <= lb)%Z -> loc_ok K P lb ->
  fvis K P pw vis1 -> fvis K P pw vis2 -> (0 < sr)%Z -> (0 <= nt)%Z -> cb_ok nt sr cb1 -> cb_ok nt sr cb2 ->
  scalar_forward K PA pw v vis1 vrg1 sr (fun t => scale_sources v (p_dt2 P) [la] [f t]) nt cb1 st1 (zero_st K)
    = Some (U1, R1, S1) ->
  scalar_forward K PB pw v vis2 vrg2 sr (fun t => scale_sources v (p_dt2 P) [lb] [f t]) nt cb2 st2 (zero_st K)
    = Some (U2, R2, S2) ->
  forall t, R1 t = R2 t.
Proof.
  intros PA PB Ha La Hb Lb V1 V2 Hs Hn C1 C2 E1 E2.
  assert (GA : geom_ok K PA pw) by exact Hg. assert (GB : geom_ok K PB pw) by exact Hg.
  assert (LA : forall l, loc_ok K P l -> Forall (loc_ok K PA) [l]) by (intros; constructor; [assumption|constructor]).
  assert (LB : forall l, loc_ok K P l -> Forall (loc_ok K PB) [l]) by (intros; constructor; [assumption|constructor]).
  destruct (fwd_out K Kr PA pw GA (LA la La) (LA lb Lb) _ _ _ _ _ _ _ _ _ _ _ _ V1 Hs C1 E1) as (_ & A2 & A3 & _).
  destruct (fwd_out K Kr PB pw GB (LB lb Lb) (LB la La) _ _ _ _ _ _ _ _ _ _ _ _ V2 Hs C2 E2) as (_ & B2 & B3 & _).
  eapply (R_eq K PA); [reflexivity| |exact A2|exact A3|exact B2|exact B3].
  intros k Hk. unfold rec_amps, gather. cbn [PA PB with_locs p_rec p_shape map].
  destruct (Z.leb_spec 0 lb); [|lia]. destruct (Z.leb_spec 0 la); [|lia]. f_equal.
  set (vf := fun p => v (idx shape p)).
  assert (Pa : interior K P (unidx shape la) = true) by (destruct La as [|[]]; [lia|assumption]).
  assert (Pb : interior K P (unidx shape lb) = true) by (destruct Lb as [|[]]; [lia|assumption]).
  assert (va : vf (unidx shape la) = v la).
  { unfold vf. destruct (loc_ok_idx K P la La Ha) as (p & Hp & <- & ->). reflexivity. }
  assert (vb : vf (unidx shape lb) = v lb).
  { unfold vf. destruct (loc_ok_idx K P lb Lb Hb) as (p & Hp & <- & ->). reflexivity. }
  assert (Ma : py_masked la = la) by (unfold py_masked, IGNORE; destruct (Z.eqb_spec la (-2^31)); lia).
  assert (Mb : py_masked lb = lb) by (unfold py_masked, IGNORE; destruct (Z.eqb_spec lb (-2^31)); lia).
  assert (NA : no_pml PA) by exact NP. assert (NB : no_pml PB) by exact NP.
  destruct (drive_conv K Kr PA NA la vf (fun t => scale_sources v (p_dt2 P) [la] [f t])
     (fun k => - f (Z.of_nat k) * (v la * v la) * p_dt2 P) k (uinit K PA pw (zero_st K))) as [X _];
    try assumption; try reflexivity.
  { intros j. unfold scale_sources. cbn. rewrite Ma. reflexivity. }
  1,2: intros p; unfold uinit; cbn [s_wfc s_wfp zero_st]; destruct (interior K PA p); reflexivity.
  destruct (drive_conv K Kr PB NB lb vf (fun t => scale_sources v (p_dt2 P) [lb] [f t])
     (fun k => - f (Z.of_nat k) * (v lb * v lb) * p_dt2 P) k (uinit K PB pw (zero_st K))) as [Y _];
    try assumption; try reflexivity.
  { intros j. unfold scale_sources. cbn. rewrite Mb. reflexivity. }
  1,2: intros p; unfold uinit; cbn [s_wfc s_wfp zero_st]; destruct (interior K PB p); reflexivity.
  change (p_shape PA) with shape in X. change (p_shape PB) with shape in Y.
  rewrite X, Y. unfold conv. apply sumk_ext. intros j Hj.
  pose proof (imp_reciprocal K Kr P vf (unidx shape la) (unidx shape lb) (k - 1 - j) Pa Pb) as RC.
  change (imp K PA) with (imp K P). change (imp K PB) with (imp K P).
  rewrite va, vb in RC.
  transitivity (- f (Z.of_nat j) * (v la * v la * p_dt2 P * imp K P vf (unidx shape la) (k - 1 - j) (unidx shape lb)));
    [ring|]. rewrite RC. ring.
Qed.
End Reciprocity.
