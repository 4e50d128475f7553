(** * Callbacks, restart, superposition, ignored locations, zero-step runs (proofs). *)
From Coq Require Import List ZArith QArith Ring Ring_theory Lia Bool Permutation.
From Verif Require Import Ops Sums Grid Stencil DualNum ScalarModel ScalarRefine ScalarForward
  ScalarBackward ScalarAdjoint ScalarFunc ScalarApi ScalarGrad.
Import ListNotations.
Local Open Scope K_scope.

Local Arguments d1 : simpl never.
Local Arguments d2 : simpl never.
Local Arguments tmpf : simpl never.
Local Arguments wsum : simpl never.
Local Arguments inject : simpl never.
Local Arguments mask : simpl never.
Local Arguments gather : simpl never.

(** The wavefields a forward callback is shown, as [CallbackState.get_wavefield(name, "pml")]
    returns them: without the finite difference padding (scalar.py:854-872,
    common.py:294-404).  Nothing is called when no time step is made (scalar.py:848). *)
Definition scalar_forward_calls (K : ops) (P : par K) (pw : nat -> Z * Z) (v : arr K)
    (vis : list (list Z * pt)) (vrg : bool) (sr : Z) (f : Z -> list K) (nt c : Z)
    (store0 : Z -> arr K) (u : st K) : list (Z * st K) :=
  if (nt <=? 0)%Z then [] else
  map (fun sm => let m := snd sm in
         (fst sm, mkst K (crop K P (m_wfc K m)) (crop K P (m_wfp K m))
                    (fun d => crop K P (m_psi K m d)) (fun d => crop K P (m_zeta K m d))))
      (fwd_trace K P v vis vrg sr f nt c (fwd_init K P pw store0 u)).

(** Linear combination of two wavefield tuples, of two lists. *)
Definition lc_st {K : ops} (a b : K) (x y : st K) : st K :=
  mkst K (fun p => a * s_wfc K x p + b * s_wfc K y p) (fun p => a * s_wfp K x p + b * s_wfp K y p)
       (fun d p => a * s_psi K x d p + b * s_psi K y d p)
       (fun d p => a * s_zeta K x d p + b * s_zeta K y d p).
Definition lc_l {K : ops} (a b : K) (x y : list K) : list K :=
  map (fun xy => a * fst xy + b * snd xy) (combine x y).

Section More.
Variable K : ops.
Hypothesis Kr : is_ring K.
Add Ring KRing : Kr.
Variable P : par K.
Variable pw : nat -> Z * Z.
Notation shape := (p_shape P).
Notation fd := (fd_pad (p_acc P)).
Notation inint p := (interior K P p = true).
Notation nd := (length shape).
Hypothesis Hg : geom_ok K P pw.
Hypothesis Hsrc : Forall (loc_ok K P) (p_src P).
Hypothesis Hrec : Forall (loc_ok K P) (p_rec P).

Notation SF := (scalar_forward K P pw).
Notation SB := (scalar_backward K P pw).
Notation stt v f u := (fun k => state K P (fun _ => (fun p => v (idx shape p))) f k 0 (uinit K P pw u)).

Lemma fwd_out v vis vrg sr f nt cb store0 u U' R' S' :
  fvis K P pw vis -> (0 < sr)%Z -> cb_ok nt sr cb ->
  SF v vis vrg sr f nt cb store0 u = Some (U', R', S') ->
  ueq K P U' (ucrop K P (stt v f u (nsteps nt sr))) /\
  (forall k, (k < nsteps nt sr)%nat -> R' (Z.of_nat k) = rec_amps K P (stt v f u k)) /\
  (forall t, ~ (0 <= t < Z.of_nat (nsteps nt sr))%Z -> R' t = map (fun _ => 0) (p_rec P)) /\
  (vrg = true -> forall k, (k < nsteps nt sr)%nat -> (Z.of_nat k mod sr = 0)%Z -> forall p, inint p ->
       S' (Z.of_nat k / sr)%Z (idx shape p)
       = two * v (idx shape p) * p_dt2 P * wsum K P (stt v f u k) p).
Proof.
  intros Hv Hs Hc E.
  destruct (scalar_forward_spec K Kr P pw Hg Hsrc Hrec v vis vrg sr f nt cb store0 u Hv Hs Hc)
    as (U & R & S & E' & H1 & H2 & H3 & H4).
  rewrite E in E'. inversion E'; subst. auto.
Qed.

(** Receiver amplitudes of two runs agree if those of all steps do. *)
Lemma R_eq N N' (R R' : Z -> list K) g g' :
  N = N' -> (forall k, (k < N)%nat -> g k = g' k) ->
  (forall k, (k < N)%nat -> R (Z.of_nat k) = g k) ->
  (forall t, ~ (0 <= t < Z.of_nat N)%Z -> R t = map (fun _ => 0) (p_rec P)) ->
  (forall k, (k < N')%nat -> R' (Z.of_nat k) = g' k) ->
  (forall t, ~ (0 <= t < Z.of_nat N')%Z -> R' t = map (fun _ => 0) (p_rec P)) ->
  forall t, R t = R' t.
Proof.
  intros <- Hgg H1 H2 H3 H4 t.
  destruct (Z_lt_dec t 0). { rewrite H2, H4 by lia. reflexivity. }
  destruct (Z_lt_dec t (Z.of_nat N)).
  - rewrite <- (Z2Nat.id t) by lia. rewrite H1, H3 by lia. apply Hgg. lia.
  - rewrite H2, H4 by lia. reflexivity.
Qed.

(** ** C09 *)
Lemma forward_same v f u nt sr vis1 vis2 vrg1 vrg2 cb1 cb2 st1 st2 U1 R1 S1 U2 R2 S2 :
  fvis K P pw vis1 -> fvis K P pw vis2 -> (0 < sr)%Z -> cb_ok nt sr cb1 -> cb_ok nt sr cb2 ->
  SF v vis1 vrg1 sr f nt cb1 st1 u = Some (U1, R1, S1) ->
  SF v vis2 vrg2 sr f nt cb2 st2 u = Some (U2, R2, S2) ->
  ueq K P U1 U2 /\ (forall t, R1 t = R2 t) /\
  (vrg1 = true -> vrg2 = true -> forall j, (0 <= j < nt / sr)%Z -> forall p, inint p ->
     S1 j (idx shape p) = S2 j (idx shape p)).
Proof.
  intros V1 V2 Hs C1 C2 E1 E2.
  destruct (fwd_out _ _ _ _ _ _ _ _ _ _ _ _ V1 Hs C1 E1) as (A1 & A2 & A3 & A4).
  destruct (fwd_out _ _ _ _ _ _ _ _ _ _ _ _ V2 Hs C2 E2) as (B1 & B2 & B3 & B4).
  split; [|split].
  - eapply ueq_trans; [exact A1|]. apply ueq_sym. exact B1.
  - eapply R_eq; [reflexivity| | exact A2 | exact A3 | exact B2 | exact B3]. reflexivity.
  - intros T1 T2 j Hj p Hp.
    assert (Hn : (0 <= j * sr < nt / sr * sr)%Z) by nia.
    specialize (A4 T1 (Z.to_nat (j * sr))). specialize (B4 T2 (Z.to_nat (j * sr))).
    rewrite Z2Nat.id, Z.div_mul, Z.mod_mul in A4, B4 by lia.
    rewrite A4, B4; try assumption; try reflexivity; unfold nsteps; lia.
Qed.

(** The trace of callback calls. *)
Lemma trace_fst v vis vrg sr f n c l m :
  map fst (snd (fold_left (fun mt s => (fwd_chunk K P v vis vrg sr f n c (fst mt) s,
                               snd mt ++ [(s, fst mt)])) l m)) = map fst (snd m) ++ l.
Proof.
  revert m. induction l as [|s l IH]; intros m; cbn [fold_left]; [rewrite app_nil_r; reflexivity|].
  rewrite IH. cbn [snd]. rewrite map_app, <- app_assoc. reflexivity.
Qed.

(** Every entry is the memory after the chunks before it. *)
Lemma trace_In v vis vrg sr f n c l m0 tr s m :
  In (s, m) (snd (fold_left (fun mt s => (fwd_chunk K P v vis vrg sr f n c (fst mt) s,
                               snd mt ++ [(s, fst mt)])) l (m0, tr))) ->
  In (s, m) tr \/ exists l1 l2, l = l1 ++ s :: l2 /\
     m = fold_left (fwd_chunk K P v vis vrg sr f n c) l1 m0.
Proof.
  revert m0 tr. induction l as [|x l IH]; intros m0 tr H; cbn [fold_left fst snd] in H; [left; exact H|].
  destruct (IH _ _ H) as [H1|(l1 & l2 & -> & ->)].
  - apply in_app_or in H1. destruct H1 as [H1|[H1|[]]]; [left; exact H1|].
    inversion H1; subst. right. exists [], l. split; reflexivity.
  - right. exists (x :: l1), l2. split; reflexivity.
Qed.

Lemma range_up_filter n c : (0 < c)%Z -> (0 <= n)%Z ->
  range_up n c = filter (fun s => (s mod c =? 0)%Z) (zrange 0 n).
Proof.
  intros Hc Hn. unfold range_up.
  (* induction on the number of complete intervals *)
  assert (G : forall k m, (0 <= m)%Z -> Z.to_nat m = k -> forall a, (0 <= a)%Z -> (a * c <= m)%Z ->
    map (fun i => i * c)%Z (zrange a ((m + c - 1) / c)) = filter (fun s => (s mod c =? 0)%Z) (zrange (a * c) m)).
  2: { specialize (G (Z.to_nat n) n Hn eq_refl 0%Z ltac:(lia) ltac:(lia)). exact G. }
  induction k as [k IH] using lt_wf_ind. intros m Hm Hk a Ha Ham.
  destruct (Z.eq_dec (a * c) m) as [E|E].
  - rewrite (zrange_nil (a * c)) by lia. rewrite zrange_nil; [reflexivity|].
    subst m. replace (a * c + c - 1)%Z with (c - 1 + a * c)%Z by ring.
    rewrite Z.div_add by lia. rewrite Z.div_small by lia. lia.
  - (* m >= 1: remove the last element *)
    assert (Hm1 : (a * c <= m - 1)%Z) by lia.
    assert (H0 : (0 <= a * c)%Z) by nia.
    rewrite (zrange_snoc (a * c) m) by lia. rewrite filter_app.
    rewrite <- (IH (Z.to_nat (m - 1))) by lia. cbn [filter].
    destruct (Z.eqb_spec ((m - 1) mod c) 0) as [Em|Em].
    + assert (E2 : (m - 1 = (m - 1) / c * c)%Z) by (pose proof (Z.div_mod (m - 1) c ltac:(lia)); lia).
      set (q := ((m - 1) / c)%Z) in *. 
      replace ((m + c - 1) / c)%Z with (q + 1)%Z.
      2: { replace (m + c - 1)%Z with ((m - 1) + 1 * c)%Z by ring. rewrite Z.div_add by lia. reflexivity. }
      replace ((m - 1 + c - 1) / c)%Z with q.
      2: { replace (m - 1 + c - 1)%Z with (c - 1 + q * c)%Z by lia. rewrite Z.div_add by lia. rewrite Z.div_small by lia. lia. }
      assert (Haq : (a <= q)%Z) by nia.
      rewrite (zrange_snoc a (q + 1)) by lia. replace (q + 1 - 1)%Z with q by ring.
      rewrite map_app. cbn [map]. rewrite <- E2. reflexivity.
    + rewrite app_nil_r. f_equal. f_equal.
      replace (m + c - 1)%Z with (m - 1 + 1 * c)%Z by ring. rewrite Z.div_add by lia.
      pose proof (Z.div_mod (m - 1) c ltac:(lia)) as D. pose proof (Z.mod_pos_bound (m - 1) c ltac:(lia)) as B.
      set (q := ((m - 1) / c)%Z) in *. set (r := ((m - 1) mod c)%Z) in *.
      replace (m - 1 + c - 1)%Z with ((r - 1) + (q + 1) * c)%Z by lia.
      rewrite Z.div_add by lia. rewrite (Z.div_small (r - 1)) by lia. lia.
Qed.

(** A prefix of the chunk starts up to [x] is the list of all chunk starts of a run of [x]. *)
Lemma range_up_prefix n c l1 x l2 : (0 < c)%Z -> (0 <= n)%Z -> range_up n c = l1 ++ x :: l2 ->
  l1 = range_up x c /\ (0 <= x < n)%Z /\ (x mod c = 0)%Z.
Proof.
  intros Hc Hn E.
  assert (Hx : In x (range_up n c)) by (rewrite E; apply in_or_app; right; left; reflexivity).
  rewrite range_up_filter in Hx by assumption. apply filter_In in Hx. destruct Hx as [Hx Hm].
  apply In_zrange in Hx. apply Z.eqb_eq in Hm.
  split; [|split; assumption].
  rewrite (range_up_filter n) in E by assumption. rewrite (range_up_filter x) by lia.
  rewrite (zrange_app 0 x n) in E by lia. rewrite filter_app in E.
  rewrite (zrange_cons x n) in E by lia. cbn [filter] in E.
  rewrite Hm in E. cbn in E.
  (* unique decomposition: x does not occur before *)
  assert (N : NoDup (l1 ++ x :: l2)).
  { rewrite <- E.
    replace (filter (fun s => (s mod c =? 0)%Z) (zrange 0 x) ++ x :: filter (fun s => (s mod c =? 0)%Z) (zrange (x + 1) n))
      with (filter (fun s => (s mod c =? 0)%Z) (zrange 0 n)).
    - apply NoDup_filter. apply NoDup_zrange.
    - rewrite (zrange_app 0 x n) by lia. rewrite filter_app. rewrite (zrange_cons x n) by lia.
      cbn [filter]. rewrite Hm. reflexivity. }
  assert (N2 : ~ In x (filter (fun s => (s mod c =? 0)%Z) (zrange 0 x))).
  { rewrite filter_In. rewrite In_zrange. lia. }
  revert E N N2. generalize (filter (fun s => (s mod c =? 0)%Z) (zrange 0 x)) as a.
  generalize (filter (fun s => (s mod c =? 0)%Z) (zrange (x + 1) n)) as b. clear. intros b a E N N2.
  revert a E N2. induction l1 as [|y l1 IH]; intros a E N2.
  - destruct a as [|z a]; [reflexivity|]. cbn in E. inversion E; subst. exfalso. apply N2. left. reflexivity.
  - destruct a as [|z a].
    + cbn in E. inversion E; subst. exfalso. inversion N as [|? ? Hni]; subst. apply Hni.
      apply in_or_app. right. left. reflexivity.
    + cbn in E. inversion E; subst. f_equal. apply IH; auto.
      * inversion N; assumption.
      * intros H. apply N2. right. exact H.
Qed.

(** A chunk that is not the last one does not depend on the total number of steps. *)
Lemma chunks_prefix v vis vrg sr f n c x m : (0 < c)%Z -> (0 <= x <= n)%Z -> (x mod c = 0)%Z ->
  fold_left (fwd_chunk K P v vis vrg sr f n c) (range_up x c) m
  = fold_left (fwd_chunk K P v vis vrg sr f x c) (range_up x c) m.
Proof.
  intros Hc Hx Hm.
  assert (G : forall l m, (forall s, In s l -> In s (range_up x c)) ->
     fold_left (fwd_chunk K P v vis vrg sr f n c) l m = fold_left (fwd_chunk K P v vis vrg sr f x c) l m).
  2: { apply G. auto. }
  clear m. induction l as [|s l IH]; intros m Hl; cbn [fold_left]; [reflexivity|].
  rewrite IH by (intros; apply Hl; right; assumption). f_equal.
  assert (Hs : In s (range_up x c)) by (apply Hl; left; reflexivity).
  rewrite range_up_filter in Hs by lia. apply filter_In in Hs. destruct Hs as [Hs Hsm].
  apply In_zrange in Hs. apply Z.eqb_eq in Hsm.
  unfold fwd_chunk. 
  assert (Hge : (c <= x - s)%Z).
  { pose proof (Z.div_mod x c ltac:(lia)). pose proof (Z.div_mod s c ltac:(lia)).
    assert (s / c < x / c)%Z by nia. nia. }
  rewrite !Z.min_r by lia. reflexivity.
Qed.

Lemma forward_calls v f u nt sr c vis vrg store0 :
  fvis K P pw vis -> (0 < sr)%Z -> (0 < c)%Z -> (0 <= nt)%Z ->
  let calls := scalar_forward_calls K P pw v vis vrg sr f nt c store0 u in
  map fst calls = filter (fun s => (s mod c =? 0)%Z) (zrange 0 (nt / sr)) /\
  forall s w, In (s, w) calls ->
    exists U' R' S', SF v vis vrg sr f (s * sr) None store0 u = Some (U', R', S') /\ ueq K P w U'.
Proof.
  intros Hv Hs Hc Hn calls. unfold calls, scalar_forward_calls.
  destruct (Z.leb_spec nt 0).
  { replace nt with 0%Z by lia. cbn. split; [reflexivity|]. intros ? ? []. }
  assert (Hq : (0 <= nt / sr)%Z) by (apply Z.div_pos; lia).
  split.
  - rewrite map_map. cbn [fst]. unfold fwd_trace.
    change (fun x : Z * cmem K => fst x) with (@fst Z (cmem K)). rewrite trace_fst. cbn [snd map app].
    apply range_up_filter; assumption.
  - intros s w Hin. apply in_map_iff in Hin. destruct Hin as ([s' m] & E & Hin). cbn [fst snd] in E.
    inversion E; subst s' w. clear E.
    apply trace_In in Hin. destruct Hin as [[]|(l1 & l2 & E & ->)].
    destruct (range_up_prefix _ _ _ _ _ Hc Hq E) as (-> & Hsx & Hsm).
    rewrite (chunks_prefix v vis vrg sr f (nt / sr) c s) by (assumption || lia).
    (* the driver with callbacks, for [s * sr] steps *)
    assert (C1 : cb_ok (s * sr) sr (Some c)) by exact Hc.
    assert (C2 : cb_ok (s * sr) sr None) by (cbn; destruct (Z.eq_dec s 0) as [->|]; [left; lia|right; nia]).
    destruct (scalar_forward_spec K Kr P pw Hg Hsrc Hrec v vis vrg sr f (s * sr) (Some c) store0 u Hv Hs C1)
      as (U1 & R1 & S1 & E1 & _).
    destruct (scalar_forward_spec K Kr P pw Hg Hsrc Hrec v vis vrg sr f (s * sr) None store0 u Hv Hs C2)
      as (U2 & R2 & S2 & E2 & _).
    exists U2, R2, S2. split; [exact E2|].
    destruct (forward_same v f u (s * sr) sr vis vis vrg vrg (Some c) None store0 store0 _ _ _ _ _ _
                Hv Hv Hs C1 C2 E1 E2) as (H1 & _).
    unfold scalar_forward, fwd_driver in E1.
    destruct (Z.leb_spec (s * sr) 0) as [H0|H0].
    + assert (s = 0%Z) by nia. subst s.
      assert (R0 : range_up 0 c = []) by (rewrite range_up_filter by lia; reflexivity).
      rewrite R0. cbn [fold_left]. inversion E1; subst. exact H1.
    + rewrite Z.div_mul in E1 by lia. destruct (Z.eqb_spec c 0); [lia|].
      inversion E1; subst. exact H1.
Qed.

(** ** C15: restart *)
Lemma forward_restart v f u n1 n2 sr vis1 vis2 vis vrg1 vrg2 vrg cb1 cb2 cb st1 st2 st0 U1 R1 S1 U2 R2 S2 U R S :
  fvis K P pw vis1 -> fvis K P pw vis2 -> fvis K P pw vis -> (0 < sr)%Z ->
  (0 <= n1)%Z -> (0 <= n2)%Z -> (n1 mod sr = 0)%Z ->
  cb_ok n1 sr cb1 -> cb_ok n2 sr cb2 -> cb_ok (n1 + n2) sr cb ->
  SF v vis1 vrg1 sr f n1 cb1 st1 u = Some (U1, R1, S1) ->
  SF v vis2 vrg2 sr (fun t => f (n1 + t)%Z) n2 cb2 st2 U1 = Some (U2, R2, S2) ->
  SF v vis vrg sr f (n1 + n2) cb st0 u = Some (U, R, S) ->
  ueq K P U U2 /\
  (forall t, (0 <= t < n1)%Z -> R t = R1 t) /\ (forall t, (0 <= t)%Z -> R (n1 + t)%Z = R2 t).
Proof.
  intros V1 V2 V0 Hs H1 H2 Hm C1 C2 C0 E1 E2 E0.
  destruct (fwd_out _ _ _ _ _ _ _ _ _ _ _ _ V1 Hs C1 E1) as (A1 & A2 & A3 & _).
  destruct (fwd_out _ _ _ _ _ _ _ _ _ _ _ _ V2 Hs C2 E2) as (B1 & B2 & B3 & _).
  destruct (fwd_out _ _ _ _ _ _ _ _ _ _ _ _ V0 Hs C0 E0) as (D1 & D2 & D3 & _).
  assert (N1 : nsteps n1 sr = Z.to_nat n1).
  { unfold nsteps. pose proof (Z.div_mod n1 sr ltac:(lia)). f_equal. lia. }
  assert (N12 : nsteps (n1 + n2) sr = (nsteps n1 sr + nsteps n2 sr)%nat).
  { unfold nsteps. 
    replace (n1 + n2)%Z with (n2 + n1 / sr * sr)%Z
      by (pose proof (Z.div_mod n1 sr ltac:(lia)); lia).
    rewrite Z.div_add by lia. pose proof (Z.div_pos n1 sr ltac:(lia) Hs).
    pose proof (Z.div_pos n2 sr ltac:(lia) Hs).
    rewrite <- Z2Nat.inj_add by nia. f_equal. ring. }
  set (vf := fun (_ : Z) (p : pt) => v (idx shape p)) in *.
  pose proof (restart K Kr P pw Hg Hsrc vf f (nsteps n1 sr) u U1 A1) as RS.
  assert (ST : forall k, steq nd (state K P vf (fun t => f (n1 + t)%Z) k 0 (uinit K P pw U1))
                                 (state K P vf f (nsteps n1 sr + k) 0 (uinit K P pw u))).
  { intros k. rewrite state_add.
    replace (0 + Z.of_nat (nsteps n1 sr))%Z with (n1 + 0)%Z by (rewrite N1; lia).
    eapply steq_trans; [|apply steq_sym; apply (state_shift K P)].
    apply (state_ext K P); [reflexivity|]. exact RS. }
  split; [|split].
  - eapply ueq_trans; [exact D1|]. apply ueq_sym. eapply ueq_trans; [exact B1|].
    rewrite N12. apply (ueq_crop K P). apply ST.
  - intros t Ht. rewrite <- (Z2Nat.id t) by lia. rewrite D2, A2 by lia. reflexivity.
  - intros t Ht. destruct (Z_lt_dec t (Z.of_nat (nsteps n2 sr))).
    + rewrite <- (Z2Nat.id t) by lia. rewrite B2 by lia.
      replace (n1 + Z.of_nat (Z.to_nat t))%Z with (Z.of_nat (nsteps n1 sr + Z.to_nat t)) by lia.
      rewrite D2 by lia. apply (rec_amps_ext K P). apply steq_sym. apply ST.
    + rewrite B3, D3 by lia. reflexivity.
Qed.

(** ** C41: zero steps *)
Lemma forward_zero v f u sr vis vrg cb st0 U R S :
  (0 < sr)%Z -> cb_ok 0 sr cb -> fvis K P pw vis ->
  SF v vis vrg sr f 0 cb st0 u = Some (U, R, S) ->
  forall q, In q (upts K P) ->
    s_wfc K U q = s_wfc K u q /\ s_wfp K U q = s_wfp K u q /\
    forall d, (d < nd)%nat ->
      s_psi K U d q = (if zone K P pw d (topad K P q) then 0 else s_psi K u d q) /\
      s_zeta K U d q = (if zone K P pw d (topad K P q) then 0 else s_zeta K u d q).
Proof.
  intros Hs Hc Hv E q Hq.
  destruct (fwd_out _ _ _ _ _ _ _ _ _ _ _ _ Hv Hs Hc E) as (A1 & _).
  rewrite (nsteps_0 0 sr) in A1 by lia. specialize (A1 q Hq). destruct A1 as (B1 & B2 & B3).
  rewrite B1, B2. unfold ucrop, uinit. cbn.
  apply In_upts in Hq. rewrite Hq, (unpad_topad K P).
  split; [reflexivity|]. split; [reflexivity|]. intros d Hd. destruct (B3 d Hd) as (-> & ->).
  cbn. rewrite Hq, (unpad_topad K P). split; reflexivity.
Qed.

(** ** C18: ignored locations *)
Lemma inject_ignored locs amps amps' (f : field K) p :
  length amps = length locs -> length amps' = length locs ->
  (forall k l, nth_error locs k = Some l -> (0 <= l)%Z -> nth_error amps k = nth_error amps' k) ->
  inject K P locs amps f p = inject K P locs amps' f p.
Proof.
  unfold inject. intros L L' H. f_equal. revert amps amps' L L' H.
  induction locs as [|l locs IH]; intros [|a amps] [|a' amps'] L L' H; try (cbn in L, L'; discriminate); [reflexivity|].
  cbn [combine sumf fst snd]. f_equal.
  - destruct (Z.leb_spec 0 l); [|reflexivity].
    specialize (H 0%nat l eq_refl ltac:(assumption)). cbn in H. inversion H. reflexivity.
  - apply IH; [cbn in L; lia|cbn in L'; lia|]. intros k x Hx. apply (H (S k) x Hx).
Qed.

Lemma state_ignored vf f f' n t s :
  (forall u, (t <= u < t + Z.of_nat n)%Z ->
     length (f u) = length (p_src P) /\ length (f' u) = length (p_src P) /\
     forall k l, nth_error (p_src P) k = Some l -> (0 <= l)%Z -> nth_error (f u) k = nth_error (f' u) k) ->
  steq nd (state K P vf f n t s) (state K P vf f' n t s).
Proof.
  revert t s. induction n as [|n IH]; intros t s H; cbn [state]; [apply steq_refl|].
  eapply steq_trans; [apply IH; intros; apply H; lia|].
  apply (state_ext K P); [reflexivity|]. 
  destruct (H t ltac:(lia)) as (L & L' & Hk).
  split; [|split; [|split]]; intros; try reflexivity.
  unfold step; cbn. apply inject_ignored; assumption.
Qed.

Lemma forward_ignored_source v f f' u nt sr vis1 vis2 vrg1 vrg2 cb1 cb2 st1 st2 U1 R1 S1 U2 R2 S2 :
  fvis K P pw vis1 -> fvis K P pw vis2 -> (0 < sr)%Z -> (0 <= nt)%Z -> cb_ok nt sr cb1 -> cb_ok nt sr cb2 ->
  (forall t, (0 <= t < nt)%Z ->
     length (f t) = length (p_src P) /\ length (f' t) = length (p_src P) /\
     forall k l, nth_error (p_src P) k = Some l -> (0 <= l)%Z -> nth_error (f t) k = nth_error (f' t) k) ->
  SF v vis1 vrg1 sr f nt cb1 st1 u = Some (U1, R1, S1) ->
  SF v vis2 vrg2 sr f' nt cb2 st2 u = Some (U2, R2, S2) ->
  ueq K P U1 U2 /\ forall t, R1 t = R2 t.
Proof.
  intros V1 V2 Hs Hn C1 C2 Hf E1 E2.
  destruct (fwd_out _ _ _ _ _ _ _ _ _ _ _ _ V1 Hs C1 E1) as (A1 & A2 & A3 & _).
  destruct (fwd_out _ _ _ _ _ _ _ _ _ _ _ _ V2 Hs C2 E2) as (B1 & B2 & B3 & _).
  assert (Hle : (Z.of_nat (nsteps nt sr) <= nt)%Z).
  { unfold nsteps. pose proof (Z.mul_div_le nt sr Hs). lia. }
  assert (ST : forall k, (k <= nsteps nt sr)%nat -> 
    steq nd (state K P (fun _ p => v (idx shape p)) f k 0 (uinit K P pw u))
            (state K P (fun _ p => v (idx shape p)) f' k 0 (uinit K P pw u))).
  { intros k Hk. apply state_ignored. intros t Ht. apply Hf. lia. }
  split.
  - eapply ueq_trans; [exact A1|]. apply ueq_sym. eapply ueq_trans; [exact B1|]. apply ueq_sym.
    apply (ueq_crop K P). apply ST. lia.
  - eapply R_eq; [reflexivity| | exact A2 | exact A3 | exact B2 | exact B3].
    intros k Hk. apply (rec_amps_ext K P). apply ST. lia.
Qed.

Lemma nth_gather_ignored locs (g : field K) k l :
  nth_error locs k = Some l -> (l < 0)%Z -> nth_error (gather K P locs g) k = Some 0.
Proof.
  intros E Hl. unfold gather. rewrite nth_error_map, E. cbn. destruct (Z.leb_spec 0 l); [lia|reflexivity].
Qed.
Lemma nth_zero_map {A} (locs : list A) k l :
  nth_error locs k = Some l -> nth_error (map (fun _ => o0 K) locs) k = Some 0.
Proof. intros E. rewrite nth_error_map, E. reflexivity. Qed.

Lemma forward_ignored_receiver v f u nt sr vis vrg cb st0 U R S :
  fvis K P pw vis -> (0 < sr)%Z -> cb_ok nt sr cb ->
  SF v vis vrg sr f nt cb st0 u = Some (U, R, S) ->
  forall k l, nth_error (p_rec P) k = Some l -> (l < 0)%Z -> forall t, nth_error (R t) k = Some 0.
Proof.
  intros V Hs C E k l Hk Hl t.
  destruct (fwd_out _ _ _ _ _ _ _ _ _ _ _ _ V Hs C E) as (_ & A2 & A3 & _).
  destruct (Z_lt_dec t 0). { rewrite A3 by lia. eapply nth_zero_map; eauto. }
  destruct (Z_lt_dec t (Z.of_nat (nsteps nt sr))).
  - rewrite <- (Z2Nat.id t) by lia. rewrite A2 by lia. eapply nth_gather_ignored; eauto.
  - rewrite A3 by lia. eapply nth_zero_map; eauto.
Qed.

Lemma backward_ignored_source v vis store vrg sr gr nt cb g G0 gf gv :
  bvis K P pw vis -> (0 < sr)%Z -> cb_ok nt sr cb ->
  SB v vis store vrg sr gr nt cb g = Some (G0, gf, gv) ->
  forall k l, nth_error (p_src P) k = Some l -> (l < 0)%Z -> forall t, nth_error (gf t) k = Some 0.
Proof.
  intros V Hs C E k l Hk Hl t.
  destruct (scalar_backward_spec K Kr P pw Hg Hsrc Hrec v vis store vrg sr gr nt cb g V Hs C)
    as (G0' & gf' & gv' & E' & _ & H1 & H2 & _). rewrite E in E'. inversion E'; subst G0' gf' gv'. clear E'.
  destruct (Z_lt_dec t 0). { rewrite H2 by lia. eapply nth_zero_map; eauto. }
  destruct (Z_lt_dec t (Z.of_nat (nsteps nt sr))).
  - rewrite <- (Z2Nat.id t) by lia. rewrite H1 by lia. eapply nth_gather_ignored; eauto.
  - rewrite H2 by lia. eapply nth_zero_map; eauto.
Qed.

(** ** C13: superposition *)
Section Lin.
Variables a b : K.
Notation LC := (lc_st a b).
Notation LL := (lc_l a b).

Lemma d1_lc d (f g : field K) p :
  d1 K P d (fun q => a * f q + b * g q) p = a * d1 K P d f p + b * d1 K P d g p.
Proof. unfold d1, D1. rewrite (DIFF1_add K Kr), !(DIFF1_scal K Kr). reflexivity. Qed.
Lemma d2_lc d (f g : field K) p :
  d2 K P d (fun q => a * f q + b * g q) p = a * d2 K P d f p + b * d2 K P d g p.
Proof. unfold d2, D2. rewrite (DIFF2_add K Kr), !(DIFF2_scal K Kr). reflexivity. Qed.
Lemma tmpf_lc w psi w' psi' d p :
  tmpf K P (fun q => a * w q + b * w' q) (fun q => a * psi q + b * psi' q) d p
  = a * tmpf K P w psi d p + b * tmpf K P w' psi' d p.
Proof.
  unfold tmpf. rewrite d1_lc, d2_lc.
  rewrite (d1_ext K P d (fun q => pa K P d q * (a * psi q + b * psi' q))
             (fun q => a * (pa K P d q * psi q) + b * (pa K P d q * psi' q))) by (intros; ring).
  rewrite d1_lc. ring.
Qed.
Lemma wsum_lc s s' p : wsum K P (LC s s') p = a * wsum K P s p + b * wsum K P s' p.
Proof.
  unfold wsum. rewrite <- !(sumf_scal K Kr), <- (sumf_add K Kr). apply (sumf_ext K). intros d _.
  unfold lc_st at 1 2 3. cbn [s_wfc s_psi s_zeta]. rewrite tmpf_lc. cbn [lc_st s_zeta]. ring.
Qed.
Lemma mask_lc (f g h : field K) p :
  (f p = a * g p + b * h p) -> mask K P f p = a * mask K P g p + b * mask K P h p.
Proof. unfold mask. destruct (interior K P p); intros; [assumption|ring]. Qed.
Lemma inject_lc locs x y (f g h : field K) p :
  length x = length locs -> length y = length locs ->
  (f p = a * g p + b * h p) ->
  inject K P locs (LL x y) f p = a * inject K P locs x g p + b * inject K P locs y h p.
Proof.
  intros Lx Ly E. unfold inject. rewrite E.
  match goal with |- _ + ?A = a * (_ + ?B) + b * (_ + ?C) => assert (HH : A = a * B + b * C) end.
  2: { rewrite HH. ring. }
  unfold lc_l. clear E f g h. revert x y Lx Ly.
  induction locs as [|l locs IH]; intros [|x0 x] [|y0 y] Lx Ly; try (cbn in Lx, Ly; discriminate);
    cbn [combine map sumf fst snd]; [ring|].
  rewrite IH by (cbn in Lx, Ly; lia).
  destruct ((0 <=? l)%Z && (if pt_eq_dec (unidx shape l) p then true else false)); ring.
Qed.
Lemma step_lc v x y s s' : length x = length (p_src P) -> length y = length (p_src P) ->
  steq nd (step K P v (LL x y) (LC s s')) (LC (step K P v x s) (step K P v y s')).
Proof.
  intros Lx Ly. split; [|split; [|split]]; intros; cbn.
  - apply inject_lc; [assumption|assumption|]. apply mask_lc. rewrite wsum_lc. unfold two. ring.
  - reflexivity.
  - apply mask_lc. rewrite d1_lc. ring.
  - apply mask_lc. rewrite tmpf_lc. ring.
Qed.
Lemma state_lc v f g n t s s' :
  (forall u, (t <= u < t + Z.of_nat n)%Z -> length (f u) = length (p_src P) /\ length (g u) = length (p_src P)) ->
  steq nd (state K P v (fun u => LL (f u) (g u)) n t (LC s s')) (LC (state K P v f n t s) (state K P v g n t s')).
Proof.
  revert t s s'. induction n as [|n IH]; intros t s s' H; cbn [state]; [apply steq_refl|].
  eapply steq_trans; [|apply IH; intros; apply H; lia].
  apply (state_ext K P); [reflexivity|]. destruct (H t ltac:(lia)). apply step_lc; assumption.
Qed.
Lemma gather_lc locs (f g h : field K) : (forall p, f p = a * g p + b * h p) ->
  gather K P locs f = LL (gather K P locs g) (gather K P locs h).
Proof.
  intros E. unfold gather, lc_l. induction locs as [|l locs IH]; [reflexivity|].
  cbn [map combine fst snd]. f_equal; [|exact IH]. destruct (0 <=? l)%Z; [apply E|ring].
Qed.
Lemma uinit_lc x y : steq nd (uinit K P pw (LC x y)) (LC (uinit K P pw x) (uinit K P pw y)).
Proof.
  split; [|split; [|split]]; intros; cbn.
  1,2: destruct (interior K P p); ring.
  all: destruct (zone K P pw d p); [ring|]; destruct (interior K P p); ring.
Qed.

Lemma forward_superposition v f g x y nt sr vis1 vis2 vis vrg1 vrg2 vrg cb1 cb2 cb st1 st2 st0
    U1 R1 S1 U2 R2 S2 U R S :
  fvis K P pw vis1 -> fvis K P pw vis2 -> fvis K P pw vis -> (0 < sr)%Z -> (0 <= nt)%Z ->
  cb_ok nt sr cb1 -> cb_ok nt sr cb2 -> cb_ok nt sr cb ->
  (forall t, (0 <= t < nt)%Z -> length (f t) = length (p_src P) /\ length (g t) = length (p_src P)) ->
  SF v vis1 vrg1 sr f nt cb1 st1 x = Some (U1, R1, S1) ->
  SF v vis2 vrg2 sr g nt cb2 st2 y = Some (U2, R2, S2) ->
  SF v vis vrg sr (fun t => LL (f t) (g t)) nt cb st0 (LC x y) = Some (U, R, S) ->
  ueq K P U (LC U1 U2) /\ forall t, R t = LL (R1 t) (R2 t).
Proof.
  intros V1 V2 V0 Hs Hn C1 C2 C0 Hf E1 E2 E0.
  destruct (fwd_out _ _ _ _ _ _ _ _ _ _ _ _ V1 Hs C1 E1) as (A1 & A2 & A3 & _).
  destruct (fwd_out _ _ _ _ _ _ _ _ _ _ _ _ V2 Hs C2 E2) as (B1 & B2 & B3 & _).
  destruct (fwd_out _ _ _ _ _ _ _ _ _ _ _ _ V0 Hs C0 E0) as (D1 & D2 & D3 & _).
  assert (Hle : (Z.of_nat (nsteps nt sr) <= nt)%Z).
  { unfold nsteps. pose proof (Z.mul_div_le nt sr Hs). lia. }
  set (vf := fun (_ : Z) (p : pt) => v (idx shape p)) in *.
  assert (ST : forall k, (k <= nsteps nt sr)%nat ->
    steq nd (state K P vf (fun t => LL (f t) (g t)) k 0 (uinit K P pw (LC x y)))
            (LC (state K P vf f k 0 (uinit K P pw x)) (state K P vf g k 0 (uinit K P pw y)))).
  { intros k Hk. eapply steq_trans; [apply (state_ext K P); [reflexivity|apply uinit_lc]|].
    apply state_lc. intros t Ht. apply Hf. lia. }
  split.
  - eapply ueq_trans; [exact D1|]. eapply ueq_trans; [apply (ueq_crop K P); apply ST; lia|].
    intros q Hq. destruct (A1 q Hq) as (a1 & a2 & a3). destruct (B1 q Hq) as (b1 & b2 & b3).
    cbn [lc_st s_wfc s_wfp s_psi s_zeta]. rewrite a1, a2, b1, b2.
    split; [reflexivity|]. split; [reflexivity|]. intros d Hd.
    destruct (a3 d Hd) as (-> & ->). destruct (b3 d Hd) as (-> & ->). split; reflexivity.
  - intros t. assert (Z0 : map (fun _ : Z => 0) (p_rec P) = LL (map (fun _ => 0) (p_rec P)) (map (fun _ => 0) (p_rec P))).
    { clear - Kr. unfold lc_l. induction (p_rec P) as [|r l IH]; [reflexivity|]. cbn. f_equal; [ring|exact IH]. }
    destruct (Z_lt_dec t 0). { rewrite D3, A3, B3 by lia. exact Z0. }
    destruct (Z_lt_dec t (Z.of_nat (nsteps nt sr))).
    + rewrite <- (Z2Nat.id t) by lia. rewrite D2, A2, B2 by lia.
      unfold rec_amps. apply gather_lc. apply (ST (Z.to_nat t)). lia.
    + rewrite D3, A3, B3 by lia. exact Z0.
Qed.
End Lin.

(** ** C12: number of steps *)
(** All [nt] steps are made when the interval divides [nt]. *)
Lemma forward_all_steps v f u nt sr vis1 vis2 vrg1 vrg2 cb1 cb2 st1 st2 U1 R1 S1 U2 R2 S2 :
  fvis K P pw vis1 -> fvis K P pw vis2 -> (0 < sr)%Z -> (0 <= nt)%Z -> (nt mod sr = 0)%Z ->
  cb_ok nt sr cb1 -> cb_ok nt 1 cb2 ->
  SF v vis1 vrg1 sr f nt cb1 st1 u = Some (U1, R1, S1) ->
  SF v vis2 vrg2 1 f nt cb2 st2 u = Some (U2, R2, S2) ->
  ueq K P U1 U2 /\ forall t, R1 t = R2 t.
Proof.
  intros V1 V2 Hs Hn Hm C1 C2 E1 E2.
  destruct (fwd_out _ _ _ _ _ _ _ _ _ _ _ _ V1 Hs C1 E1) as (A1 & A2 & A3 & _).
  destruct (fwd_out _ _ _ _ _ _ _ _ _ _ _ _ V2 Z.lt_0_1 C2 E2) as (B1 & B2 & B3 & _).
  assert (N : nsteps nt sr = nsteps nt 1).
  { unfold nsteps. rewrite Z.div_1_r. pose proof (Z.div_mod nt sr ltac:(lia)). f_equal. lia. }
  split.
  - eapply ueq_trans; [exact A1|]. rewrite N. apply ueq_sym. exact B1.
  - eapply R_eq; [exact N| | exact A2 | exact A3 | exact B2 | exact B3]. reflexivity.
Qed.

(** In general [nt / sr * sr] steps are made; the receivers of the others read zero. *)
Lemma forward_truncated v f u nt sr vis1 vis2 vrg1 vrg2 cb1 cb2 st1 st2 U1 R1 S1 U2 R2 S2 :
  fvis K P pw vis1 -> fvis K P pw vis2 -> (0 < sr)%Z -> (0 <= nt)%Z ->
  cb_ok nt sr cb1 -> cb_ok (nt / sr * sr) 1 cb2 ->
  SF v vis1 vrg1 sr f nt cb1 st1 u = Some (U1, R1, S1) ->
  SF v vis2 vrg2 1 f (nt / sr * sr) cb2 st2 u = Some (U2, R2, S2) ->
  ueq K P U1 U2 /\ forall t, R1 t = R2 t.
Proof.
  intros V1 V2 Hs Hn C1 C2 E1 E2.
  destruct (fwd_out _ _ _ _ _ _ _ _ _ _ _ _ V1 Hs C1 E1) as (A1 & A2 & A3 & _).
  destruct (fwd_out _ _ _ _ _ _ _ _ _ _ _ _ V2 Z.lt_0_1 C2 E2) as (B1 & B2 & B3 & _).
  assert (N : nsteps nt sr = nsteps (nt / sr * sr) 1).
  { unfold nsteps. rewrite Z.div_1_r. f_equal. lia. }
  split.
  - eapply ueq_trans; [exact A1|]. rewrite N. apply ueq_sym. exact B1.
  - eapply R_eq; [exact N| | exact A2 | exact A3 | exact B2 | exact B3]. reflexivity.
Qed.

(** Without callbacks and with fewer steps than the interval the call raises. *)
Lemma forward_short_raises v f u nt sr vis vrg st0 :
  (0 < nt < sr)%Z -> SF v vis vrg sr f nt None st0 u = None.
Proof.
  intros H. unfold scalar_forward, fwd_driver. destruct (Z.leb_spec nt 0); [lia|].
  rewrite Z.div_small by lia. reflexivity.
Qed.
End More.
