(** * [ScalarForwardFunc.forward] and [.backward] for one shot: user wavefields in, user
    wavefields out.

    The user's wavefields are fields on the points of the survey area plus PML
    ([0 <= q_d < n_d - 2 fd]); an absent (empty) input is a zero field, which is what
    [create_or_pad] allocates for it (common.py:2576-2578). *)
From Coq Require Import List ZArith QArith Ring Ring_theory Lia Bool Permutation.
From Verif Require Import Ops Sums Grid Stencil DualNum ScalarModel ScalarRefine ScalarForward
  ScalarBackward ScalarAdjoint.
Import ListNotations.
Local Open Scope K_scope.

Section Func.
Variable K : ops.
Variable P : par K.
(** PML widths (begin, end) of each dimension. *)
Variable pw : nat -> Z * Z.
Notation shape := (p_shape P).
Notation fd := (fd_pad (p_acc P)).

Definition topad (q : pt) : pt := map (fun x => x + fd)%Z q.
Definition unpad (p : pt) : pt := map (fun x => x - fd)%Z p.

(** Points of the user's wavefields. *)
Definition ubox : box := map (fun n => (0, n - 2 * fd)%Z) shape.
Definition upts : list pt := box_pts ubox.

(** common.py:2557-2591 [create_or_pad]: zeros of width [fd_pad] all around. *)
Definition create_or_pad (u : field K) : arr K :=
  fun i => if interior K P (unidx shape i) then u (unpad (unidx shape i)) else 0.

(** common.py:2594-2628 [zero_interior] along dimension [d]. *)
Definition zone (d : nat) (p : pt) : bool :=
  (fd + fst (pw d) <=? coord d p)%Z && (coord d p <? nth d shape 0%Z - snd (pw d) - fd)%Z.
Definition zero_interior (d : nat) (m : arr K) : arr K :=
  fun i => if zone d (unidx shape i) then 0 else m i.

(** scalar.py:929-934, 1335-1342: crop the padding. *)
Definition crop (m : arr K) : field K := fun q => m (idx shape (topad q)).

(** scalar.py:755-783: initial memory.  [store0]: contents of the uninitialised storage. *)
Definition fwd_init (store0 : Z -> arr K) (u : st K) : cmem K :=
  mkcmem K (create_or_pad (s_wfc K u)) (create_or_pad (s_wfp K u))
    (fun d => zero_interior d (create_or_pad (s_psi K u d)))
    (fun _ _ => 0)
    (fun d => zero_interior d (create_or_pad (s_zeta K u d)))
    store0 (fun _ => map (fun _ => 0) (p_rec P)).

(** scalar.py:737-934: returned wavefields, receiver amplitudes, and the snapshots kept
    for the backward pass. *)
Definition scalar_forward (v : arr K) (vis : list (list Z * pt)) (vrg : bool) (sr : Z)
    (f : Z -> list K) (nt : Z) (cb : option Z) (store0 : Z -> arr K) (u : st K)
    : option (st K * (Z -> list K) * (Z -> arr K)) :=
  match fwd_driver K P v vis vrg sr f nt cb (fwd_init store0 u) with
  | None => None
  | Some m => Some (mkst K (crop (m_wfc K m)) (crop (m_wfp K m))
                       (fun d => crop (m_psi K m d)) (fun d => crop (m_zeta K m d)),
                    m_r K m, m_store K m)
  end.

(** scalar.py:1082-1166: initial memory of the backward pass. *)
Definition bwd_init (g : st K) : bmem K :=
  mkbmem K (create_or_pad (s_wfc K g)) (create_or_pad (s_wfp K g))
    (fun d => zero_interior d (create_or_pad (s_psi K g d)))
    (fun _ _ => 0)
    (fun d => zero_interior d (create_or_pad (s_zeta K g d)))
    (fun _ _ => 0)
    (fun _ => map (fun _ => 0) (p_src P)) (fun _ => 0).

(** scalar.py:1026-1342: gradients of the wavefields, of the source amplitudes and of the
    (padded) wavespeed. *)
Definition scalar_backward (v : arr K) (vis : list (list Z * pt)) (store : Z -> arr K)
    (vrg : bool) (sr : Z) (grad_r : Z -> list K) (nt : Z) (cb : option Z) (g : st K)
    : option (st K * (Z -> list K) * arr K) :=
  match bwd_driver K P (fun i => v i * v i * p_dt2 P) vis store vrg sr grad_r nt cb (bwd_init g) with
  | None => None
  | Some m => Some (mkst K (crop (g_wfc K m)) (crop (g_wfp K m))
                       (fun d => crop (g_psi K m d)) (fun d => crop (g_zeta K m d)),
                    g_f K m, g_v K m)
  end.

(** ** Geometry accepted by the drivers *)

(** What [set_pml_profiles] (regular_grid.py:15-79) guarantees: [a], [b] vanish outside the
    PML layers; [db] is the finite difference of [b] where the stencil fits. *)
Definition geom_ok : Prop :=
  forall d, (d < length shape)%nat ->
    (0 <= fst (pw d))%Z /\ (0 <= snd (pw d))%Z /\
    (fst (pw d) + snd (pw d) + 2 * fd < nth d shape 0)%Z /\
    (forall y, (fd + fst (pw d) <= y < nth d shape 0 - fd - snd (pw d))%Z ->
       p_a P d y = 0 /\ p_b P d y = 0) /\
    (forall y, (fd <= y < nth d shape 0 - fd)%Z ->
       p_db P d y = DIFF1 (p_acc P) (p_rd P d) (fun k => p_b P d (y + k)%Z)).

(** The callback frequency is positive, or, without callback, at least one step is made. *)
Definition cb_ok (nt sr : Z) (cb : option Z) : Prop :=
  match cb with Some c => (0 < c)%Z | None => nt = 0%Z \/ (sr <= nt)%Z end.

(** The cells visited by the kernels, in any order. *)
Definition fvis (vis : list (list Z * pt)) : Prop :=
  Permutation (visits K P (pml_begin K P 2 pw) (pml_end K P 2 pw)) vis.
Definition bvis (vis : list (list Z * pt)) : Prop :=
  Permutation (visits K P (pml_begin K P 3 pw) (pml_end K P 3 pw)) vis.

(** Central initial state, cropped final state. *)
Definition uinit (u : st K) : st K :=
  let pad f p := if interior K P p then f (unpad p) else 0 in
  let padz d f p := if zone d p then 0 else pad f p in
  mkst K (pad (s_wfc K u)) (pad (s_wfp K u))
    (fun d => padz d (s_psi K u d)) (fun d => padz d (s_zeta K u d)).
Definition ucrop (s : st K) : st K :=
  mkst K (fun q => s_wfc K s (topad q)) (fun q => s_wfp K s (topad q))
    (fun d q => s_psi K s d (topad q)) (fun d q => s_zeta K s d (topad q)).

(** Equality of user wavefields. *)
Definition ueq (a b : st K) : Prop :=
  forall q, In q upts ->
    s_wfc K a q = s_wfc K b q /\ s_wfp K a q = s_wfp K b q /\
    forall d, (d < length shape)%nat ->
      s_psi K a d q = s_psi K b d q /\ s_zeta K a d q = s_zeta K b d q.

(** Inner product of user wavefields. *)
Definition udot (c s : st K) : K :=
  dot upts (s_wfc K c) (s_wfc K s) + dot upts (s_wfp K c) (s_wfp K s)
  + sumf (dims K P) (fun d => dot upts (s_psi K c d) (s_psi K s d)
                              + dot upts (s_zeta K c d) (s_zeta K s d)).

End Func.

(** ** Points *)

Section Pts.
Variable K : ops.
Variable P : par K.
Notation shape := (p_shape P).
Notation fd := (fd_pad (p_acc P)).
Notation topad := (topad K P).
Notation unpad := (unpad K P).
Notation inint p := (interior K P p = true).

Lemma unpad_topad q : unpad (topad q) = q.
Proof.
  unfold unpad, topad. rewrite map_map. rewrite <- (map_id q) at 2. apply map_ext. intros; lia.
Qed.
Lemma topad_unpad p : topad (unpad p) = p.
Proof.
  unfold unpad, topad. rewrite map_map. rewrite <- (map_id p) at 2. apply map_ext. intros; lia.
Qed.

Lemma inb_topad (s : list Z) q :
  inb (ibox fd s) (topad q) = inb (map (fun n => (0, n - 2 * fd)%Z) s) q.
Proof.
  revert q. induction s as [|n s IH]; intros [|x q]; try reflexivity.
  cbn. unfold ibox, topad in IH. rewrite IH. f_equal.
  lia.
Qed.

Lemma interior_topad q : interior K P (topad q) = inb (ubox K P) q.
Proof. apply inb_topad. Qed.

Lemma In_upts q : In q (upts K P) <-> inint (topad q).
Proof. rewrite interior_topad. apply In_box_pts. Qed.

Lemma coord_topad d q : (d < length q)%nat -> coord d (topad q) = (coord d q + fd)%Z.
Proof.
  intros H. unfold coord, topad. rewrite (nth_indep _ 0%Z ((fun x => x + fd)%Z 0%Z)).
  - apply (map_nth (fun x => x + fd)%Z).
  - rewrite map_length. exact H.
Qed.

Lemma upts_perm : Permutation (map topad (upts K P)) (ipts K P).
Proof.
  apply NoDup_Permutation.
  - apply FinFun.Injective_map_NoDup; [|apply NoDup_box_pts].
    intros a b E. rewrite <- (unpad_topad a), <- (unpad_topad b), E. reflexivity.
  - apply NoDup_box_pts.
  - intros p. rewrite in_map_iff. split.
    + intros (q & <- & Hq). apply In_upts in Hq. apply In_box_pts. exact Hq.
    + intros Hp. exists (unpad p). split; [apply topad_unpad|]. apply In_upts.
      rewrite topad_unpad. apply In_box_pts. exact Hp.
Qed.

Lemma dot_upts (Kr : is_ring K) (f g : field K) :
  dot (upts K P) (fun q => f (topad q)) (fun q => g (topad q)) = dot (ipts K P) f g.
Proof.
  unfold dot. rewrite <- (sumf_perm K Kr (map topad (upts K P)) (ipts K P)) by apply upts_perm.
  rewrite sumf_map. reflexivity.
Qed.

End Pts.

(** ** Geometry gives the hypotheses of the refinement lemmas *)

Section Geom.
Variable K : ops.
Hypothesis Kr : is_ring K.
Add Ring KRing : Kr.
Variable P : par K.
Variable pw : nat -> Z * Z.
Notation shape := (p_shape P).
Notation fd := (fd_pad (p_acc P)).
Notation inint p := (interior K P p = true).
Hypothesis Hg : geom_ok K P pw.

Lemma geom_db d y : (d < length shape)%nat ->
  (2 * fd + fst (pw d) <= y < nth d shape 0 - 2 * fd - snd (pw d))%Z -> p_db P d y = 0.
Proof.
  intros Hd Hy. destruct (Hg d Hd) as (H1 & H2 & H3 & H4 & H5).
  pose proof (fd_pad_pos (p_acc P)).
  rewrite H5 by lia. apply (DIFF1_zero K Kr). intros k Hk _. apply H4. lia.
Qed.

Lemma geom_bounds w : (2 <= w)%Z ->
  bounds_ok K P (pml_begin K P w pw) (pml_end K P w pw).
Proof.
  intros Hw d Hd. destruct (Hg d Hd) as (H1 & H2 & H3 & _).
  pose proof (fd_pad_pos (p_acc P)). unfold pml_end, pml_begin. nia.
Qed.

Lemma geom_prof : prof_ok K P (pml_begin K P 2 pw) (pml_end K P 2 pw).
Proof.
  intros d y Hd. destruct (Hg d Hd) as (H1 & H2 & H3 & H4 & H5).
  pose proof (fd_pad_pos (p_acc P)). unfold pml_end, pml_begin. split.
  - intros Hy Hl. apply H4. lia.
  - intros Hy. split; [apply H4; lia|]. apply geom_db; [exact Hd|lia].
Qed.

Lemma geom_bprof : bprof_ok K P (pml_begin K P 3 pw) (pml_end K P 3 pw).
Proof.
  intros d y Hd. destruct (Hg d Hd) as (H1 & H2 & H3 & H4 & H5).
  pose proof (fd_pad_pos (p_acc P)). unfold pml_end, pml_begin. split.
  - intros Hy Hl. split; [apply H4; lia|]. apply geom_db; [exact Hd|lia].
  - intros Hy. apply H4. lia.
Qed.

Lemma fvis_ok vis : fvis K P pw vis -> vis_ok K P (pml_begin K P 2 pw) (pml_end K P 2 pw) vis.
Proof. intros H. eapply vis_ok_perm; [exact H|]. apply visits_ok, geom_bounds. lia. Qed.
Lemma bvis_ok vis : bvis K P pw vis -> vis_ok K P (pml_begin K P 3 pw) (pml_end K P 3 pw) vis.
Proof. intros H. eapply vis_ok_perm; [exact H|]. apply visits_ok, geom_bounds. lia. Qed.

(** Points outside the regions with PML updates are in the zeroed zone. *)
Lemma zone_of_region w d p : (2 <= w)%Z -> (d < length shape)%nat -> inint p ->
  inpml (pml_begin K P w pw) (pml_end K P w pw) d p = false -> zone K P pw d p = true.
Proof.
  intros Hw Hd Hp Hi. destruct (Hg d Hd) as (H1 & H2 & H3 & _).
  pose proof (fd_pad_pos (p_acc P)).
  unfold inpml in Hi. apply negb_false_iff, andb_true_iff in Hi. rewrite Z.leb_le, Z.ltb_lt in Hi.
  unfold zone. apply andb_true_iff. rewrite Z.leb_le, Z.ltb_lt.
  unfold pml_end, pml_begin in Hi. nia.
Qed.

Lemma zone_ab d p : (d < length shape)%nat -> zone K P pw d p = true ->
  pa K P d p = 0 /\ pb K P d p = 0.
Proof.
  intros Hd Hz. destruct (Hg d Hd) as (_ & _ & _ & H4 & _).
  unfold zone in Hz. apply andb_true_iff in Hz. rewrite Z.leb_le, Z.ltb_lt in Hz.
  apply H4. lia.
Qed.

(** ** Initial memories *)

Notation uinit := (uinit K P pw).

Lemma pad_idx (u : field K) p : inb (abox shape) p = true ->
  create_or_pad K P u (idx shape p) = if interior K P p then u (unpad K P p) else 0.
Proof. intros H. unfold create_or_pad. rewrite unidx_idx by exact H. reflexivity. Qed.

Lemma zpad_idx d (u : field K) p : inb (abox shape) p = true ->
  zero_interior K P pw d (create_or_pad K P u) (idx shape p)
  = if zone K P pw d p then 0 else if interior K P p then u (unpad K P p) else 0.
Proof. intros H. unfold zero_interior. rewrite unidx_idx, pad_idx by exact H. reflexivity. Qed.

Lemma rel_init store0 u :
  rel K P (pml_begin K P 2 pw) (pml_end K P 2 pw) (fwd_init K P pw store0 u) (uinit u).
Proof.
  unfold rel, fwd_init, ScalarFunc.uinit. cbn [m_wfc m_wfp m_psi m_psin m_zeta s_wfc s_wfp s_psi s_zeta].
  repeat split; intros.
  - apply pad_idx; auto.
  - apply pad_idx; auto.
  - apply zpad_idx; auto.
  - apply zpad_idx; auto.
  - rewrite H; reflexivity.
  - rewrite H; reflexivity.
  - destruct (zone K P pw d p) eqn:Ez; [reflexivity|].
    destruct (interior K P p) eqn:Ei; [|reflexivity]. cbn in H0.
    rewrite (zone_of_region 2 d p) in Ez by (auto; lia). discriminate.
  - destruct (zone K P pw d p) eqn:Ez; [reflexivity|].
    destruct (interior K P p) eqn:Ei; [|reflexivity]. cbn in H0.
    rewrite (zone_of_region 2 d p) in Ez by (auto; lia). discriminate.
Qed.

(** Change of sign of [wfp]. *)
Definition sneg (s : st K) : st K :=
  mkst K (s_wfc K s) (fun p => - s_wfp K s p) (s_psi K s) (s_zeta K s).

Lemma brel_init g :
  brel K P (pml_begin K P 3 pw) (pml_end K P 3 pw) (neg_wfp K (bwd_init K P pw g)) (sneg (uinit g)).
Proof.
  unfold brel, neg_wfp, bwd_init, sneg, ScalarFunc.uinit.
  cbn [g_wfc g_wfp g_psi g_psin g_zeta g_zetan s_wfc s_wfp s_psi s_zeta].
  repeat split; intros.
  - apply pad_idx; auto.
  - rewrite pad_idx; auto.
  - apply zpad_idx; auto.
  - apply zpad_idx; auto.
  - rewrite H; reflexivity.
  - rewrite H; ring.
  - destruct (zone K P pw d p) eqn:Ez; [reflexivity|].
    destruct (interior K P p) eqn:Ei; [|reflexivity]. cbn in H0.
    rewrite (zone_of_region 3 d p) in Ez by (auto; lia). discriminate.
  - destruct (zone K P pw d p) eqn:Ez; [reflexivity|].
    destruct (interior K P p) eqn:Ei; [|reflexivity]. cbn in H0.
    rewrite (zone_of_region 3 d p) in Ez by (auto; lia). discriminate.
Qed.

Lemma ssupp_uinit u : ssupp K P (uinit u).
Proof.
  unfold ssupp, fsupp, ScalarFunc.uinit. cbn. repeat split; intros.
  1-2: rewrite H; reflexivity.
  all: rewrite H0; destruct (zone _ _ _ _ _); reflexivity.
Qed.

(** ** Forward *)

Hypothesis Hsrc : Forall (loc_ok K P) (p_src P).
Hypothesis Hrec : Forall (loc_ok K P) (p_rec P).

Lemma crop_eq (m : arr K) (f : field K) q :
  (forall p, inb (abox shape) p = true -> m (idx shape p) = f p) -> In q (upts K P) ->
  crop K P m q = f (topad K P q).
Proof. intros H Hq. unfold crop. apply H. apply (inint_arr K P). apply In_upts. exact Hq. Qed.

(** Number of steps made by the driver loop (zero if [nt <= 0]). *)
Definition nsteps (nt sr : Z) : nat := Z.to_nat (nt / sr * sr).

Lemma nsteps_0 nt sr : (0 < sr)%Z -> (nt <= 0)%Z -> nsteps nt sr = 0%nat.
Proof. intros H H0. unfold nsteps. assert (nt / sr * sr <= 0)%Z by (pose proof (Z.mul_div_le nt sr); lia). lia. Qed.

Lemma scalar_forward_spec (v : arr K) vis vrg sr f nt cb store0 u :
  fvis K P pw vis -> (0 < sr)%Z -> cb_ok nt sr cb ->
  let vf := fun p => v (idx shape p) in
  let N := nsteps nt sr in
  let stt := fun k => state K P (fun _ => vf) f k 0 (uinit u) in
  exists U' R' S',
    scalar_forward K P pw v vis vrg sr f nt cb store0 u = Some (U', R', S') /\
    ueq K P U' (ucrop K P (stt N)) /\
    (forall k, (k < N)%nat -> R' (Z.of_nat k) = rec_amps K P (stt k)) /\
    (forall t, ~ (0 <= t < Z.of_nat N)%Z -> R' t = map (fun _ => 0) (p_rec P)) /\
    (vrg = true -> forall k, (k < N)%nat -> (Z.of_nat k mod sr = 0)%Z -> forall p, inint p ->
       S' (Z.of_nat k / sr)%Z (idx shape p) = two * vf p * p_dt2 P * wsum K P (stt k) p).
Proof.
  intros Hvis Hsr Hcb vf N stt. apply fvis_ok in Hvis.
  set (m0 := fwd_init K P pw store0 u).
  assert (Hz : forall n, rzero K P m0 0 n) by (intros n t Ht; reflexivity).
  assert (H : exists m, fwd_driver K P v vis vrg sr f nt cb m0 = Some m /\
      fspec K P (pml_begin K P 2 pw) (pml_end K P 2 pw) vf vrg sr f 0 N m0 (uinit u) m).
  { unfold fwd_driver. destruct (nt <=? 0)%Z eqn:En.
    - apply Z.leb_le in En. exists m0. split; [reflexivity|]. unfold N. rewrite nsteps_0 by auto.
      apply fspec_0. apply rel_init.
    - apply Z.leb_gt in En.
      set (cf := match cb with Some c => c | None => (nt / sr)%Z end).
      assert (Hcf : (0 < cf)%Z).
      { unfold cf. destruct cb as [c|]; cbn in Hcb; [exact Hcb|].
        apply Z.div_str_pos. lia. }
      destruct (Z.eqb_spec cf 0); [lia|]. eexists. split; [reflexivity|].
      unfold N, nsteps. apply (fspec_chunks K Kr); auto.
      + apply geom_prof.
      + apply Z.div_pos; lia.
      + apply rel_init. }
  destruct H as (m & Em & (B1 & B2 & B3 & B4 & _)).
  unfold scalar_forward. fold m0. rewrite Em. do 3 eexists. split; [reflexivity|].
  destruct B1 as (C1 & C2 & C3 & C4 & _).
  split; [|split; [|split]].
  - intros q Hq. cbn [s_wfc s_wfp s_psi s_zeta ucrop].
    split; [apply crop_eq; auto|]. split; [apply crop_eq; auto|]. intros d Hd.
    split; apply crop_eq; auto.
  - intros k Hk. exact (B2 k Hk).
  - intros t Ht. rewrite B3 by lia. reflexivity.
  - intros Hg' k Hk Hm p Hp. exact (B4 Hg' k Hk Hm p Hp).
Qed.

(** ** Backward *)

Lemma scalar_backward_spec (v : arr K) vis store vrg sr gr nt cb g :
  bvis K P pw vis -> (0 < sr)%Z -> cb_ok nt sr cb ->
  let v2 := fun p => v (idx shape p) * v (idx shape p) * p_dt2 P in
  let N := nsteps nt sr in
  let bs := fun k t => bst K P v2 gr k t (sneg (uinit g)) in
  exists G0 gf gv,
    scalar_backward K P pw v vis store vrg sr gr nt cb g = Some (G0, gf, gv) /\
    ueq K P G0 (ucrop K P (sneg (bs N 0%Z))) /\
    (forall k, (k < N)%nat -> gf (Z.of_nat k) =
        gather K P (p_src P) (s_wfc K (bs (N - 1 - k)%nat (Z.of_nat k + 1)%Z))) /\
    (forall t, ~ (0 <= t < Z.of_nat N)%Z -> gf t = map (fun _ => 0) (p_src P)) /\
    (forall p, inint p -> gv (idx shape p) =
        bgv K P v2 gr (bweight K P store sr vrg) N 0 (sneg (uinit g)) p) /\
    (forall j, (forall p, inint p -> idx shape p <> j) -> gv j = 0).
Proof.
  intros Hvis Hsr Hcb v2 N bs. apply bvis_ok in Hvis.
  set (m0 := neg_wfp K (bwd_init K P pw g)).
  assert (Hz : forall n, fzero K P m0 0 n) by (intros n t Ht; reflexivity).
  assert (H : exists m, bwd_driver K P (fun i => v i * v i * p_dt2 P) vis store vrg sr gr nt cb
                          (bwd_init K P pw g) = Some (neg_wfp K m) /\
      bspec K P store sr (pml_begin K P 3 pw) (pml_end K P 3 pw) v2 vrg gr 0 N m0 (sneg (uinit g)) m).
  { unfold bwd_driver. destruct (nt <=? 0)%Z eqn:En.
    - apply Z.leb_le in En. exists m0. split; [reflexivity|]. unfold N. rewrite nsteps_0 by auto.
      apply (bspec_0 K Kr). apply brel_init.
    - apply Z.leb_gt in En.
      set (cf := match cb with Some c => c | None => (nt / sr)%Z end).
      assert (Hcf : (0 < cf)%Z).
      { unfold cf. destruct cb as [c|]; cbn in Hcb; [exact Hcb|].
        apply Z.div_str_pos. lia. }
      destruct (Z.eqb_spec cf 0); [lia|]. eexists. split; [reflexivity|].
      unfold N, nsteps. apply (bspec_chunks K Kr); auto.
      + apply geom_bprof.
      + apply Z.div_pos; lia.
      + apply brel_init. }
  destruct H as (m & Em & (B1 & B2 & B3 & B4 & B5)).
  unfold scalar_backward. rewrite Em. do 3 eexists. split; [reflexivity|].
  destruct B1 as (C1 & C2 & C3 & C4 & _).
  split; [|split; [|split; [|split]]].
  - intros q Hq. cbn [s_wfc s_wfp s_psi s_zeta ucrop sneg neg_wfp g_wfc g_wfp g_psi g_zeta].
    split; [apply crop_eq; auto|]. split.
    { unfold crop. f_equal. apply (crop_eq (g_wfp K m)); auto. }
    intros d Hd. split; apply crop_eq; auto.
  - intros k Hk. cbn [neg_wfp g_f]. exact (B2 k Hk).
  - intros t Ht. cbn [neg_wfp g_f]. rewrite B3 by lia. reflexivity.
  - intros p Hp. cbn [neg_wfp g_v]. rewrite B4 by exact Hp. cbn. ring.
  - intros j Hj. cbn [neg_wfp g_v]. rewrite B5 by exact Hj. reflexivity.
Qed.

End Geom.
