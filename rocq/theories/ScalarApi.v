(** * Gradients, restart and linearity of [scalar_forward] / [scalar_backward] (proofs). *)
From Coq Require Import List ZArith QArith Ring Ring_theory Lia Bool Permutation.
From Verif Require Import Ops Sums Grid Stencil DualNum ScalarModel ScalarRefine ScalarForward
  ScalarBackward ScalarAdjoint ScalarFunc.
Import ListNotations.
Local Open Scope K_scope.

(** Real and eps parts of arrays. *)
Definition are {K : ops} (x : arr (dual K)) : arr K := fun i => fst (x i).
Definition aep {K : ops} (x : arr (dual K)) : arr K := fun i => snd (x i).

(** Inner product of two arrays of [n] elements; of two time series of [nt] samples. *)
Definition adot {K : ops} (n : Z) (x y : arr K) : K := sumf (zrange 0 n) (fun i => x i * y i).
Definition tdot {K : ops} (nt : Z) (x y : Z -> list K) : K :=
  sumf (zrange 0 nt) (fun t => ldot (x t) (y t)).

Local Arguments d1 : simpl never.
Local Arguments d2 : simpl never.
Local Arguments tmpf : simpl never.
Local Arguments wsum : simpl never.
Local Arguments inject : simpl never.
Local Arguments mask : simpl never.
Local Arguments gather : simpl never.

Section Sums.
Variable K : ops.
Hypothesis Kr : is_ring K.
Add Ring KRing0 : Kr.

Lemma sumf_zrange n (g : Z -> K) : sumf (zrange 0 (Z.of_nat n)) g = sumk K n (fun k => g (Z.of_nat k)).
Proof.
  unfold zrange, sumk. rewrite sumf_map. replace (Z.to_nat (Z.of_nat n - 0)) with n by lia.
  apply sumf_ext. intros k _. f_equal.
Qed.

Lemma sumf_zrange_trunc nt n (g : Z -> K) :
  (Z.of_nat n <= nt)%Z -> (forall t, (Z.of_nat n <= t < nt)%Z -> g t = 0) ->
  sumf (zrange 0 nt) g = sumk K n (fun k => g (Z.of_nat k)).
Proof.
  intros H Hz. rewrite (zrange_app 0 (Z.of_nat n) nt) by lia. rewrite (sumf_app K Kr).
  rewrite sumf_zrange. rewrite (sumf_zero K Kr (zrange (Z.of_nat n) nt)); [ring|].
  intros t Ht. apply In_zrange in Ht. apply Hz. exact Ht.
Qed.

Lemma ldot_zero_l {A} (l : list A) (y : list K) : ldot (map (fun _ => 0) l) y = 0.
Proof.
  revert y. induction l as [|x l IH]; intros [|z y]; unfold ldot in *; cbn; try reflexivity.
  rewrite IH. ring.
Qed.
Lemma ldot_zero_r {A} (l : list A) (y : list K) : ldot y (map (fun _ => 0) l) = 0.
Proof.
  revert y. induction l as [|x l IH]; intros [|z y]; unfold ldot in *; cbn; try reflexivity.
  rewrite IH. ring.
Qed.

Lemma sumk_ext n (f g : nat -> K) : (forall k, (k < n)%nat -> f k = g k) -> sumk K n f = sumk K n g.
Proof. intros H. apply sumf_ext. intros k Hk. apply in_seq in Hk. apply H. lia. Qed.

Lemma sumk_S_last n (g : nat -> K) : sumk K (S n) g = sumk K n g + g n.
Proof.
  unfold sumk. rewrite seq_S, (sumf_app K Kr). cbn. ring.
Qed.

Lemma sumk_add n m (g : nat -> K) : sumk K (n + m) g = sumk K n g + sumk K m (fun k => g (n + k)%nat).
Proof.
  induction m as [|m IH].
  - rewrite Nat.add_0_r. unfold sumk at 3. cbn. ring.
  - rewrite Nat.add_succ_r, !sumk_S_last, IH. ring.
Qed.

Lemma sumk_zero n (g : nat -> K) : (forall k, (k < n)%nat -> g k = 0) -> sumk K n g = 0.
Proof. intros H. apply (sumf_zero K Kr). intros k Hk. apply in_seq in Hk. apply H. lia. Qed.

Lemma sumk_scal n c (g : nat -> K) : sumk K n (fun k => c * g k) = c * sumk K n g.
Proof. apply (sumf_scal K Kr). Qed.

(** Only the multiples of [sr] contribute. *)
Lemma sumk_sampled (sr : Z) (n : nat) (g : Z -> K) :
  (0 < sr)%Z -> (forall k, (k < n * Z.to_nat sr)%nat -> (Z.of_nat k mod sr <> 0)%Z -> g (Z.of_nat k) = 0) ->
  sumk K (n * Z.to_nat sr) (fun k => g (Z.of_nat k)) = sumk K n (fun j => g (Z.of_nat j * sr)%Z).
Proof.
  intros Hsr. induction n as [|n IH]; intros Hz; [reflexivity|].
  rewrite sumk_S_last, <- IH by (intros k Hk; apply Hz; lia).
  replace (S n * Z.to_nat sr)%nat with (n * Z.to_nat sr + S (Z.to_nat sr - 1))%nat by lia.
  rewrite sumk_add. f_equal. rewrite sumk_S. rewrite sumk_zero.
  - rewrite Nat.add_0_r. replace (Z.of_nat (n * Z.to_nat sr)) with (Z.of_nat n * sr)%Z by lia. ring.
  - intros k Hk. apply Hz; [lia|].
    replace (Z.of_nat (n * Z.to_nat sr + S k)) with (Z.of_nat (S k) + Z.of_nat n * sr)%Z by lia.
    rewrite Z_mod_plus_full, Z.mod_small; lia.
Qed.

End Sums.

Section Api.
Variable K : ops.
Hypothesis Kr : is_ring K.
Add Ring KRing : Kr.
Variable P : par K.
Variable pw : nat -> Z * Z.
Notation shape := (p_shape P).
Notation fd := (fd_pad (p_acc P)).
Notation inint p := (interior K P p = true).
Notation nd := (length shape).
Notation DP := (dpar P).
Notation I := (ipts K P).
Hypothesis Hg : geom_ok K P pw.
Hypothesis Hsrc : Forall (loc_ok K P) (p_src P).
Hypothesis Hrec : Forall (loc_ok K P) (p_rec P).

(** ** Auxiliary fields vanish where the PML profiles do *)

Definition szone (s : st K) : Prop :=
  forall d p, (d < nd)%nat -> zone K P pw d p = true -> s_psi K s d p = 0 /\ s_zeta K s d p = 0.

Lemma szone_uinit u : szone (uinit K P pw u).
Proof. intros d p Hd Hz. cbn. rewrite Hz. split; reflexivity. Qed.

Lemma szone_step v ft s : szone (step K P v ft s).
Proof.
  intros d p Hd Hz. destruct (zone_ab K P pw Hg d p Hd Hz) as [Ea Eb]. cbn. unfold mask.
  rewrite Ea, Eb. destruct (interior K P p); split; ring.
Qed.

Lemma szone_bstep v2 gr s : szone (bstep K P v2 gr s).
Proof.
  intros d p Hd Hz. destruct (zone_ab K P pw Hg d p Hd Hz) as [Ea Eb]. cbn. unfold mask.
  rewrite Ea. destruct (interior K P p); split; ring.
Qed.

Lemma szone_state v f n t s : szone s -> szone (state K P v f n t s).
Proof.
  revert t s. induction n as [|n IH]; intros t s Hs; [exact Hs|]. cbn. apply IH, szone_step.
Qed.
Lemma szone_bst v2 gr n t s : szone s -> szone (bst K P v2 gr n t s).
Proof. destruct n as [|n]; intros Hs; [exact Hs|]. cbn. apply szone_bstep. Qed.

Lemma ssupp_state v f n t s : ssupp K P s -> ssupp K P (state K P v f n t s).
Proof.
  revert t s. induction n as [|n IH]; intros t s Hs; [exact Hs|]. cbn. apply IH, (ssupp_step K Kr); auto.
Qed.

(** ** User wavefields and central states *)

Lemma ueq_sym a b : ueq K P a b -> ueq K P b a.
Proof.
  intros H q Hq. destruct (H q Hq) as (H1 & H2 & H3).
  split; [auto|]. split; [auto|]. intros d Hd. destruct (H3 d Hd). auto.
Qed.
Lemma ueq_trans a b c : ueq K P a b -> ueq K P b c -> ueq K P a c.
Proof.
  intros H H' q Hq. destruct (H q Hq) as (H1 & H2 & H3), (H' q Hq) as (H1' & H2' & H3').
  split; [congruence|]. split; [congruence|]. intros d Hd. destruct (H3 d Hd), (H3' d Hd).
  split; congruence.
Qed.
Lemma ueq_crop s s' : steq nd s s' -> ueq K P (ucrop K P s) (ucrop K P s').
Proof. intros (H1 & H2 & H3 & H4) q Hq. cbn. repeat split; auto. Qed.

Lemma udot_ext c c' s s' : ueq K P c c' -> ueq K P s s' -> udot K P c s = udot K P c' s'.
Proof.
  intros Hc Hs. unfold udot. f_equal; [f_equal|].
  - apply (dot_ext K); intros q Hq; [apply Hc|apply Hs]; exact Hq.
  - apply (dot_ext K); intros q Hq; [apply Hc|apply Hs]; exact Hq.
  - apply sumf_ext. intros d Hd. apply in_seq in Hd.
    f_equal; apply (dot_ext K); intros q Hq;
      try (apply (proj2 (proj2 (Hc q Hq)) d ltac:(lia)));
      apply (proj2 (proj2 (Hs q Hq)) d ltac:(lia)).
Qed.

Lemma uinit_ueq a b : ueq K P a b -> steq nd (uinit K P pw a) (uinit K P pw b).
Proof.
  intros H.
  assert (Hu : forall p, inint p -> In (unpad K P p) (upts K P)).
  { intros p Hp. apply In_upts. rewrite topad_unpad. exact Hp. }
  repeat split; cbn; intros.
  - destruct (interior K P p) eqn:E; [|reflexivity]. apply (H _ (Hu p E)).
  - destruct (interior K P p) eqn:E; [|reflexivity]. apply (H _ (Hu p E)).
  - destruct (zone K P pw d p); [reflexivity|]. destruct (interior K P p) eqn:E; [|reflexivity].
    apply (proj2 (proj2 (H _ (Hu p E))) d). assumption.
  - destruct (zone K P pw d p); [reflexivity|]. destruct (interior K P p) eqn:E; [|reflexivity].
    apply (proj2 (proj2 (H _ (Hu p E))) d). assumption.
Qed.

Lemma uinit_crop s : ssupp K P s -> szone s -> steq nd (uinit K P pw (ucrop K P s)) s.
Proof.
  intros (H1 & H2 & H3 & H4) Hz. repeat split; cbn; intros; rewrite ?topad_unpad.
  - destruct (interior K P p) eqn:E; [reflexivity|]. symmetry. apply H1, E.
  - destruct (interior K P p) eqn:E; [reflexivity|]. symmetry. apply H2, E.
  - destruct (zone K P pw d p) eqn:Ez; [symmetry; apply Hz; auto|].
    destruct (interior K P p) eqn:E; [reflexivity|]. symmetry. apply H3; auto.
  - destruct (zone K P pw d p) eqn:Ez; [symmetry; apply Hz; auto|].
    destruct (interior K P p) eqn:E; [reflexivity|]. symmetry. apply H4; auto.
Qed.

Lemma dot_pad_l (u f : field K) :
  dot (upts K P) u (fun q => f (topad K P q))
  = dot I (fun p => if interior K P p then u (unpad K P p) else 0) f.
Proof.
  rewrite <- (dot_upts K P Kr). apply (dot_ext K); [|reflexivity].
  intros q Hq. apply In_upts in Hq. rewrite Hq, unpad_topad. reflexivity.
Qed.

Lemma dot_pad_r (u f : field K) :
  dot (upts K P) (fun q => f (topad K P q)) u
  = dot I f (fun p => if interior K P p then u (unpad K P p) else 0).
Proof. rewrite (dot_comm K Kr), dot_pad_l, (dot_comm K Kr). reflexivity. Qed.

Lemma pair_udot c s : szone s ->
  pair K P (sneg K (uinit K P pw c)) s = udot K P c (ucrop K P s).
Proof.
  intros Hz. unfold pair, udot, sneg, uinit, ucrop. cbn [s_wfc s_wfp s_psi s_zeta].
  rewrite !dot_pad_l. f_equal.
  - match goal with |- ?a - ?b = ?c + ?d => replace b with (- d); [ring|] end.
    unfold dot. rewrite <- (sumf_opp K Kr). apply sumf_ext. intros p _. ring.
  - apply sumf_ext. intros d Hd. apply in_seq in Hd. rewrite !dot_pad_l.
    assert (Hdd : (d < nd)%nat) by lia.
    f_equal; unfold dot; apply sumf_ext; intros p _; destruct (zone K P pw d p) eqn:E; try reflexivity.
    + rewrite (proj1 (Hz d p Hdd E)). ring.
    + rewrite (proj2 (Hz d p Hdd E)). ring.
Qed.

Lemma pair_udot' c s : szone c ->
  pair K P c (uinit K P pw s) = udot K P (ucrop K P (sneg K c)) s.
Proof.
  intros Hz. unfold pair, udot, sneg, uinit, ucrop. cbn [s_wfc s_wfp s_psi s_zeta].
  rewrite dot_pad_r. rewrite (dot_pad_r (s_wfp K s) (fun p => - s_wfp K c p)). f_equal.
  - match goal with |- ?a - ?b = ?c + ?d => replace d with (- b); [ring|] end.
    unfold dot. rewrite <- (sumf_opp K Kr). apply sumf_ext. intros p _. ring.
  - apply sumf_ext. intros d Hd. apply in_seq in Hd. rewrite !dot_pad_r.
    assert (Hdd : (d < nd)%nat) by lia.
    f_equal; unfold dot; apply sumf_ext; intros p _; destruct (zone K P pw d p) eqn:E; try reflexivity.
    + rewrite (proj1 (Hz d p Hdd E)). ring.
    + rewrite (proj2 (Hz d p Hdd E)). ring.
Qed.

(** Sum over all array elements of the padded model, when one factor vanishes outside the
    interior. *)
Lemma adot_interior (x y : arr K) :
  (forall j, (forall p, inint p -> idx shape p <> j) -> x j = 0) ->
  adot (prodZ shape) x y = dot I (fun p => x (idx shape p)) (fun p => y (idx shape p)).
Proof.
  intros Hz. unfold adot, dot.
  set (g := fun i => x i * y i).
  change (sumf I (fun p => x (idx shape p) * y (idx shape p))) with (sumf I (fun p => g (idx shape p))).
  rewrite <- (sumf_map K (idx shape)).
  assert (Hpos : Forall (fun n => 0 < n)%Z shape).
  { apply Forall_forall. intros n Hn. apply (In_nth _ _ 0%Z) in Hn. destruct Hn as (d & Hd & <-).
    destruct (Hg d Hd) as (? & ? & ? & _). pose proof (fd_pad_pos (p_acc P)). lia. }
  rewrite (sumf_filter K Kr (fun i => interior K P (unidx shape i))).
  - apply (sumf_perm K Kr). apply NoDup_Permutation.
    + apply NoDup_filter, NoDup_zrange.
    + apply NoDup_map_inj; [|apply NoDup_box_pts].
      intros p q Hp Hq E. apply In_box_pts in Hp, Hq.
      apply (idx_inj shape); auto; apply (inint_arr K P); auto.
    + intros i. rewrite filter_In, In_zrange, in_map_iff. split.
      * intros [Hi Hp]. exists (unidx shape i). split; [apply idx_unidx; auto|].
        apply In_box_pts. exact Hp.
      * intros (p & <- & Hp). apply In_box_pts in Hp.
        pose proof (inint_arr K P p Hp) as Ha.
        split; [apply idx_bound; exact Ha|]. rewrite unidx_idx by exact Ha. exact Hp.
  - intros i Hi Hf. unfold g. rewrite Hz; [ring|]. intros p Hp E. subst i.
    pose proof (inint_arr K P p Hp) as Ha. rewrite unidx_idx in Hf by exact Ha.
    rewrite Hp in Hf. discriminate.
Qed.

(** ** Extensionality in the sources, shift in time *)

Lemma state_ext_f v v' f f' n t s s' :
  (forall u p, v u p = v' u p) -> (forall u, (t <= u < t + Z.of_nat n)%Z -> f u = f' u) -> steq nd s s' ->
  steq nd (state K P v f n t s) (state K P v' f' n t s').
Proof.
  intros Hv. revert t s s'. induction n as [|n IH]; intros t s s' Hf Hs; [exact Hs|].
  cbn [state]. rewrite (Hf t) by lia. apply IH; [intros u Hu; apply Hf; lia|]. apply step_ext; auto.
Qed.

Lemma state_shift v f n k t s :
  steq nd (state K P v f n (k + t)%Z s)
          (state K P (fun u => v (k + u)%Z) (fun u => f (k + u)%Z) n t s).
Proof.
  revert t s. induction n as [|n IH]; intros t s; [apply steq_refl|].
  cbn [state]. replace (k + t + 1)%Z with (k + (t + 1))%Z by lia. apply IH.
Qed.

Lemma rec_amps_ext s s' : steq nd s s' -> rec_amps K P s = rec_amps K P s'.
Proof. intros (H & _). apply gather_ext. exact H. Qed.

(** ** Restart *)

(** Starting from the cropped state is starting from the state. *)
Lemma restart v f n u U' :
  ueq K P U' (ucrop K P (state K P v f n 0 (uinit K P pw u))) ->
  steq nd (uinit K P pw U') (state K P v f n 0 (uinit K P pw u)).
Proof.
  intros H. eapply steq_trans; [apply uinit_ueq; exact H|]. apply uinit_crop.
  - apply ssupp_state, ssupp_uinit.
  - apply szone_state, szone_uinit.
Qed.

(** ** Linear part: no wavespeed perturbation *)

(** A linear run as the eps part of a dual run from zero. *)
Definition eps_st (s : st K) : st (dual K) :=
  mkst (dual K) (fun p => (o0 K, s_wfc K s p)) (fun p => (o0 K, s_wfp K s p))
       (fun d p => (o0 K, s_psi K s d p)) (fun d p => (o0 K, s_zeta K s d p)).
Definition eps_l (l : list K) : list (dual K) := map (fun x => (o0 K, x)) l.

Lemma lep_eps l : lep (eps_l l) = l.
Proof. unfold lep, eps_l. rewrite map_map. apply map_id. Qed.

Lemma sep_state_const (vf : field K) (f : Z -> list (dual K)) n t (s : st (dual K)) :
  steq nd (sep (state (dual K) DP (fun _ p => dconst (vf p)) f n t s))
          (state K P (fun _ => vf) (fun u => lep (f u)) n t (sep s)).
Proof.
  revert t s. induction n as [|n IH]; intros t s; [apply steq_refl|].
  cbn [state]. eapply steq_trans; [apply IH|]. apply state_ext; [reflexivity|].
  eapply steq_trans; [apply (sep_step K Kr)|].
  unfold tstep, step. repeat split; cbn [s_wfc s_wfp s_psi s_zeta].
  intros p. apply inject_ext, mask_ext. unfold fre, fep, dconst. cbn. ring.
Qed.

Lemma sep_uinit (U : st (dual K)) : steq nd (sep (uinit (dual K) DP pw U)) (uinit K P pw (sep U)).
Proof.
  unfold steq, sep, uinit. cbn [s_wfc s_wfp s_psi s_zeta].
  change (interior (dual K) DP) with (interior K P).
  change (zone (dual K) DP pw) with (zone K P pw).
  repeat split; intros; unfold fep; try destruct (zone K P pw d p);
    try destruct (interior K P p); reflexivity.
Qed.
Lemma sre_uinit (U : st (dual K)) : steq nd (sre (uinit (dual K) DP pw U)) (uinit K P pw (sre U)).
Proof.
  unfold steq, sre, uinit. cbn [s_wfc s_wfp s_psi s_zeta].
  change (interior (dual K) DP) with (interior K P).
  change (zone (dual K) DP pw) with (zone K P pw).
  repeat split; intros; unfold fre; try destruct (zone K P pw d p);
    try destruct (interior K P p); reflexivity.
Qed.

(** ** The adjoint identity on central states of user wavefields *)

Lemma pair_sneg_ext c c' s : steq nd c c' -> pair K P c s = pair K P c' s.
Proof.
  intros (E1 & E2 & E3 & E4). unfold pair. f_equal.
  - f_equal; apply (dot_ext K); auto.
  - apply sumf_ext. intros d Hd. apply in_seq in Hd.
    f_equal; apply (dot_ext K); intros; auto; [apply E3|apply E4]; lia.
Qed.

Lemma ssupp_sneg s : ssupp K P s -> ssupp K P (sneg K s).
Proof.
  intros (H1 & H2 & H3 & H4). split; [exact H1|]. split; [|split; assumption].
  intros p Hp. cbn. rewrite H2 by exact Hp. ring.
Qed.

Lemma szone_sneg s : szone s -> szone (sneg K s).
Proof. intros H. exact H. Qed.

Lemma adjoint_user (v : Z -> field (dual K)) (vre : field K) (F : Z -> list (dual K))
    (gr : Z -> list K) (v2 : field K) (N : nat) (U : st (dual K)) (G : st K) :
  (forall u p, fre (v u) p = vre p) ->
  (forall p, inint p -> v2 p = vre p * vre p * p_dt2 P) ->
  let stt := fun k => state (dual K) DP v F k 0 (uinit (dual K) DP pw U) in
  let sK := fun k => state K P (fun _ => vre) (fun u => lre (F u)) k 0 (uinit K P pw (sre U)) in
  let bs := fun k t => bst K P v2 gr k t (sneg K (uinit K P pw G)) in
  udot K P G (ucrop K P (sep (stt N)))
  + sumk K N (fun k => ldot (gr (Z.of_nat k)) (lep (rec_amps (dual K) DP (stt k))))
  = udot K P (ucrop K P (sneg K (bs N 0%Z))) (sep U)
    + sumk K N (fun k => ldot (gather K P (p_src P) (s_wfc K (bs (N - 1 - k)%nat (Z.of_nat k + 1)%Z)))
                            (lep (F (Z.of_nat k))))
    + sumk K N (fun k => dot I (fun p =>
          s_wfc K (bs (N - 1 - k)%nat (Z.of_nat k + 1)%Z) p
          * (two * vre p * p_dt2 P * wsum K P (sK k) p)) (fep (v (Z.of_nat k)))).
Proof.
  intros Hv Hv2 stt sK bs.
  assert (Hs : ssupp K P (sep (uinit (dual K) DP pw U))).
  { eapply ssupp_steq; [apply steq_sym, sep_uinit|]. apply ssupp_uinit. }
  assert (Hc : ssupp K P (sneg K (uinit K P pw G))) by (apply ssupp_sneg, ssupp_uinit).
  pose proof (scalar_adjoint K Kr P Hsrc Hrec v vre F gr v2 N 0 _ _ Hs Hc Hv Hv2) as A.
  cbn [Z.add] in A. fold (stt N) in A.
  rewrite pair_udot in A.
  2:{ intros d p Hd Hz. cbn. unfold fep.
      assert (Z : szone (sep (stt N))); [|exact (Z d p Hd Hz)].
      clear - Kr Hg. unfold stt. destruct N as [|n].
      - cbn [state]. intros d p Hd Hz. destruct (sep_uinit U) as (_ & _ & E3 & E4).
        rewrite E3, E4 by exact Hd. apply szone_uinit; auto.
      - rewrite state_S_last. intros d p Hd Hz.
        destruct (sep_step K Kr P (v (0 + Z.of_nat n)%Z) (F (0 + Z.of_nat n)%Z)
                    (state (dual K) DP v F n 0 (uinit (dual K) DP pw U))) as (_ & _ & E3 & E4).
        rewrite E3, E4 by exact Hd.
        destruct (zone_ab K P pw Hg d p Hd Hz) as [Ea Eb]. cbn. unfold mask.
        rewrite Ea, Eb. destruct (interior K P p); split; ring. }
  rewrite (pair_ext K P _ _ _ (sep_uinit U)) in A.
  rewrite pair_udot' in A by (apply szone_bst, szone_sneg, szone_uinit).
  fold (bs N 0%Z) in A.
  refine (eq_trans _ (eq_trans A _)).
  - reflexivity.
  - f_equal. apply sumk_ext. intros k Hk. apply (dot_ext K); [|reflexivity]. intros p Hp.
    do 2 f_equal. apply wsum_ext.
    eapply steq_trans; [apply sre_state|]. unfold sK. apply state_ext_f.
    + intros u q. apply Hv.
    + intros; reflexivity.
    + apply sre_uinit.
Qed.

End Api.
