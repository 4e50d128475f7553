(** * Properties C08, C09, C12, C13, C15, C18, C41: runs of the scalar propagator. *)
From Coq Require Import List ZArith QArith Qcanon Lia Permutation.
From Verif Require Import Ops Sums Grid Stencil DualNum ScalarModel ScalarRefine ScalarForward
  ScalarBackward ScalarAdjoint ScalarFunc ScalarApi ScalarGrad ScalarEx ScalarMore PyBackend ScalarMore2
  ScalarPhys ScalarReach ScalarEx2 ScalarUser.
Import ListNotations.
Local Open Scope K_scope.

(** C08: the Python backend (whole-array formulas) and the compiled backend (cell by cell, in
    place, PML terms skipped in the inner region, any visiting order) return the same receiver
    data and wavefields.  Without any time step the compiled backend has zeroed the PML fields
    where the PML has no effect, the Python backend has not; outside that zone they agree. *)
Theorem C08_backends_agree_partial (K : ops) (Kr : is_ring K) (P : par K) (pw : nat -> Z * Z) :
  geom_ok K P pw -> Forall (loc_ok_py K P) (p_src P) -> Forall (loc_ok_py K P) (p_rec P) ->
  forall (v : arr K) f u nt sr vis vrg cb st0 U R S,
  fvis K P pw vis -> (0 < sr)%Z -> (0 <= nt)%Z -> cb_ok nt sr cb ->
  scalar_forward K P pw v vis vrg sr f nt cb st0 u = Some (U, R, S) ->
  let '(U', R') := scalar_python K P (fun p => v (idx (p_shape P) p)) sr f nt u in
  (forall t, R t = R' t) /\
  (forall q, In q (upts K P) -> s_wfc K U q = s_wfc K U' q /\ s_wfp K U q = s_wfp K U' q) /\
  ((sr <= nt)%Z -> ueq K P U U') /\
  (forall q d, In q (upts K P) -> (d < length (p_shape P))%nat ->
     ((fst (pw d) <=? nth d q 0) && (nth d q 0 <? nth d (p_shape P) 0 - 2 * fd_pad (p_acc P) - snd (pw d)))%Z = false ->
     s_psi K U d q = s_psi K U' d q /\ s_zeta K U d q = s_zeta K U' d q).
Proof. exact (backends_agree_user K Kr P pw). Qed.
Print Assumptions C08_backends_agree_partial.

Example C08_example : exists U R S,
  ex_run false 1 ex_F 3 None ex_U = Some (U, R, S) /\
  ueq Qc_ops exP U (fst (scalar_python Qc_ops exP (fun p => ex_v (idx [8%Z] p)) 1 ex_F 3 ex_U)) /\
  nth 0 (R 2%Z) (qz 0) <> qz 0.
Proof.
  destruct (ex_run_some false 1 ex_F 3 None ex_U) as (U & R & S & E); [lia|cbn; lia|].
  exists U, R, S. split; [exact E|]. split.
  - pose proof (C08_backends_agree_partial Qc_ops Qc_is_ring exP expw ex_geom ex_src_py ex_rec_py ex_v ex_F ex_U 3 1
      ex_visF false None ex_store0 U R S (Permutation_refl _) ltac:(lia) ltac:(lia) ltac:(cbn; lia) E) as H.
    change [8%Z] with (p_shape exP).
    destruct (scalar_python Qc_ops exP (fun p => ex_v (idx (p_shape exP) p)) 1 ex_F 3 ex_U) as [U' R'].
    apply H. lia.
  - assert (H : match ex_run false 1 ex_F 3 None ex_U with Some (_, R, _) => nz (nth 0 (R 2%Z) (qz 0)) | None => false end = true)
      by (vm_compute; reflexivity).
    rewrite E in H. apply nz_spec. exact H.
Qed.

(** In a run without time steps the backends return different PML fields. *)
Theorem C08_zero_steps_refuted : exists U R S q,
  ex_run false 1 ex_F 0 None ex_U = Some (U, R, S) /\ In q (upts Qc_ops exP) /\
  s_psi Qc_ops U 0 q
  <> s_psi Qc_ops (fst (scalar_python Qc_ops exP (fun p => ex_v (idx [8%Z] p)) 1 ex_F 0 ex_U)) 0 q.
Proof.
  destruct (ex_run_some false 1 ex_F 0 None ex_U) as (U & R & S & E); [lia|cbn; lia|].
  exists U, R, S, [3%Z]. split; [exact E|]. split; [vm_compute; tauto|].
  assert (H : match ex_run false 1 ex_F 0 None ex_U with Some (U, _, _) =>
      nz (s_psi Qc_ops U 0 [3%Z] - s_psi Qc_ops (fst (scalar_python Qc_ops exP (fun p => ex_v (idx [8%Z] p)) 1 ex_F 0 ex_U)) 0 [3%Z])%Qc
      | None => false end = true) by (vm_compute; reflexivity).
  rewrite E in H. intros X. rewrite X in H. apply nz_spec in H. apply H. apply Qcplus_opp_r.
Qed.
Print Assumptions C08_zero_steps_refuted.

(** C09: a passive forward callback changes nothing ... *)
Theorem C09_callbacks_passive (K : ops) (Kr : is_ring K) (P : par K) (pw : nat -> Z * Z) :
  geom_ok K P pw -> Forall (loc_ok K P) (p_src P) -> Forall (loc_ok K P) (p_rec P) ->
  forall (v : arr K) f u nt sr c vis vrg st0,
  fvis K P pw vis -> (0 < sr)%Z -> (0 < c)%Z -> (nt = 0 \/ sr <= nt)%Z ->
  exists U R S U' R' S',
    scalar_forward K P pw v vis vrg sr f nt None st0 u = Some (U, R, S) /\
    scalar_forward K P pw v vis vrg sr f nt (Some c) st0 u = Some (U', R', S') /\
    ueq K P U U' /\ (forall t, R t = R' t).
Proof. exact (callbacks_passive K Kr P pw). Qed.
Print Assumptions C09_callbacks_passive.

(** ... and is called at the (outer) steps that are multiples of the frequency, seeing the
    wavefields that a run stopping there returns. *)
Theorem C09_callback_calls (K : ops) (Kr : is_ring K) (P : par K) (pw : nat -> Z * Z) :
  geom_ok K P pw -> Forall (loc_ok K P) (p_src P) -> Forall (loc_ok K P) (p_rec P) ->
  forall (v : arr K) f u nt sr c vis vrg store0,
  fvis K P pw vis -> (0 < sr)%Z -> (0 < c)%Z -> (0 <= nt)%Z ->
  let calls := scalar_forward_calls K P pw v vis vrg sr f nt c store0 u in
  map fst calls = filter (fun s => (s mod c =? 0)%Z) (zrange 0 (nt / sr)) /\
  forall s w, In (s, w) calls ->
    exists U' R' S', scalar_forward K P pw v vis vrg sr f (s * sr) None store0 u = Some (U', R', S') /\ ueq K P w U'.
Proof. exact (forward_calls K Kr P pw). Qed.
Print Assumptions C09_callback_calls.

Example C09_example :
  (exists U R S U' R' S',
    ex_run false 3 ex_F 9 None ex_U = Some (U, R, S) /\
    ex_run false 3 ex_F 9 (Some 2%Z) ex_U = Some (U', R', S') /\
    ueq Qc_ops exP U U' /\ nth 2 (R 8%Z) (qz 0) <> qz 0) /\
  map fst (scalar_forward_calls Qc_ops exP expw ex_v ex_visF false 3 ex_F 9 2 ex_store0 ex_U) = [0%Z; 2%Z].
Proof.
  split.
  - destruct (C09_callbacks_passive Qc_ops Qc_is_ring exP expw ex_geom ex_src ex_rec ex_v ex_F ex_U 9 3 2 ex_visF false ex_store0)
      as (U & R & S & U' & R' & S' & E1 & E2 & H1 & H2); try lia; [apply Permutation_refl|].
    exists U, R, S, U', R', S'. split; [exact E1|]. split; [exact E2|]. split; [exact H1|].
    assert (H : match ex_run false 3 ex_F 9 None ex_U with Some (_, R, _) => nz (nth 2 (R 8%Z) (qz 0)) | None => false end = true)
      by (vm_compute; reflexivity).
    unfold ex_run in H. rewrite E1 in H. apply nz_spec. exact H.
  - rewrite (proj1 (C09_callback_calls Qc_ops Qc_is_ring exP expw ex_geom ex_src ex_rec ex_v ex_F ex_U 9 3 2 ex_visF false
      ex_store0 (Permutation_refl _) ltac:(lia) ltac:(lia) ltac:(lia))). reflexivity.
Qed.

(** C12, when the storage interval [sr] divides the number of steps: the result does not depend
    on [sr], and receiver sample [t] is the wavefield after [t] steps at the receivers, for all
    [0 <= t < nt].  Missing for the full statement: other intervals, where it is false. *)
Theorem C12_all_steps_partial (K : ops) (Kr : is_ring K) (P : par K) (pw : nat -> Z * Z) :
  geom_ok K P pw -> Forall (loc_ok K P) (p_src P) -> Forall (loc_ok K P) (p_rec P) ->
  forall (v : arr K) f u nt sr vis vis1 vrg vrg1 cb cb1 st0 st1,
  fvis K P pw vis -> fvis K P pw vis1 -> (0 < sr)%Z -> (0 <= nt)%Z -> (nt mod sr = 0)%Z ->
  cb_ok nt sr cb -> cb_ok nt 1 cb1 ->
  exists U R S U1 R1 S1,
    scalar_forward K P pw v vis vrg sr f nt cb st0 u = Some (U, R, S) /\
    scalar_forward K P pw v vis1 vrg1 1 f nt cb1 st1 u = Some (U1, R1, S1) /\
    ueq K P U U1 /\ (forall t, R t = R1 t) /\
    (forall t, (0 <= t < nt)%Z -> exists Ut Rt St,
       scalar_forward K P pw v vis1 vrg1 1 f t None st1 u = Some (Ut, Rt, St) /\
       R t = at_receivers P (s_wfc K Ut)).
Proof. exact (all_steps K Kr P pw). Qed.
Print Assumptions C12_all_steps_partial.

(** Every source sample is injected: two source series that agree before step [t] give, after
    step [t], wavefields that differ exactly by the amplitudes of step [t]. *)
Theorem C12_source_samples (K : ops) (Kr : is_ring K) (P : par K) (pw : nat -> Z * Z) :
  geom_ok K P pw -> Forall (loc_ok K P) (p_src P) -> Forall (loc_ok K P) (p_rec P) ->
  forall (v : arr K) f f' u vis vis' vrg vrg' cb cb' st0 st' U R S U' R' S' t,
  fvis K P pw vis -> fvis K P pw vis' -> cb_ok (t + 1) 1 cb -> cb_ok (t + 1) 1 cb' -> (0 <= t)%Z ->
  (forall s, (0 <= s < t)%Z -> f s = f' s) ->
  scalar_forward K P pw v vis vrg 1 f (t + 1) cb st0 u = Some (U, R, S) ->
  scalar_forward K P pw v vis' vrg' 1 f' (t + 1) cb' st' u = Some (U', R', S') ->
  forall q, In q (upts K P) ->
  s_wfc K U q - s_wfc K U' q = amps_at P (f t) q - amps_at P (f' t) q.
Proof. exact (source_sample K Kr P pw). Qed.
Print Assumptions C12_source_samples.

(** What happens in general: only [nt / sr * sr] steps are made, silently ... *)
Theorem C12_truncated (K : ops) (Kr : is_ring K) (P : par K) (pw : nat -> Z * Z) :
  geom_ok K P pw -> Forall (loc_ok K P) (p_src P) -> Forall (loc_ok K P) (p_rec P) ->
  forall (v : arr K) f u nt sr vis1 vis2 vrg1 vrg2 cb1 cb2 st1 st2 U1 R1 S1 U2 R2 S2,
  fvis K P pw vis1 -> fvis K P pw vis2 -> (0 < sr)%Z -> (0 <= nt)%Z ->
  cb_ok nt sr cb1 -> cb_ok (nt / sr * sr) 1 cb2 ->
  scalar_forward K P pw v vis1 vrg1 sr f nt cb1 st1 u = Some (U1, R1, S1) ->
  scalar_forward K P pw v vis2 vrg2 1 f (nt / sr * sr) cb2 st2 u = Some (U2, R2, S2) ->
  ueq K P U1 U2 /\ forall t, R1 t = R2 t.
Proof. exact (forward_truncated K Kr P pw). Qed.
Print Assumptions C12_truncated.

(** ... and a run shorter than the interval raises (no callback). *)
Theorem C12_short_run_raises (K : ops) (P : par K) (pw : nat -> Z * Z) :
  forall (v : arr K) f u nt sr vis vrg st0,
  (0 < nt < sr)%Z -> scalar_forward K P pw v vis vrg sr f nt None st0 u = None.
Proof. exact (forward_short_raises K P pw). Qed.
Print Assumptions C12_short_run_raises.

(** The full statement is false: 3 steps with interval 2, the last sample is not recorded. *)
Theorem C12_refuted : exists U R S U1 R1 S1,
  ex_run false 2 ex_F 3 None ex_U = Some (U, R, S) /\
  ex_run false 1 ex_F 3 None ex_U = Some (U1, R1, S1) /\ R 2%Z <> R1 2%Z.
Proof.
  destruct (ex_run_some false 2 ex_F 3 None ex_U) as (U & R & S & E); [lia|cbn; lia|].
  destruct (ex_run_some false 1 ex_F 3 None ex_U) as (U1 & R1 & S1 & E1); [lia|cbn; lia|].
  exists U, R, S, U1, R1, S1. split; [exact E|]. split; [exact E1|].
  assert (H : match ex_run false 2 ex_F 3 None ex_U, ex_run false 1 ex_F 3 None ex_U with
     Some (_, R, _), Some (_, R1, _) => nz (nth 0 (R 2%Z) (qz 0) - nth 0 (R1 2%Z) (qz 0))%Qc | _, _ => false end = true)
    by (vm_compute; reflexivity).
  rewrite E, E1 in H. intros X. rewrite X in H. apply nz_spec in H. apply H. apply Qcplus_opp_r.
Qed.
Print Assumptions C12_refuted.

Example C12_example : exists U R S,
  ex_run true 2 ex_F 4 None ex_U = Some (U, R, S) /\
  (exists Ut Rt St, scalar_forward Qc_ops exP expw ex_v ex_visF true 1 ex_F 3 None ex_store0 ex_U = Some (Ut, Rt, St) /\
     R 3%Z = at_receivers exP (s_wfc Qc_ops Ut)) /\
  nth 0 (R 3%Z) (qz 0) <> qz 0.
Proof.
  destruct (C12_all_steps_partial Qc_ops Qc_is_ring exP expw ex_geom ex_src ex_rec ex_v ex_F ex_U 4 2 ex_visF ex_visF true true
    None None ex_store0 ex_store0) as (U & R & S & U1 & R1 & S1 & E & E1 & _ & _ & H);
    try (cbn; lia); try apply Permutation_refl; try reflexivity.
  exists U, R, S. split; [exact E|]. split; [apply (H 3%Z); lia|].
  assert (X : match ex_run true 2 ex_F 4 None ex_U with Some (_, R, _) => nz (nth 0 (R 3%Z) (qz 0)) | None => false end = true)
    by (vm_compute; reflexivity).
  unfold ex_run in X. rewrite E in X. apply nz_spec. exact X.
Qed.

(** C13: superposition. *)
Theorem C13_superposition (K : ops) (Kr : is_ring K) (P : par K) (pw : nat -> Z * Z) :
  geom_ok K P pw -> Forall (loc_ok K P) (p_src P) -> Forall (loc_ok K P) (p_rec P) ->
  forall (a b : K) (v : arr K) f g x y nt sr vis1 vis2 vis vrg1 vrg2 vrg cb1 cb2 cb st1 st2 st0
    U1 R1 S1 U2 R2 S2 U R S,
  fvis K P pw vis1 -> fvis K P pw vis2 -> fvis K P pw vis -> (0 < sr)%Z -> (0 <= nt)%Z ->
  cb_ok nt sr cb1 -> cb_ok nt sr cb2 -> cb_ok nt sr cb ->
  (forall t, (0 <= t < nt)%Z -> length (f t) = length (p_src P) /\ length (g t) = length (p_src P)) ->
  scalar_forward K P pw v vis1 vrg1 sr f nt cb1 st1 x = Some (U1, R1, S1) ->
  scalar_forward K P pw v vis2 vrg2 sr g nt cb2 st2 y = Some (U2, R2, S2) ->
  scalar_forward K P pw v vis vrg sr (fun t => lc_l a b (f t) (g t)) nt cb st0 (lc_st a b x y) = Some (U, R, S) ->
  ueq K P U (lc_st a b U1 U2) /\ forall t, R t = lc_l a b (R1 t) (R2 t).
Proof. exact (forward_superposition K Kr P pw). Qed.
Print Assumptions C13_superposition.

Definition ex_F2 (t : Z) : list Qc := [qz (3 - t); qz 1].
Example C13_example : exists U1 R1 S1 U2 R2 S2 U R S,
  ex_run false 1 ex_F 3 None ex_U = Some (U1, R1, S1) /\
  ex_run false 1 ex_F2 3 None ex_G = Some (U2, R2, S2) /\
  ex_run false 1 (fun t => lc_l (K := Qc_ops) (qz 2) (qz (-3)) (ex_F t) (ex_F2 t)) 3 None
    (lc_st (K := Qc_ops) (qz 2) (qz (-3)) ex_U ex_G) = Some (U, R, S) /\
  (forall t, R t = lc_l (K := Qc_ops) (qz 2) (qz (-3)) (R1 t) (R2 t)) /\ nth 0 (R 2%Z) (qz 0) <> qz 0.
Proof.
  destruct (ex_run_some false 1 ex_F 3 None ex_U) as (U1 & R1 & S1 & E1); [lia|cbn; lia|].
  destruct (ex_run_some false 1 ex_F2 3 None ex_G) as (U2 & R2 & S2 & E2); [lia|cbn; lia|].
  destruct (ex_run_some false 1 (fun t => lc_l (K := Qc_ops) (qz 2) (qz (-3)) (ex_F t) (ex_F2 t)) 3 None
    (lc_st (K := Qc_ops) (qz 2) (qz (-3)) ex_U ex_G)) as (U & R & S & E); [lia|cbn; lia|].
  exists U1, R1, S1, U2, R2, S2, U, R, S. split; [exact E1|]. split; [exact E2|]. split; [exact E|]. split.
  - eapply (C13_superposition Qc_ops Qc_is_ring exP expw ex_geom ex_src ex_rec (qz 2) (qz (-3)) ex_v ex_F ex_F2 ex_U ex_G 3 1
      ex_visF ex_visF ex_visF false false false None None None);
      [apply Permutation_refl|apply Permutation_refl|apply Permutation_refl|lia|lia|cbn; lia|cbn; lia|cbn; lia| |exact E1|exact E2|exact E].
    intros; split; reflexivity.
  - assert (H : match ex_run false 1 (fun t => lc_l (K := Qc_ops) (qz 2) (qz (-3)) (ex_F t) (ex_F2 t)) 3 None
       (lc_st (K := Qc_ops) (qz 2) (qz (-3)) ex_U ex_G) with Some (_, R, _) => nz (nth 0 (R 2%Z) (qz 0)) | None => false end = true)
      by (vm_compute; reflexivity).
    rewrite E in H. apply nz_spec. exact H.
Qed.

(** C15: restart.  [n1] must be a multiple of the storage interval (it is for the default
    interval: the internal step number is a multiple of the CFL ratio). *)
Theorem C15_restart_partial (K : ops) (Kr : is_ring K) (P : par K) (pw : nat -> Z * Z) :
  geom_ok K P pw -> Forall (loc_ok K P) (p_src P) -> Forall (loc_ok K P) (p_rec P) ->
  forall (v : arr K) f u n1 n2 sr vis1 vis2 vis vrg1 vrg2 vrg cb1 cb2 cb st1 st2 st0 U1 R1 S1 U2 R2 S2 U R S,
  fvis K P pw vis1 -> fvis K P pw vis2 -> fvis K P pw vis -> (0 < sr)%Z ->
  (0 <= n1)%Z -> (0 <= n2)%Z -> (n1 mod sr = 0)%Z ->
  cb_ok n1 sr cb1 -> cb_ok n2 sr cb2 -> cb_ok (n1 + n2) sr cb ->
  scalar_forward K P pw v vis1 vrg1 sr f n1 cb1 st1 u = Some (U1, R1, S1) ->
  scalar_forward K P pw v vis2 vrg2 sr (fun t => f (n1 + t)%Z) n2 cb2 st2 U1 = Some (U2, R2, S2) ->
  scalar_forward K P pw v vis vrg sr f (n1 + n2) cb st0 u = Some (U, R, S) ->
  ueq K P U U2 /\
  (forall t, (0 <= t < n1)%Z -> R t = R1 t) /\ (forall t, (0 <= t)%Z -> R (n1 + t)%Z = R2 t).
Proof. exact (forward_restart K Kr P pw). Qed.
Print Assumptions C15_restart_partial.

(** The full statement is false: with interval 2, runs of 3 and 3 steps stop after 2 and 2 steps and leave out the
    last sample of each run; the run of 6 steps does not. *)
Definition ex_F_late (t : Z) : list Qc := ex_F (3 + t).
Theorem C15_refuted : exists U1 R1 S1 U2 R2 S2 U R S,
  ex_run false 2 ex_F 3 None ex_U = Some (U1, R1, S1) /\
  ex_run false 2 ex_F_late 3 None U1 = Some (U2, R2, S2) /\
  ex_run false 2 ex_F 6 None ex_U = Some (U, R, S) /\
  R 2%Z <> R1 2%Z /\ R (3 + 0)%Z <> R2 0%Z.
Proof.
  destruct (ex_run_some false 2 ex_F 3 None ex_U) as (U1 & R1 & S1 & E1); [lia|cbn; lia|].
  destruct (ex_run_some false 2 ex_F_late 3 None U1) as (U2 & R2 & S2 & E2); [lia|cbn; lia|].
  destruct (ex_run_some false 2 ex_F 6 None ex_U) as (U & R & S & E); [lia|cbn; lia|].
  exists U1, R1, S1, U2, R2, S2, U, R, S. split; [exact E1|]. split; [exact E2|]. split; [exact E|].
  assert (H : match ex_run false 2 ex_F 3 None ex_U with
     | Some (V1, R1, _) =>
       match ex_run false 2 ex_F_late 3 None V1, ex_run false 2 ex_F 6 None ex_U with
       | Some (_, R2, _), Some (_, R, _) =>
         andb (nz (nth 0 (R 2%Z) (qz 0) - nth 0 (R1 2%Z) (qz 0))%Qc) (nz (nth 0 (R (3 + 0)%Z) (qz 0) - nth 0 (R2 0%Z) (qz 0))%Qc)
       | _, _ => false end | None => false end = true)
    by (vm_compute; reflexivity).
  rewrite E1, E2, E in H. apply andb_prop in H. destruct H as [H1 H2].
  split; intros X; [rewrite X in H1; apply nz_spec in H1; apply H1|rewrite X in H2; apply nz_spec in H2; apply H2];
    apply Qcplus_opp_r.
Qed.
Print Assumptions C15_refuted.

Example C15_example : exists U1 R1 S1 U2 R2 S2 U R S,
  ex_run false 1 ex_F 2 None ex_U = Some (U1, R1, S1) /\
  ex_run false 1 (fun t => ex_F (2 + t)) 3 None U1 = Some (U2, R2, S2) /\
  ex_run false 1 ex_F 5 None ex_U = Some (U, R, S) /\ ueq Qc_ops exP U U2 /\ nth 2 (R 4%Z) (qz 0) <> qz 0.
Proof.
  destruct (ex_run_some false 1 ex_F 2 None ex_U) as (U1 & R1 & S1 & E1); [lia|cbn; lia|].
  destruct (ex_run_some false 1 (fun t => ex_F (2 + t)) 3 None U1) as (U2 & R2 & S2 & E2); [lia|cbn; lia|].
  destruct (ex_run_some false 1 ex_F 5 None ex_U) as (U & R & S & E); [lia|cbn; lia|].
  exists U1, R1, S1, U2, R2, S2, U, R, S. split; [exact E1|]. split; [exact E2|]. split; [exact E|]. split.
  - eapply (C15_restart_partial Qc_ops Qc_is_ring exP expw ex_geom ex_src ex_rec ex_v ex_F ex_U 2 3 1
      ex_visF ex_visF ex_visF false false false None None None);
      [apply Permutation_refl|apply Permutation_refl|apply Permutation_refl|lia|lia|lia|reflexivity|cbn; lia|cbn; lia|cbn; lia|exact E1|exact E2|exact E].
  - assert (H : match ex_run false 1 ex_F 5 None ex_U with Some (_, R, _) => nz (nth 2 (R 4%Z) (qz 0)) | None => false end = true)
      by (vm_compute; reflexivity).
    rewrite E in H. apply nz_spec. exact H.
Qed.

(** C18: ignored locations. *)
Theorem C18_ignored_source (K : ops) (Kr : is_ring K) (P : par K) (pw : nat -> Z * Z) :
  geom_ok K P pw -> Forall (loc_ok K P) (p_src P) -> Forall (loc_ok K P) (p_rec P) ->
  forall (v : arr K) f f' u nt sr vis1 vis2 vrg1 vrg2 cb1 cb2 st1 st2 U1 R1 S1 U2 R2 S2,
  fvis K P pw vis1 -> fvis K P pw vis2 -> (0 < sr)%Z -> (0 <= nt)%Z -> cb_ok nt sr cb1 -> cb_ok nt sr cb2 ->
  (forall t, (0 <= t < nt)%Z ->
     length (f t) = length (p_src P) /\ length (f' t) = length (p_src P) /\
     forall k l, nth_error (p_src P) k = Some l -> (0 <= l)%Z -> nth_error (f t) k = nth_error (f' t) k) ->
  scalar_forward K P pw v vis1 vrg1 sr f nt cb1 st1 u = Some (U1, R1, S1) ->
  scalar_forward K P pw v vis2 vrg2 sr f' nt cb2 st2 u = Some (U2, R2, S2) ->
  ueq K P U1 U2 /\ forall t, R1 t = R2 t.
Proof. exact (forward_ignored_source K Kr P pw). Qed.
Print Assumptions C18_ignored_source.

Theorem C18_ignored_receiver (K : ops) (Kr : is_ring K) (P : par K) (pw : nat -> Z * Z) :
  geom_ok K P pw -> Forall (loc_ok K P) (p_src P) -> Forall (loc_ok K P) (p_rec P) ->
  forall (v : arr K) f u nt sr vis vrg cb st0 U R S,
  fvis K P pw vis -> (0 < sr)%Z -> cb_ok nt sr cb ->
  scalar_forward K P pw v vis vrg sr f nt cb st0 u = Some (U, R, S) ->
  forall k l, nth_error (p_rec P) k = Some l -> (l < 0)%Z -> forall t, nth_error (R t) k = Some 0.
Proof. exact (forward_ignored_receiver K Kr P pw). Qed.
Print Assumptions C18_ignored_receiver.

Theorem C18_ignored_source_gradient (K : ops) (Kr : is_ring K) (P : par K) (pw : nat -> Z * Z) :
  geom_ok K P pw -> Forall (loc_ok K P) (p_src P) -> Forall (loc_ok K P) (p_rec P) ->
  forall (v : arr K) vis store vrg sr gr nt cb g G0 gf gv,
  bvis K P pw vis -> (0 < sr)%Z -> cb_ok nt sr cb ->
  scalar_backward K P pw v vis store vrg sr gr nt cb g = Some (G0, gf, gv) ->
  forall k l, nth_error (p_src P) k = Some l -> (l < 0)%Z -> forall t, nth_error (gf t) k = Some 0.
Proof. exact (backward_ignored_source K Kr P pw). Qed.
Print Assumptions C18_ignored_source_gradient.

Definition ex_F3 (t : Z) : list Qc := [qz (t + 1); qz (-100)].
Example C18_example : exists U1 R1 S1 U2 R2 S2,
  ex_run false 1 ex_F 3 None ex_U = Some (U1, R1, S1) /\
  ex_run false 1 ex_F3 3 None ex_U = Some (U2, R2, S2) /\
  ueq Qc_ops exP U1 U2 /\ nth_error (R1 2%Z) 1 = Some (qz 0) /\ nth 0 (R1 2%Z) (qz 0) <> qz 0.
Proof.
  destruct (ex_run_some false 1 ex_F 3 None ex_U) as (U1 & R1 & S1 & E1); [lia|cbn; lia|].
  destruct (ex_run_some false 1 ex_F3 3 None ex_U) as (U2 & R2 & S2 & E2); [lia|cbn; lia|].
  exists U1, R1, S1, U2, R2, S2. split; [exact E1|]. split; [exact E2|]. split; [|split].
  - eapply (C18_ignored_source Qc_ops Qc_is_ring exP expw ex_geom ex_src ex_rec ex_v ex_F ex_F3 ex_U 3 1
      ex_visF ex_visF false false None None);
      [apply Permutation_refl|apply Permutation_refl|lia|lia|cbn; lia|cbn; lia| |exact E1|exact E2].
    intros t Ht. split; [reflexivity|]. split; [reflexivity|]. intros [|[|k]] l Hk Hl; [reflexivity| |].
    + cbn in Hk. injection Hk as <-. vm_compute in Hl. exfalso. apply Hl. reflexivity.
    + destruct k; reflexivity.
  - eapply (C18_ignored_receiver Qc_ops Qc_is_ring exP expw ex_geom ex_src ex_rec ex_v ex_F ex_U 3 1 ex_visF false None);
      [apply Permutation_refl|lia|cbn; lia|exact E1|reflexivity|reflexivity].
  - assert (H : match ex_run false 1 ex_F 3 None ex_U with Some (_, R, _) => nz (nth 0 (R 2%Z) (qz 0)) | None => false end = true)
      by (vm_compute; reflexivity).
    rewrite E1 in H. apply nz_spec. exact H.
Qed.

(** C41: a zero-step run returns the wavefields it was given, except that the PML fields are
    zeroed where the PML has no effect: at the cells that are not in a layer along that dimension
    (coordinates of the user's wavefields, which include the layers). *)
Theorem C41_zero_steps (K : ops) (Kr : is_ring K) (P : par K) (pw : nat -> Z * Z) :
  geom_ok K P pw -> Forall (loc_ok K P) (p_src P) -> Forall (loc_ok K P) (p_rec P) ->
  forall (v : arr K) f u sr vis vrg cb st0 U R S,
  (0 < sr)%Z -> cb_ok 0 sr cb -> fvis K P pw vis ->
  scalar_forward K P pw v vis vrg sr f 0 cb st0 u = Some (U, R, S) ->
  forall q, In q (upts K P) ->
    s_wfc K U q = s_wfc K u q /\ s_wfp K U q = s_wfp K u q /\
    forall d, (d < length (p_shape P))%nat ->
      s_psi K U d q = (if ((fst (pw d) <=? nth d q 0) && (nth d q 0 <? nth d (p_shape P) 0 - 2 * fd_pad (p_acc P) - snd (pw d)))%Z then 0 else s_psi K u d q) /\
      s_zeta K U d q = (if ((fst (pw d) <=? nth d q 0) && (nth d q 0 <? nth d (p_shape P) 0 - 2 * fd_pad (p_acc P) - snd (pw d)))%Z then 0 else s_zeta K u d q).
Proof. exact (forward_zero_user K Kr P pw). Qed.
Print Assumptions C41_zero_steps.

Example C41_example : exists U R S,
  ex_run false 1 ex_F 0 None ex_U = Some (U, R, S) /\
  s_wfc Qc_ops U [5%Z] = qz 6 /\ s_psi Qc_ops U 0 [1%Z] = qz (-1) /\ s_psi Qc_ops U 0 [3%Z] = qz 0.
Proof.
  destruct (ex_run_some false 1 ex_F 0 None ex_U) as (U & R & S & E); [lia|cbn; lia|].
  exists U, R, S. split; [exact E|].
  pose proof (C41_zero_steps Qc_ops Qc_is_ring exP expw ex_geom ex_src ex_rec ex_v ex_F ex_U 1 ex_visF false None ex_store0 U R S
    ltac:(lia) ltac:(cbn; lia) (Permutation_refl _) E) as H.
  split; [apply (H [5%Z]); vm_compute; tauto|]. split.
  - destruct (H [1%Z]) as (_ & _ & H'); [vm_compute; tauto|]. destruct (H' 0%nat) as [-> _]; [cbn; lia|]. reflexivity.
  - destruct (H [3%Z]) as (_ & _ & H'); [vm_compute; tauto|]. destruct (H' 0%nat) as [-> _]; [cbn; lia|]. reflexivity.
Qed.
