(** * Batches of shots, threads and backward callbacks of the acoustic and elastic propagators: C10, C11, C30. *)
From Coq Require Import List ZArith QArith Qcanon Lia Bool Permutation.
From Verif Require Import Ops Sums Grid Stencil DualNum ScalarModel ScalarRefine ScalarApi ScalarEx ShotsModel
  Stag StagAdj StagKernel StagCell StagRefine StagGrad AcousticModel AcousticThm AcousticEx ElasticModel ElasticThm ElasticEx
  StagRunInst StagShotsModel StagShotsThm StagShotsInst StagShotsEx.
Import ListNotations.
Local Open Scope K_scope.

(** C30, forward: whatever the interleaving of the shots, the wavefields, receiver amplitudes and snapshots of shot [k]
    are those of a run with that shot alone; a model is shared or has one block per shot. *)
Theorem C30_acoustic_forward (nd : nat) (K : ops) (Kr : is_ring K) (P0 : spar (ac_sys nd) K) (pw : nat -> Z * Z) (NS : Z)
    (nsrc nrec : aX -> Z) (srcs recs : aX -> Z -> Z) (kbat bbat : bool) :
  length (sp_shape P0) = nd -> sgeom (ac_sys nd) K P0 pw -> (forall c, (0 <= nsrc c)%Z) -> (forall c, (0 <= nrec c)%Z) ->
  (forall c j, (0 <= j < NS * nsrc c)%Z -> sloc_ok (ac_sys nd) K P0 c (srcs c j)) ->
  (forall c j, (0 <= j < NS * nrec c)%Z -> sloc_ok (ac_sys nd) K P0 c (recs c j)) ->
  forall (dt : K) (kb : aM -> arr K) visA visB kg bg sr f nt cb sched store u k,
  ac_fvis nd K P0 pw true visA -> ac_fvis nd K P0 pw false visB ->
  sfsched_ok (ac_sys nd) (ac_kern nd) NS visA visB sr nt cb sched -> nt_ok nt sr cb -> (0 <= k < NS)%Z ->
  exists U R St U1 R1 St1,
    acoustic_batch_forward nd K P0 nsrc nrec srcs recs kbat bbat pw dt kb kg bg sr f nt cb sched store u = Some (U, R, St) /\
    acoustic_forward nd K (@mkspar (ac_sys nd) K (sp_acc P0) (sp_shape P0) (sp_rd P0) (sp_a P0) (sp_b P0)
        (fun c => map (fun j => srcs c (k * nsrc c + j)%Z) (zrange 0 (nsrc c))) (fun c => map (fun j => recs c (k * nrec c + j)%Z) (zrange 0 (nrec c))))
      pw dt (fun q => if ac_flag kbat bbat q then (fun i => kb q (k * prodZ (sp_shape P0) + i)%Z) else kb q) visA visB kg bg sr
      (fun t c => map (fun j => f t c (k * nsrc c + j)%Z) (zrange 0 (nsrc c))) nt cb (fun q si i => store q si (k * prodZ (sp_shape P0) + i)%Z) (u k)
      = Some (U1, R1, St1) /\
    (forall x p, mn (U k) x p = mn U1 x p) /\ (forall e p, me (U k) e p = me U1 e p) /\
    (forall t c, map (fun j => R t c (k * nrec c + j)%Z) (zrange 0 (nrec c)) = R1 t c) /\
    (forall q si i, (0 <= i < prodZ (sp_shape P0))%Z -> St q si (k * prodZ (sp_shape P0) + i)%Z = St1 q si i).
Proof. exact (acoustic_shots_forward nd K Kr P0 pw NS nsrc nrec srcs recs kbat bbat). Qed.
Print Assumptions C30_acoustic_forward.
Example shots_forward_acoustic_example : exists U R St U1 R1 St1,
  a2_forward true false 2 4 (Some 1%Z) = Some (U, R, St) /\ a2_forward1 true false 2 4 (Some 1%Z) 1 = Some (U1, R1, St1) /\
  [R 3%Z XP 1%Z] = R1 3%Z XP /\ R1 3%Z XP <> [qz 0].
Proof.
  destruct (C30_acoustic_forward 2 Qc_ops Qc_is_ring aexP aexpw 2 a2_nsrc a2_nrec a2_srcs a2_recs true false eq_refl aex_geom a2_nsrc_pos a2_nrec_pos a2_src a2_rec 
    aex_dt a2_md (aexF true) (aexF false) true true 2 a2_f 4 (Some 1%Z) (a2_fsched 2 4 (Some 1%Z)) (fun _ _ _ => qz 0) a2_u 1
    (Permutation_refl _) (Permutation_refl _) (a2_fsched_ok 2 4 (Some 1%Z)) ltac:(unfold nt_ok; lia) ltac:(lia)) as (U & R & St & U1 & R1 & St1 & E1 & E2 & _ & _ & H & _).
  exists U, R, St, U1, R1, St1. split; [exact E1|]. split; [exact E2|]. split; [exact (H 3%Z XP)|].
  assert (X : match a2_forward1 true false 2 4 (Some 1%Z) 1 with Some (_, R, _) => nz (nth 0 (R 3%Z XP) (qz 0)) | None => false end = true)
    by (vm_compute; reflexivity).
  change (a2_forward1 true false 2 4 (Some 1%Z) 1 = Some (U1, R1, St1)) in E2. rewrite E2 in X. apply nz_spec in X. intros Hc. apply X. rewrite Hc. reflexivity.
Qed.

(** C30, backward: the same for the gradients of wavefields and source amplitudes, for any number of threads and
    assignment of shots to threads. *)
Theorem C30_acoustic_backward (nd : nat) (K : ops) (Kr : is_ring K) (P0 : spar (ac_sys nd) K) (pw : nat -> Z * Z) (NS : Z)
    (nsrc nrec : aX -> Z) (srcs recs : aX -> Z -> Z) (kbat bbat : bool) :
  length (sp_shape P0) = nd -> sgeom (ac_sys nd) K P0 pw -> (forall c, (0 <= nsrc c)%Z) -> (forall c, (0 <= nrec c)%Z) ->
  (forall c j, (0 <= j < NS * nsrc c)%Z -> sloc_ok (ac_sys nd) K P0 c (srcs c j)) ->
  (forall c j, (0 <= j < NS * nrec c)%Z -> sloc_ok (ac_sys nd) K P0 c (recs c j)) ->
  sroom (ac_sys nd) K P0 pw -> forall (dt : K) (kb : aM -> arr K) store kg bg sr gr nt g nthr th cb sched visA visB k,
  ac_bvis nd K P0 pw true visA -> ac_bvis nd K P0 pw false visB ->
  sbsched_ok (ac_sys nd) (ac_kern nd) NS visA visB sr nt cb sched -> nt_ok nt sr cb -> (0 <= k < NS)%Z ->
  exists U f gm U1 f1 gm1,
    acoustic_batch_backward nd K P0 nsrc nrec srcs recs kbat bbat pw nthr th dt kb kg bg sr gr nt cb sched store g = Some (U, f, gm) /\
    acoustic_backward nd K (@mkspar (ac_sys nd) K (sp_acc P0) (sp_shape P0) (sp_rd P0) (sp_a P0) (sp_b P0)
        (fun c => map (fun j => srcs c (k * nsrc c + j)%Z) (zrange 0 (nsrc c))) (fun c => map (fun j => recs c (k * nrec c + j)%Z) (zrange 0 (nrec c))))
      pw dt (fun q => if ac_flag kbat bbat q then (fun i => kb q (k * prodZ (sp_shape P0) + i)%Z) else kb q) visA visB kg bg sr
      (fun t c => map (fun j => gr t c (k * nrec c + j)%Z) (zrange 0 (nrec c))) nt cb (fun q si i => store q si (k * prodZ (sp_shape P0) + i)%Z) (g k) = Some (U1, f1, gm1) /\
    (forall x p, mn (U k) x p = mn U1 x p) /\ (forall e p, me (U k) e p = me U1 e p) /\
    (forall t c, map (fun j => f t c (k * nsrc c + j)%Z) (zrange 0 (nsrc c)) = f1 t c).
Proof. exact (acoustic_shots_backward nd K Kr P0 pw NS nsrc nrec srcs recs kbat bbat). Qed.
Print Assumptions C30_acoustic_backward.
Example shots_backward_acoustic_example : exists U f gm U1 f1 gm1,
  a2_backward false true 2 s2_th 1 3 (Some 2%Z) = Some (U, f, gm) /\ a2_backward1 false true 1 3 (Some 2%Z) 1 = Some (U1, f1, gm1) /\
  [f 0%Z XP 2%Z; f 0%Z XP 3%Z] = f1 0%Z XP /\ f1 0%Z XP <> [qz 0; qz 0].
Proof.
  destruct (C30_acoustic_backward 2 Qc_ops Qc_is_ring aexP aexpw 2 a2_nsrc a2_nrec a2_srcs a2_recs false true eq_refl aex_geom a2_nsrc_pos a2_nrec_pos a2_src a2_rec aex_room
    aex_dt a2_md a2_store true true 1 a2_gr 3 a2_g 2 s2_th (Some 2%Z) (a2_bsched 1 3 (Some 2%Z)) (aexB true) (aexB false) 1
    (Permutation_refl _) (Permutation_refl _) (a2_bsched_ok 1 3 (Some 2%Z)) ltac:(unfold nt_ok; lia) ltac:(lia)) as (U & f & gm & U1 & f1 & gm1 & E1 & E2 & _ & _ & H).
  exists U, f, gm, U1, f1, gm1. split; [exact E1|]. split; [exact E2|]. split; [exact (H 0%Z XP)|].
  assert (X : match a2_backward1 false true 1 3 (Some 2%Z) 1 with Some (_, R, _) => nz (nth 0 (R 0%Z XP) (qz 0)) | None => false end = true)
    by (vm_compute; reflexivity).
  change (a2_backward1 false true 1 3 (Some 2%Z) 1 = Some (U1, f1, gm1)) in E2. rewrite E2 in X. apply nz_spec in X. intros Hc. apply X. rewrite Hc. reflexivity.
Qed.

(** C11: the gradient of a model is that of each shot (one block per shot) or the sum over the shots of the gradients of
    the single-shot runs (shared model), whatever the number of threads, the assignment of shots to threads and the
    interleaving; for a shared model and several threads, without backward callback. *)
Theorem C11_acoustic_sum_of_shots (nd : nat) (K : ops) (Kr : is_ring K) (P0 : spar (ac_sys nd) K) (pw : nat -> Z * Z) (NS : Z)
    (nsrc nrec : aX -> Z) (srcs recs : aX -> Z -> Z) (kbat bbat : bool) :
  length (sp_shape P0) = nd -> sgeom (ac_sys nd) K P0 pw -> (forall c, (0 <= nsrc c)%Z) -> (forall c, (0 <= nrec c)%Z) ->
  (forall c j, (0 <= j < NS * nsrc c)%Z -> sloc_ok (ac_sys nd) K P0 c (srcs c j)) ->
  (forall c j, (0 <= j < NS * nrec c)%Z -> sloc_ok (ac_sys nd) K P0 c (recs c j)) ->
  sroom (ac_sys nd) K P0 pw -> forall (dt : K) (kb : aM -> arr K) store kg bg sr gr nt g nthr th cb sched visA visB q,
  ac_bvis nd K P0 pw true visA -> ac_bvis nd K P0 pw false visB ->
  sbsched_ok (ac_sys nd) (ac_kern nd) NS visA visB sr nt cb sched -> nt_ok nt sr cb ->
  (forall s k, (0 <= k < NS)%Z -> (0 <= th s k < nthr)%Z) ->
  ac_flag kg bg q = true -> (ac_flag kbat bbat q = true \/ nthr = 1%Z \/ cb = None) ->
  exists U f gm,
    acoustic_batch_backward nd K P0 nsrc nrec srcs recs kbat bbat pw nthr th dt kb kg bg sr gr nt cb sched store g = Some (U, f, gm) /\
    let gm1 k := gm_of (acoustic_backward nd K (@mkspar (ac_sys nd) K (sp_acc P0) (sp_shape P0) (sp_rd P0) (sp_a P0) (sp_b P0)
        (fun c => map (fun j => srcs c (k * nsrc c + j)%Z) (zrange 0 (nsrc c))) (fun c => map (fun j => recs c (k * nrec c + j)%Z) (zrange 0 (nrec c))))
      pw dt (fun q => if ac_flag kbat bbat q then (fun i => kb q (k * prodZ (sp_shape P0) + i)%Z) else kb q) visA visB kg bg sr
      (fun t c => map (fun j => gr t c (k * nrec c + j)%Z) (zrange 0 (nrec c))) nt cb (fun q si i => store q si (k * prodZ (sp_shape P0) + i)%Z) (g k)) q in
    if ac_flag kbat bbat q
    then forall k i, (0 <= k < NS)%Z -> (0 <= i < prodZ (sp_shape P0))%Z -> gm q (k * prodZ (sp_shape P0) + i)%Z = gm1 k i
    else forall i, (0 <= i < prodZ (sp_shape P0))%Z -> gm q i = sumf (zrange 0 NS) (fun k => gm1 k i).
Proof. exact (acoustic_shots_gradient nd K Kr P0 pw NS nsrc nrec srcs recs kbat bbat). Qed.
Print Assumptions C11_acoustic_sum_of_shots.
Example sum_of_shots_acoustic_example :
  (exists U f gm, a2_backward false true 2 s2_th 1 2 None = Some (U, f, gm) /\
     (forall i, (0 <= i < 20)%Z -> gm MK i = sumf (K := Qc_ops) (zrange 0 2) (fun k => gm_of (a2_backward1 false true 1 2 None k) MK i)) /\
     (forall k i, (0 <= k < 2)%Z -> (0 <= i < 20)%Z -> gm (MB 1) (k * 20 + i)%Z = gm_of (a2_backward1 false true 1 2 None k) (MB 1) i)) /\
  sumf (K := Qc_ops) (zrange 0 2) (fun k => gm_of (a2_backward1 false true 1 2 None k) MK 7%Z) <> qz 0 /\
  gm_of (a2_backward1 false true 1 2 None 1) (MB 1) 7%Z <> qz 0.
Proof.
  split; [|split; apply nz_spec; vm_compute; reflexivity].
  destruct (C11_acoustic_sum_of_shots 2 Qc_ops Qc_is_ring aexP aexpw 2 a2_nsrc a2_nrec a2_srcs a2_recs false true eq_refl aex_geom a2_nsrc_pos a2_nrec_pos a2_src a2_rec aex_room
    aex_dt a2_md a2_store true true 1 a2_gr 2 a2_g 2 s2_th None (a2_bsched 1 2 None) (aexB true) (aexB false) MK
    (Permutation_refl _) (Permutation_refl _) (a2_bsched_ok 1 2 None) ltac:(unfold nt_ok; lia) s2_th_ok eq_refl (or_intror (or_intror eq_refl))) as (U & f & gm & E & H).
  destruct (C11_acoustic_sum_of_shots 2 Qc_ops Qc_is_ring aexP aexpw 2 a2_nsrc a2_nrec a2_srcs a2_recs false true eq_refl aex_geom a2_nsrc_pos a2_nrec_pos a2_src a2_rec aex_room
    aex_dt a2_md a2_store true true 1 a2_gr 2 a2_g 2 s2_th None (a2_bsched 1 2 None) (aexB true) (aexB false) (MB 1)
    (Permutation_refl _) (Permutation_refl _) (a2_bsched_ok 1 2 None) ltac:(unfold nt_ok; lia) s2_th_ok eq_refl (or_introl eq_refl)) as (U' & f' & gm' & E' & H').
  assert (W : (U, f, gm) = (U', f', gm')) by (apply (f_equal (fun o => match o with Some v => v | None => (U, f, gm) end)) in E; cbv beta iota in E;
    rewrite <- E; rewrite E'; reflexivity).
  exists U, f, gm. split; [exact E|]. split; [exact H|]. inversion W. exact H'.
Qed.

(** C11: two runs without callbacks that differ in threads, schedule and visiting order agree. *)
Theorem C11_acoustic_any_threads (nd : nat) (K : ops) (Kr : is_ring K) (P0 : spar (ac_sys nd) K) (pw : nat -> Z * Z) (NS : Z)
    (nsrc nrec : aX -> Z) (srcs recs : aX -> Z -> Z) (kbat bbat : bool) :
  length (sp_shape P0) = nd -> sgeom (ac_sys nd) K P0 pw -> (forall c, (0 <= nsrc c)%Z) -> (forall c, (0 <= nrec c)%Z) ->
  (forall c j, (0 <= j < NS * nsrc c)%Z -> sloc_ok (ac_sys nd) K P0 c (srcs c j)) ->
  (forall c j, (0 <= j < NS * nrec c)%Z -> sloc_ok (ac_sys nd) K P0 c (recs c j)) ->
  sroom (ac_sys nd) K P0 pw -> forall (dt : K) (kb : aM -> arr K) store kg bg sr gr nt g nthr th sched visA visB nthr' th' sched' visA' visB',
  ac_bvis nd K P0 pw true visA -> ac_bvis nd K P0 pw false visB ->
  sbsched_ok (ac_sys nd) (ac_kern nd) NS visA visB sr nt None sched -> nt_ok nt sr None ->
  ac_bvis nd K P0 pw true visA' -> ac_bvis nd K P0 pw false visB' ->
  sbsched_ok (ac_sys nd) (ac_kern nd) NS visA' visB' sr nt None sched' -> nt_ok nt sr None ->
  (forall s k, (0 <= k < NS)%Z -> (0 <= th s k < nthr)%Z) ->
  (forall s k, (0 <= k < NS)%Z -> (0 <= th' s k < nthr')%Z) ->
  exists U f gm U' f' gm',
    acoustic_batch_backward nd K P0 nsrc nrec srcs recs kbat bbat pw nthr th dt kb kg bg sr gr nt None sched store g = Some (U, f, gm) /\
    acoustic_batch_backward nd K P0 nsrc nrec srcs recs kbat bbat pw nthr' th' dt kb kg bg sr gr nt None sched' store g = Some (U', f', gm') /\
    (forall k, (0 <= k < NS)%Z -> sseq (ac_sys nd) K (U k) (U' k)) /\
    (forall t c j, In c (ac_allX nd) -> (0 <= j < NS * nsrc c)%Z -> f t c j = f' t c j) /\
    (forall q i, ac_models nd q -> ac_flag kg bg q = true -> (0 <= i < (if ac_flag kbat bbat q then NS else 1) * prodZ (sp_shape P0))%Z -> gm q i = gm' q i).
Proof. exact (acoustic_shots_any nd K Kr P0 pw NS nsrc nrec srcs recs kbat bbat). Qed.
Print Assumptions C11_acoustic_any_threads.
Example any_threads_acoustic_example :
  (exists U f gm U' f' gm', a2_backward false false 2 s2_th 1 2 None = Some (U, f, gm) /\
     a2_backward false false 3 (fun _ k => (2 * k)%Z) 1 2 None = Some (U', f', gm') /\
     forall i, (0 <= i < 1 * 20)%Z -> gm MK i = gm' MK i) /\
  gm_of (a2_backward false false 2 s2_th 1 2 None) MK 7%Z <> qz 0.
Proof.
  split; [|apply nz_spec; vm_compute; reflexivity].
  destruct (C11_acoustic_any_threads 2 Qc_ops Qc_is_ring aexP aexpw 2 a2_nsrc a2_nrec a2_srcs a2_recs false false eq_refl aex_geom a2_nsrc_pos a2_nrec_pos a2_src a2_rec aex_room
    aex_dt a2_md a2_store true true 1 a2_gr 2 a2_g 2 s2_th (a2_bsched 1 2 None) (aexB true) (aexB false)
    3 (fun _ k => (2 * k)%Z) (a2_bsched 1 2 None) (aexB true) (aexB false)
    (Permutation_refl _) (Permutation_refl _) (a2_bsched_ok 1 2 None) ltac:(unfold nt_ok; lia) (Permutation_refl _) (Permutation_refl _) (a2_bsched_ok 1 2 None) ltac:(unfold nt_ok; lia) s2_th_ok ltac:(intros; lia))
    as (U & f & gm & U' & f' & gm' & E & E' & _ & _ & H).
  exists U, f, gm, U', f', gm'. split; [exact E|]. split; [exact E'|]. intros i. exact (H MK i I eq_refl).
Qed.

(** C10: gradients of wavefields and sources do not depend on the backward callback frequency (nor on threads, schedules,
    visiting orders). *)
Theorem C10_acoustic_other_gradients (nd : nat) (K : ops) (Kr : is_ring K) (P0 : spar (ac_sys nd) K) (pw : nat -> Z * Z) (NS : Z)
    (nsrc nrec : aX -> Z) (srcs recs : aX -> Z -> Z) (kbat bbat : bool) :
  length (sp_shape P0) = nd -> sgeom (ac_sys nd) K P0 pw -> (forall c, (0 <= nsrc c)%Z) -> (forall c, (0 <= nrec c)%Z) ->
  (forall c j, (0 <= j < NS * nsrc c)%Z -> sloc_ok (ac_sys nd) K P0 c (srcs c j)) ->
  (forall c j, (0 <= j < NS * nrec c)%Z -> sloc_ok (ac_sys nd) K P0 c (recs c j)) ->
  sroom (ac_sys nd) K P0 pw -> forall (dt : K) (kb : aM -> arr K) store kg bg sr gr nt g nthr th cb sched visA visB nthr' th' cb' sched' visA' visB',
  ac_bvis nd K P0 pw true visA -> ac_bvis nd K P0 pw false visB ->
  sbsched_ok (ac_sys nd) (ac_kern nd) NS visA visB sr nt cb sched -> nt_ok nt sr cb ->
  ac_bvis nd K P0 pw true visA' -> ac_bvis nd K P0 pw false visB' ->
  sbsched_ok (ac_sys nd) (ac_kern nd) NS visA' visB' sr nt cb' sched' -> nt_ok nt sr cb' ->
  exists U f gm U' f' gm',
    acoustic_batch_backward nd K P0 nsrc nrec srcs recs kbat bbat pw nthr th dt kb kg bg sr gr nt cb sched store g = Some (U, f, gm) /\
    acoustic_batch_backward nd K P0 nsrc nrec srcs recs kbat bbat pw nthr' th' dt kb kg bg sr gr nt cb' sched' store g = Some (U', f', gm') /\
    (forall k, (0 <= k < NS)%Z -> sseq (ac_sys nd) K (U k) (U' k)) /\
    (forall t c j, In c (ac_allX nd) -> (0 <= j < NS * nsrc c)%Z -> f t c j = f' t c j).
Proof. exact (acoustic_shots_other nd K Kr P0 pw NS nsrc nrec srcs recs kbat bbat). Qed.
Print Assumptions C10_acoustic_other_gradients.
Example other_gradients_acoustic_example : exists U f gm U' f' gm',
  a2_backward false true 2 s2_th 1 3 None = Some (U, f, gm) /\ a2_backward false true 2 s2_th 1 3 (Some 2%Z) = Some (U', f', gm') /\
  f 0%Z XP 2%Z = f' 0%Z XP 2%Z /\ f 0%Z XP 2%Z <> qz 0.
Proof.
  destruct (C10_acoustic_other_gradients 2 Qc_ops Qc_is_ring aexP aexpw 2 a2_nsrc a2_nrec a2_srcs a2_recs false true eq_refl aex_geom a2_nsrc_pos a2_nrec_pos a2_src a2_rec aex_room
    aex_dt a2_md a2_store true true 1 a2_gr 3 a2_g 2 s2_th None (a2_bsched 1 3 None) (aexB true) (aexB false)
    2 s2_th (Some 2%Z) (a2_bsched 1 3 (Some 2%Z)) (aexB true) (aexB false)
    (Permutation_refl _) (Permutation_refl _) (a2_bsched_ok 1 3 None) ltac:(unfold nt_ok; lia) (Permutation_refl _) (Permutation_refl _) (a2_bsched_ok 1 3 (Some 2%Z)) ltac:(unfold nt_ok; lia) )
    as (U & f & gm & U' & f' & gm' & E & E' & _ & H).
  exists U, f, gm, U', f', gm'. split; [exact E|]. split; [exact E'|]. split; [apply H; [vm_compute; tauto|cbn; lia]|].
  destruct (C30_acoustic_backward 2 Qc_ops Qc_is_ring aexP aexpw 2 a2_nsrc a2_nrec a2_srcs a2_recs false true eq_refl aex_geom a2_nsrc_pos a2_nrec_pos a2_src a2_rec aex_room
    aex_dt a2_md a2_store true true 1 a2_gr 3 a2_g 2 s2_th None (a2_bsched 1 3 None) (aexB true) (aexB false) 1
    (Permutation_refl _) (Permutation_refl _) (a2_bsched_ok 1 3 None) ltac:(unfold nt_ok; lia) ltac:(lia)) as (V & e & gn & U1 & f1 & gm1 & F1 & F2 & _ & _ & Hf).
  assert (X : match a2_backward1 false true 1 3 None 1 with Some (_, R, _) => nz (nth 0 (R 0%Z XP) (qz 0)) | None => false end = true)
    by (vm_compute; reflexivity).
  change (a2_backward1 false true 1 3 None 1 = Some (U1, f1, gm1)) in F2. rewrite F2 in X. apply nz_spec in X.
  assert (W : f = e) by (apply (f_equal (fun o => match o with Some (_, v, _) => v | None => f end)) in E; cbv beta iota in E;
    rewrite <- E; rewrite F1; reflexivity).
  intros Hc. apply X. rewrite <- (Hf 0%Z XP). rewrite <- W. exact Hc.
Qed.

(** C10, model gradient, for a model with one block per shot or one thread.  Missing: a shared model with several
    threads, where the statement is false ([C10_acoustic_threads_refuted]). *)
Theorem C10_acoustic_model_gradient_partial (nd : nat) (K : ops) (Kr : is_ring K) (P0 : spar (ac_sys nd) K) (pw : nat -> Z * Z) (NS : Z)
    (nsrc nrec : aX -> Z) (srcs recs : aX -> Z -> Z) (kbat bbat : bool) :
  length (sp_shape P0) = nd -> sgeom (ac_sys nd) K P0 pw -> (forall c, (0 <= nsrc c)%Z) -> (forall c, (0 <= nrec c)%Z) ->
  (forall c j, (0 <= j < NS * nsrc c)%Z -> sloc_ok (ac_sys nd) K P0 c (srcs c j)) ->
  (forall c j, (0 <= j < NS * nrec c)%Z -> sloc_ok (ac_sys nd) K P0 c (recs c j)) ->
  sroom (ac_sys nd) K P0 pw -> forall (dt : K) (kb : aM -> arr K) store kg bg sr gr nt g nthr th cb sched visA visB nthr' th' sched' visA' visB',
  ac_bvis nd K P0 pw true visA -> ac_bvis nd K P0 pw false visB ->
  sbsched_ok (ac_sys nd) (ac_kern nd) NS visA visB sr nt cb sched -> nt_ok nt sr cb ->
  ac_bvis nd K P0 pw true visA' -> ac_bvis nd K P0 pw false visB' ->
  sbsched_ok (ac_sys nd) (ac_kern nd) NS visA' visB' sr nt None sched' -> nt_ok nt sr None ->
  (forall s k, (0 <= k < NS)%Z -> (0 <= th s k < nthr)%Z) ->
  (forall s k, (0 <= k < NS)%Z -> (0 <= th' s k < nthr')%Z) ->
  exists U f gm U' f' gm',
    acoustic_batch_backward nd K P0 nsrc nrec srcs recs kbat bbat pw nthr th dt kb kg bg sr gr nt cb sched store g = Some (U, f, gm) /\
    acoustic_batch_backward nd K P0 nsrc nrec srcs recs kbat bbat pw nthr' th' dt kb kg bg sr gr nt None sched' store g = Some (U', f', gm') /\
    (forall q i, ac_models nd q -> ac_flag kg bg q = true -> ac_flag kbat bbat q = true \/ nthr = 1%Z ->
      (0 <= i < (if ac_flag kbat bbat q then NS else 1) * prodZ (sp_shape P0))%Z -> gm q i = gm' q i).
Proof. exact (acoustic_shots_model nd K Kr P0 pw NS nsrc nrec srcs recs kbat bbat). Qed.
Print Assumptions C10_acoustic_model_gradient_partial.
Example model_gradient_acoustic_example :
  (exists U f gm U' f' gm', a2_backward false false 1 (fun _ _ => 0%Z) 1 2 (Some 1%Z) = Some (U, f, gm) /\
     a2_backward false false 2 s2_th 1 2 None = Some (U', f', gm') /\ forall i, (0 <= i < 1 * 20)%Z -> gm MK i = gm' MK i) /\
  gm_of (a2_backward false false 2 s2_th 1 2 None) MK 7%Z <> qz 0.
Proof.
  split; [|apply nz_spec; vm_compute; reflexivity].
  destruct (C10_acoustic_model_gradient_partial 2 Qc_ops Qc_is_ring aexP aexpw 2 a2_nsrc a2_nrec a2_srcs a2_recs false false eq_refl aex_geom a2_nsrc_pos a2_nrec_pos a2_src a2_rec aex_room
    aex_dt a2_md a2_store true true 1 a2_gr 2 a2_g 1 (fun _ _ => 0%Z) (Some 1%Z) (a2_bsched 1 2 (Some 1%Z)) (aexB true) (aexB false)
    2 s2_th (a2_bsched 1 2 None) (aexB true) (aexB false)
    (Permutation_refl _) (Permutation_refl _) (a2_bsched_ok 1 2 (Some 1%Z)) ltac:(unfold nt_ok; lia) (Permutation_refl _) (Permutation_refl _) (a2_bsched_ok 1 2 None) ltac:(unfold nt_ok; lia) ltac:(intros; lia) s2_th_ok)
    as (U & f & gm & U' & f' & gm' & E & E' & H).
  exists U, f, gm, U', f', gm'. split; [exact E|]. split; [exact E'|]. intros i. exact (H MK i I eq_refl (or_intror eq_refl)).
Qed.

(** C10 is false for a shared model and several threads: the per-thread buffers are not cleared between calls, so each
    call adds everything accumulated so far again (acoustic.py:1160-1231, acoustic.c:1226-1243; elastic.py:1762-1900,
    elastic.c:2199-2250).  Two shots, two threads, two steps, frequency 1. *)
Theorem C10_acoustic_threads_refuted : exists (P0 : spar (ac_sys 2) Qc_ops) pw nsrc nrec srcs recs dt kb store gr g visA visB sched sched' i,
  length (sp_shape P0) = 2%nat /\ sgeom (ac_sys 2) Qc_ops P0 pw /\ sroom (ac_sys 2) Qc_ops P0 pw /\
  (forall c, (0 <= nsrc c)%Z) /\ (forall c, (0 <= nrec c)%Z) /\
  (forall c j, (0 <= j < 2 * nsrc c)%Z -> sloc_ok (ac_sys 2) Qc_ops P0 c (srcs c j)) /\
  (forall c j, (0 <= j < 2 * nrec c)%Z -> sloc_ok (ac_sys 2) Qc_ops P0 c (recs c j)) /\
  ac_bvis 2 Qc_ops P0 pw true visA /\ ac_bvis 2 Qc_ops P0 pw false visB /\
  sbsched_ok (ac_sys 2) (ac_kern 2) 2 visA visB 1 2 None sched /\ sbsched_ok (ac_sys 2) (ac_kern 2) 2 visA visB 1 2 (Some 1%Z) sched' /\
  exists U f gm U' f' gm',
    acoustic_batch_backward 2 Qc_ops P0 nsrc nrec srcs recs false false pw 2 (fun _ k => k) dt kb true true 1 gr 2 None sched store g = Some (U, f, gm) /\
    acoustic_batch_backward 2 Qc_ops P0 nsrc nrec srcs recs false false pw 2 (fun _ k => k) dt kb true true 1 gr 2 (Some 1%Z) sched' store g = Some (U', f', gm') /\
    (0 <= i < prodZ (sp_shape P0))%Z /\ gm MK i <> gm' MK i.
Proof.
  exists aexP, aexpw, a2_nsrc, a2_nrec, a2_srcs, a2_recs, aex_dt, a2_md, a2_store, a2_gr, a2_g, (aexB true), (aexB false),
    (a2_bsched 1 2 None), (a2_bsched 1 2 (Some 1%Z)), 6%Z.
  split; [reflexivity|]. split; [exact aex_geom|]. split; [exact aex_room|]. split; [exact a2_nsrc_pos|]. split; [exact a2_nrec_pos|].
  split; [exact a2_src|]. split; [exact a2_rec|]. split; [apply Permutation_refl|]. split; [apply Permutation_refl|].
  split; [apply a2_bsched_ok|]. split; [apply a2_bsched_ok|].
  assert (X : match a2_backward false false 2 (fun _ k => k) 1 2 None, a2_backward false false 2 (fun _ k => k) 1 2 (Some 1%Z) with
    | Some (_, _, gm), Some (_, _, gm') => nz (gm MK 6%Z - gm' MK 6%Z)%Qc | _, _ => false end = true) by (vm_compute; reflexivity).
  unfold a2_backward in X.
  destruct (acoustic_batch_backward 2 Qc_ops aexP a2_nsrc a2_nrec a2_srcs a2_recs false false aexpw 2 (fun _ k => k) aex_dt a2_md true true 1 a2_gr 2 None _ _ _)
    as [[[U f] gm]|]; [|discriminate X].
  destruct (acoustic_batch_backward 2 Qc_ops aexP a2_nsrc a2_nrec a2_srcs a2_recs false false aexpw 2 (fun _ k => k) aex_dt a2_md true true 1 a2_gr 2 (Some 1%Z) _ _ _)
    as [[[U' f'] gm']|]; [|discriminate X].
  exists U, f, gm, U', f', gm'. split; [reflexivity|]. split; [reflexivity|]. split; [split; [lia|reflexivity]|].
  apply nz_spec in X. intros Hc. apply X. rewrite Hc. apply Qcplus_opp_r.
Qed.
Print Assumptions C10_acoustic_threads_refuted.

(** C30, forward: whatever the interleaving of the shots, the wavefields, receiver amplitudes and snapshots of shot [k]
    are those of a run with that shot alone; a model is shared or has one block per shot. *)
Theorem C30_elastic_forward (nd : nat) (K : ops) (Kr : is_ring K) (P0 : spar (el_sys nd) K) (pw : nat -> Z * Z) (NS : Z)
    (nsrc nrec : eC -> Z) (srcs recs : eC -> Z -> Z) (lbat mbat bbat : bool) :
  length (sp_shape P0) = nd -> (0 < nd)%nat -> sgeom (el_sys nd) K P0 pw -> (forall c, (0 <= nsrc c)%Z) -> (forall c, (0 <= nrec c)%Z) ->
  (forall c j, (0 <= j < NS * nsrc c)%Z -> sloc_ok (el_sys nd) K P0 c (srcs c j)) ->
  (forall c j, (0 <= j < NS * nrec c)%Z -> sloc_ok (el_sys nd) K P0 c (recs c j)) ->
  forall (dt : K) (md : eM -> arr K) visA visB lg mg bg sr f nt cb sched store u k,
  el_fvis nd K P0 pw true visA -> el_fvis nd K P0 pw false visB ->
  sfsched_ok (el_sys nd) (el_kern nd) NS visA visB sr nt cb sched -> nt_ok nt sr cb -> (0 <= k < NS)%Z ->
  exists U R St U1 R1 St1,
    elastic_batch_forward nd K P0 nsrc nrec srcs recs lbat mbat bbat pw dt md lg mg bg sr f nt cb sched store u = Some (U, R, St) /\
    elastic_forward nd K (@mkspar (el_sys nd) K (sp_acc P0) (sp_shape P0) (sp_rd P0) (sp_a P0) (sp_b P0)
        (fun c => map (fun j => srcs c (k * nsrc c + j)%Z) (zrange 0 (nsrc c))) (fun c => map (fun j => recs c (k * nrec c + j)%Z) (zrange 0 (nrec c))))
      pw dt (fun q => if el_fm lbat mbat bbat q then (fun i => md q (k * prodZ (sp_shape P0) + i)%Z) else md q) visA visB lg mg bg sr
      (fun t c => map (fun j => f t c (k * nsrc c + j)%Z) (zrange 0 (nsrc c))) nt cb (fun q si i => store q si (k * prodZ (sp_shape P0) + i)%Z) (u k)
      = Some (U1, R1, St1) /\
    (forall x p, mn (U k) x p = mn U1 x p) /\ (forall e p, me (U k) e p = me U1 e p) /\
    (forall t c, map (fun j => R t c (k * nrec c + j)%Z) (zrange 0 (nrec c)) = R1 t c) /\
    (forall q si i, (0 <= i < prodZ (sp_shape P0))%Z -> St q si (k * prodZ (sp_shape P0) + i)%Z = St1 q si i).
Proof. exact (elastic_shots_forward nd K Kr P0 pw NS nsrc nrec srcs recs lbat mbat bbat). Qed.
Print Assumptions C30_elastic_forward.
Example shots_forward_elastic_example : exists U R St U1 R1 St1,
  e2_forward true false true 2 4 (Some 1%Z) = Some (U, R, St) /\ e2_forward1 true false true 2 4 (Some 1%Z) 1 = Some (U1, R1, St1) /\
  [R 3%Z CP 1%Z] = R1 3%Z CP /\ R1 3%Z CP <> [qz 0].
Proof.
  destruct (C30_elastic_forward 2 Qc_ops Qc_is_ring eexP aexpw 2 e2_nsrc e2_nrec e2_srcs e2_recs true false true eq_refl ltac:(lia) eex_geom e2_nsrc_pos e2_nrec_pos e2_src e2_rec 
    eex_dt e2_md (eexF true) (eexF false) true true true 2 e2_f 4 (Some 1%Z) (e2_fsched 2 4 (Some 1%Z)) (fun _ _ _ => qz 0) e2_u 1
    (Permutation_refl _) (Permutation_refl _) (e2_fsched_ok 2 4 (Some 1%Z)) ltac:(unfold nt_ok; lia) ltac:(lia)) as (U & R & St & U1 & R1 & St1 & E1 & E2 & _ & _ & H & _).
  exists U, R, St, U1, R1, St1. split; [exact E1|]. split; [exact E2|]. split; [exact (H 3%Z CP)|].
  assert (X : match e2_forward1 true false true 2 4 (Some 1%Z) 1 with Some (_, R, _) => nz (nth 0 (R 3%Z CP) (qz 0)) | None => false end = true)
    by (vm_compute; reflexivity).
  change (e2_forward1 true false true 2 4 (Some 1%Z) 1 = Some (U1, R1, St1)) in E2. rewrite E2 in X. apply nz_spec in X. intros Hc. apply X. rewrite Hc. reflexivity.
Qed.

(** C30, backward: the same for the gradients of wavefields and source amplitudes, for any number of threads and
    assignment of shots to threads. *)
Theorem C30_elastic_backward (nd : nat) (K : ops) (Kr : is_ring K) (P0 : spar (el_sys nd) K) (pw : nat -> Z * Z) (NS : Z)
    (nsrc nrec : eC -> Z) (srcs recs : eC -> Z -> Z) (lbat mbat bbat : bool) :
  length (sp_shape P0) = nd -> (0 < nd)%nat -> sgeom (el_sys nd) K P0 pw -> (forall c, (0 <= nsrc c)%Z) -> (forall c, (0 <= nrec c)%Z) ->
  (forall c j, (0 <= j < NS * nsrc c)%Z -> sloc_ok (el_sys nd) K P0 c (srcs c j)) ->
  (forall c j, (0 <= j < NS * nrec c)%Z -> sloc_ok (el_sys nd) K P0 c (recs c j)) ->
  sroom (el_sys nd) K P0 pw -> forall (dt : K) (md : eM -> arr K) store lg mg bg sr gr nt g nthr th cb sched visA visB k,
  el_bvis nd K P0 pw true visA -> el_bvis nd K P0 pw false visB ->
  sbsched_ok (el_sys nd) (el_kern nd) NS visA visB sr nt cb sched -> nt_ok nt sr cb -> (0 <= k < NS)%Z ->
  exists U f gm U1 f1 gm1,
    elastic_batch_backward nd K P0 nsrc nrec srcs recs lbat mbat bbat pw nthr th dt md lg mg bg sr gr nt cb sched store g = Some (U, f, gm) /\
    elastic_backward nd K (@mkspar (el_sys nd) K (sp_acc P0) (sp_shape P0) (sp_rd P0) (sp_a P0) (sp_b P0)
        (fun c => map (fun j => srcs c (k * nsrc c + j)%Z) (zrange 0 (nsrc c))) (fun c => map (fun j => recs c (k * nrec c + j)%Z) (zrange 0 (nrec c))))
      pw dt (fun q => if el_fm lbat mbat bbat q then (fun i => md q (k * prodZ (sp_shape P0) + i)%Z) else md q) visA visB lg mg bg sr
      (fun t c => map (fun j => gr t c (k * nrec c + j)%Z) (zrange 0 (nrec c))) nt cb (fun q si i => store q si (k * prodZ (sp_shape P0) + i)%Z) (g k) = Some (U1, f1, gm1) /\
    (forall x p, mn (U k) x p = mn U1 x p) /\ (forall e p, me (U k) e p = me U1 e p) /\
    (forall t c, map (fun j => f t c (k * nsrc c + j)%Z) (zrange 0 (nsrc c)) = f1 t c).
Proof. exact (elastic_shots_backward nd K Kr P0 pw NS nsrc nrec srcs recs lbat mbat bbat). Qed.
Print Assumptions C30_elastic_backward.
Example shots_backward_elastic_example : exists U f gm U1 f1 gm1,
  e2_backward false true false 2 s2_th 1 3 (Some 2%Z) = Some (U, f, gm) /\ e2_backward1 false true false 1 3 (Some 2%Z) 1 = Some (U1, f1, gm1) /\
  [f 0%Z CP 2%Z; f 0%Z CP 3%Z] = f1 0%Z CP /\ f1 0%Z CP <> [qz 0; qz 0].
Proof.
  destruct (C30_elastic_backward 2 Qc_ops Qc_is_ring eexP aexpw 2 e2_nsrc e2_nrec e2_srcs e2_recs false true false eq_refl ltac:(lia) eex_geom e2_nsrc_pos e2_nrec_pos e2_src e2_rec eex_room
    eex_dt e2_md e2_store true true true 1 e2_gr 3 e2_g 2 s2_th (Some 2%Z) (e2_bsched 1 3 (Some 2%Z)) (eexB true) (eexB false) 1
    (Permutation_refl _) (Permutation_refl _) (e2_bsched_ok 1 3 (Some 2%Z)) ltac:(unfold nt_ok; lia) ltac:(lia)) as (U & f & gm & U1 & f1 & gm1 & E1 & E2 & _ & _ & H).
  exists U, f, gm, U1, f1, gm1. split; [exact E1|]. split; [exact E2|]. split; [exact (H 0%Z CP)|].
  assert (X : match e2_backward1 false true false 1 3 (Some 2%Z) 1 with Some (_, R, _) => nz (nth 0 (R 0%Z CP) (qz 0)) | None => false end = true)
    by (vm_compute; reflexivity).
  change (e2_backward1 false true false 1 3 (Some 2%Z) 1 = Some (U1, f1, gm1)) in E2. rewrite E2 in X. apply nz_spec in X. intros Hc. apply X. rewrite Hc. reflexivity.
Qed.

(** C11: the gradient of a model is that of each shot (one block per shot) or the sum over the shots of the gradients of
    the single-shot runs (shared model), whatever the number of threads, the assignment of shots to threads and the
    interleaving; for a shared model and several threads, without backward callback. *)
Theorem C11_elastic_sum_of_shots (nd : nat) (K : ops) (Kr : is_ring K) (P0 : spar (el_sys nd) K) (pw : nat -> Z * Z) (NS : Z)
    (nsrc nrec : eC -> Z) (srcs recs : eC -> Z -> Z) (lbat mbat bbat : bool) :
  length (sp_shape P0) = nd -> (0 < nd)%nat -> sgeom (el_sys nd) K P0 pw -> (forall c, (0 <= nsrc c)%Z) -> (forall c, (0 <= nrec c)%Z) ->
  (forall c j, (0 <= j < NS * nsrc c)%Z -> sloc_ok (el_sys nd) K P0 c (srcs c j)) ->
  (forall c j, (0 <= j < NS * nrec c)%Z -> sloc_ok (el_sys nd) K P0 c (recs c j)) ->
  sroom (el_sys nd) K P0 pw -> forall (dt : K) (md : eM -> arr K) store lg mg bg sr gr nt g nthr th cb sched visA visB q,
  el_bvis nd K P0 pw true visA -> el_bvis nd K P0 pw false visB ->
  sbsched_ok (el_sys nd) (el_kern nd) NS visA visB sr nt cb sched -> nt_ok nt sr cb ->
  (forall s k, (0 <= k < NS)%Z -> (0 <= th s k < nthr)%Z) ->
  el_fm lg mg bg q = true -> (el_fm lbat mbat bbat q = true \/ nthr = 1%Z \/ cb = None) ->
  exists U f gm,
    elastic_batch_backward nd K P0 nsrc nrec srcs recs lbat mbat bbat pw nthr th dt md lg mg bg sr gr nt cb sched store g = Some (U, f, gm) /\
    let gm1 k := gm_of (elastic_backward nd K (@mkspar (el_sys nd) K (sp_acc P0) (sp_shape P0) (sp_rd P0) (sp_a P0) (sp_b P0)
        (fun c => map (fun j => srcs c (k * nsrc c + j)%Z) (zrange 0 (nsrc c))) (fun c => map (fun j => recs c (k * nrec c + j)%Z) (zrange 0 (nrec c))))
      pw dt (fun q => if el_fm lbat mbat bbat q then (fun i => md q (k * prodZ (sp_shape P0) + i)%Z) else md q) visA visB lg mg bg sr
      (fun t c => map (fun j => gr t c (k * nrec c + j)%Z) (zrange 0 (nrec c))) nt cb (fun q si i => store q si (k * prodZ (sp_shape P0) + i)%Z) (g k)) q in
    if el_fm lbat mbat bbat q
    then forall k i, (0 <= k < NS)%Z -> (0 <= i < prodZ (sp_shape P0))%Z -> gm q (k * prodZ (sp_shape P0) + i)%Z = gm1 k i
    else forall i, (0 <= i < prodZ (sp_shape P0))%Z -> gm q i = sumf (zrange 0 NS) (fun k => gm1 k i).
Proof. exact (elastic_shots_gradient nd K Kr P0 pw NS nsrc nrec srcs recs lbat mbat bbat). Qed.
Print Assumptions C11_elastic_sum_of_shots.
Example sum_of_shots_elastic_example :
  (exists U f gm, e2_backward false true false 2 s2_th 1 2 None = Some (U, f, gm) /\
     (forall i, (0 <= i < 20)%Z -> gm ML i = sumf (K := Qc_ops) (zrange 0 2) (fun k => gm_of (e2_backward1 false true false 1 2 None k) ML i)) /\
     (forall k i, (0 <= k < 2)%Z -> (0 <= i < 20)%Z -> gm MMU (k * 20 + i)%Z = gm_of (e2_backward1 false true false 1 2 None k) MMU i)) /\
  sumf (K := Qc_ops) (zrange 0 2) (fun k => gm_of (e2_backward1 false true false 1 2 None k) ML 7%Z) <> qz 0 /\
  gm_of (e2_backward1 false true false 1 2 None 1) MMU 7%Z <> qz 0.
Proof.
  split; [|split; apply nz_spec; vm_compute; reflexivity].
  destruct (C11_elastic_sum_of_shots 2 Qc_ops Qc_is_ring eexP aexpw 2 e2_nsrc e2_nrec e2_srcs e2_recs false true false eq_refl ltac:(lia) eex_geom e2_nsrc_pos e2_nrec_pos e2_src e2_rec eex_room
    eex_dt e2_md e2_store true true true 1 e2_gr 2 e2_g 2 s2_th None (e2_bsched 1 2 None) (eexB true) (eexB false) ML
    (Permutation_refl _) (Permutation_refl _) (e2_bsched_ok 1 2 None) ltac:(unfold nt_ok; lia) s2_th_ok eq_refl (or_intror (or_intror eq_refl))) as (U & f & gm & E & H).
  destruct (C11_elastic_sum_of_shots 2 Qc_ops Qc_is_ring eexP aexpw 2 e2_nsrc e2_nrec e2_srcs e2_recs false true false eq_refl ltac:(lia) eex_geom e2_nsrc_pos e2_nrec_pos e2_src e2_rec eex_room
    eex_dt e2_md e2_store true true true 1 e2_gr 2 e2_g 2 s2_th None (e2_bsched 1 2 None) (eexB true) (eexB false) MMU
    (Permutation_refl _) (Permutation_refl _) (e2_bsched_ok 1 2 None) ltac:(unfold nt_ok; lia) s2_th_ok eq_refl (or_introl eq_refl)) as (U' & f' & gm' & E' & H').
  assert (W : (U, f, gm) = (U', f', gm')) by (apply (f_equal (fun o => match o with Some v => v | None => (U, f, gm) end)) in E; cbv beta iota in E;
    rewrite <- E; rewrite E'; reflexivity).
  exists U, f, gm. split; [exact E|]. split; [exact H|]. inversion W. exact H'.
Qed.

(** C11: two runs without callbacks that differ in threads, schedule and visiting order agree. *)
Theorem C11_elastic_any_threads (nd : nat) (K : ops) (Kr : is_ring K) (P0 : spar (el_sys nd) K) (pw : nat -> Z * Z) (NS : Z)
    (nsrc nrec : eC -> Z) (srcs recs : eC -> Z -> Z) (lbat mbat bbat : bool) :
  length (sp_shape P0) = nd -> (0 < nd)%nat -> sgeom (el_sys nd) K P0 pw -> (forall c, (0 <= nsrc c)%Z) -> (forall c, (0 <= nrec c)%Z) ->
  (forall c j, (0 <= j < NS * nsrc c)%Z -> sloc_ok (el_sys nd) K P0 c (srcs c j)) ->
  (forall c j, (0 <= j < NS * nrec c)%Z -> sloc_ok (el_sys nd) K P0 c (recs c j)) ->
  sroom (el_sys nd) K P0 pw -> forall (dt : K) (md : eM -> arr K) store lg mg bg sr gr nt g nthr th sched visA visB nthr' th' sched' visA' visB',
  el_bvis nd K P0 pw true visA -> el_bvis nd K P0 pw false visB ->
  sbsched_ok (el_sys nd) (el_kern nd) NS visA visB sr nt None sched -> nt_ok nt sr None ->
  el_bvis nd K P0 pw true visA' -> el_bvis nd K P0 pw false visB' ->
  sbsched_ok (el_sys nd) (el_kern nd) NS visA' visB' sr nt None sched' -> nt_ok nt sr None ->
  (forall s k, (0 <= k < NS)%Z -> (0 <= th s k < nthr)%Z) ->
  (forall s k, (0 <= k < NS)%Z -> (0 <= th' s k < nthr')%Z) ->
  exists U f gm U' f' gm',
    elastic_batch_backward nd K P0 nsrc nrec srcs recs lbat mbat bbat pw nthr th dt md lg mg bg sr gr nt None sched store g = Some (U, f, gm) /\
    elastic_batch_backward nd K P0 nsrc nrec srcs recs lbat mbat bbat pw nthr' th' dt md lg mg bg sr gr nt None sched' store g = Some (U', f', gm') /\
    (forall k, (0 <= k < NS)%Z -> sseq (el_sys nd) K (U k) (U' k)) /\
    (forall t c j, In c (el_allC nd) -> (0 <= j < NS * nsrc c)%Z -> f t c j = f' t c j) /\
    (forall q i, el_models nd q -> el_fm lg mg bg q = true -> (0 <= i < (if el_fm lbat mbat bbat q then NS else 1) * prodZ (sp_shape P0))%Z -> gm q i = gm' q i).
Proof. exact (elastic_shots_any nd K Kr P0 pw NS nsrc nrec srcs recs lbat mbat bbat). Qed.
Print Assumptions C11_elastic_any_threads.
Example any_threads_elastic_example :
  (exists U f gm U' f' gm', e2_backward false false false 2 s2_th 1 2 None = Some (U, f, gm) /\
     e2_backward false false false 3 (fun _ k => (2 * k)%Z) 1 2 None = Some (U', f', gm') /\
     forall i, (0 <= i < 1 * 20)%Z -> gm ML i = gm' ML i) /\
  gm_of (e2_backward false false false 2 s2_th 1 2 None) ML 7%Z <> qz 0.
Proof.
  split; [|apply nz_spec; vm_compute; reflexivity].
  destruct (C11_elastic_any_threads 2 Qc_ops Qc_is_ring eexP aexpw 2 e2_nsrc e2_nrec e2_srcs e2_recs false false false eq_refl ltac:(lia) eex_geom e2_nsrc_pos e2_nrec_pos e2_src e2_rec eex_room
    eex_dt e2_md e2_store true true true 1 e2_gr 2 e2_g 2 s2_th (e2_bsched 1 2 None) (eexB true) (eexB false)
    3 (fun _ k => (2 * k)%Z) (e2_bsched 1 2 None) (eexB true) (eexB false)
    (Permutation_refl _) (Permutation_refl _) (e2_bsched_ok 1 2 None) ltac:(unfold nt_ok; lia) (Permutation_refl _) (Permutation_refl _) (e2_bsched_ok 1 2 None) ltac:(unfold nt_ok; lia) s2_th_ok ltac:(intros; lia))
    as (U & f & gm & U' & f' & gm' & E & E' & _ & _ & H).
  exists U, f, gm, U', f', gm'. split; [exact E|]. split; [exact E'|]. intros i. exact (H ML i I eq_refl).
Qed.

(** C10: gradients of wavefields and sources do not depend on the backward callback frequency (nor on threads, schedules,
    visiting orders). *)
Theorem C10_elastic_other_gradients (nd : nat) (K : ops) (Kr : is_ring K) (P0 : spar (el_sys nd) K) (pw : nat -> Z * Z) (NS : Z)
    (nsrc nrec : eC -> Z) (srcs recs : eC -> Z -> Z) (lbat mbat bbat : bool) :
  length (sp_shape P0) = nd -> (0 < nd)%nat -> sgeom (el_sys nd) K P0 pw -> (forall c, (0 <= nsrc c)%Z) -> (forall c, (0 <= nrec c)%Z) ->
  (forall c j, (0 <= j < NS * nsrc c)%Z -> sloc_ok (el_sys nd) K P0 c (srcs c j)) ->
  (forall c j, (0 <= j < NS * nrec c)%Z -> sloc_ok (el_sys nd) K P0 c (recs c j)) ->
  sroom (el_sys nd) K P0 pw -> forall (dt : K) (md : eM -> arr K) store lg mg bg sr gr nt g nthr th cb sched visA visB nthr' th' cb' sched' visA' visB',
  el_bvis nd K P0 pw true visA -> el_bvis nd K P0 pw false visB ->
  sbsched_ok (el_sys nd) (el_kern nd) NS visA visB sr nt cb sched -> nt_ok nt sr cb ->
  el_bvis nd K P0 pw true visA' -> el_bvis nd K P0 pw false visB' ->
  sbsched_ok (el_sys nd) (el_kern nd) NS visA' visB' sr nt cb' sched' -> nt_ok nt sr cb' ->
  exists U f gm U' f' gm',
    elastic_batch_backward nd K P0 nsrc nrec srcs recs lbat mbat bbat pw nthr th dt md lg mg bg sr gr nt cb sched store g = Some (U, f, gm) /\
    elastic_batch_backward nd K P0 nsrc nrec srcs recs lbat mbat bbat pw nthr' th' dt md lg mg bg sr gr nt cb' sched' store g = Some (U', f', gm') /\
    (forall k, (0 <= k < NS)%Z -> sseq (el_sys nd) K (U k) (U' k)) /\
    (forall t c j, In c (el_allC nd) -> (0 <= j < NS * nsrc c)%Z -> f t c j = f' t c j).
Proof. exact (elastic_shots_other nd K Kr P0 pw NS nsrc nrec srcs recs lbat mbat bbat). Qed.
Print Assumptions C10_elastic_other_gradients.
Example other_gradients_elastic_example : exists U f gm U' f' gm',
  e2_backward false true false 2 s2_th 1 3 None = Some (U, f, gm) /\ e2_backward false true false 2 s2_th 1 3 (Some 2%Z) = Some (U', f', gm') /\
  f 0%Z CP 2%Z = f' 0%Z CP 2%Z /\ f 0%Z CP 2%Z <> qz 0.
Proof.
  destruct (C10_elastic_other_gradients 2 Qc_ops Qc_is_ring eexP aexpw 2 e2_nsrc e2_nrec e2_srcs e2_recs false true false eq_refl ltac:(lia) eex_geom e2_nsrc_pos e2_nrec_pos e2_src e2_rec eex_room
    eex_dt e2_md e2_store true true true 1 e2_gr 3 e2_g 2 s2_th None (e2_bsched 1 3 None) (eexB true) (eexB false)
    2 s2_th (Some 2%Z) (e2_bsched 1 3 (Some 2%Z)) (eexB true) (eexB false)
    (Permutation_refl _) (Permutation_refl _) (e2_bsched_ok 1 3 None) ltac:(unfold nt_ok; lia) (Permutation_refl _) (Permutation_refl _) (e2_bsched_ok 1 3 (Some 2%Z)) ltac:(unfold nt_ok; lia) )
    as (U & f & gm & U' & f' & gm' & E & E' & _ & H).
  exists U, f, gm, U', f', gm'. split; [exact E|]. split; [exact E'|]. split; [apply H; [vm_compute; tauto|cbn; lia]|].
  destruct (C30_elastic_backward 2 Qc_ops Qc_is_ring eexP aexpw 2 e2_nsrc e2_nrec e2_srcs e2_recs false true false eq_refl ltac:(lia) eex_geom e2_nsrc_pos e2_nrec_pos e2_src e2_rec eex_room
    eex_dt e2_md e2_store true true true 1 e2_gr 3 e2_g 2 s2_th None (e2_bsched 1 3 None) (eexB true) (eexB false) 1
    (Permutation_refl _) (Permutation_refl _) (e2_bsched_ok 1 3 None) ltac:(unfold nt_ok; lia) ltac:(lia)) as (V & e & gn & U1 & f1 & gm1 & F1 & F2 & _ & _ & Hf).
  assert (X : match e2_backward1 false true false 1 3 None 1 with Some (_, R, _) => nz (nth 0 (R 0%Z CP) (qz 0)) | None => false end = true)
    by (vm_compute; reflexivity).
  change (e2_backward1 false true false 1 3 None 1 = Some (U1, f1, gm1)) in F2. rewrite F2 in X. apply nz_spec in X.
  assert (W : f = e) by (apply (f_equal (fun o => match o with Some (_, v, _) => v | None => f end)) in E; cbv beta iota in E;
    rewrite <- E; rewrite F1; reflexivity).
  intros Hc. apply X. rewrite <- (Hf 0%Z CP). rewrite <- W. exact Hc.
Qed.

(** C10, model gradient, for a model with one block per shot or one thread.  Missing: a shared model with several
    threads, where the statement is false ([C10_elastic_threads_refuted]). *)
Theorem C10_elastic_model_gradient_partial (nd : nat) (K : ops) (Kr : is_ring K) (P0 : spar (el_sys nd) K) (pw : nat -> Z * Z) (NS : Z)
    (nsrc nrec : eC -> Z) (srcs recs : eC -> Z -> Z) (lbat mbat bbat : bool) :
  length (sp_shape P0) = nd -> (0 < nd)%nat -> sgeom (el_sys nd) K P0 pw -> (forall c, (0 <= nsrc c)%Z) -> (forall c, (0 <= nrec c)%Z) ->
  (forall c j, (0 <= j < NS * nsrc c)%Z -> sloc_ok (el_sys nd) K P0 c (srcs c j)) ->
  (forall c j, (0 <= j < NS * nrec c)%Z -> sloc_ok (el_sys nd) K P0 c (recs c j)) ->
  sroom (el_sys nd) K P0 pw -> forall (dt : K) (md : eM -> arr K) store lg mg bg sr gr nt g nthr th cb sched visA visB nthr' th' sched' visA' visB',
  el_bvis nd K P0 pw true visA -> el_bvis nd K P0 pw false visB ->
  sbsched_ok (el_sys nd) (el_kern nd) NS visA visB sr nt cb sched -> nt_ok nt sr cb ->
  el_bvis nd K P0 pw true visA' -> el_bvis nd K P0 pw false visB' ->
  sbsched_ok (el_sys nd) (el_kern nd) NS visA' visB' sr nt None sched' -> nt_ok nt sr None ->
  (forall s k, (0 <= k < NS)%Z -> (0 <= th s k < nthr)%Z) ->
  (forall s k, (0 <= k < NS)%Z -> (0 <= th' s k < nthr')%Z) ->
  exists U f gm U' f' gm',
    elastic_batch_backward nd K P0 nsrc nrec srcs recs lbat mbat bbat pw nthr th dt md lg mg bg sr gr nt cb sched store g = Some (U, f, gm) /\
    elastic_batch_backward nd K P0 nsrc nrec srcs recs lbat mbat bbat pw nthr' th' dt md lg mg bg sr gr nt None sched' store g = Some (U', f', gm') /\
    (forall q i, el_models nd q -> el_fm lg mg bg q = true -> el_fm lbat mbat bbat q = true \/ nthr = 1%Z ->
      (0 <= i < (if el_fm lbat mbat bbat q then NS else 1) * prodZ (sp_shape P0))%Z -> gm q i = gm' q i).
Proof. exact (elastic_shots_model nd K Kr P0 pw NS nsrc nrec srcs recs lbat mbat bbat). Qed.
Print Assumptions C10_elastic_model_gradient_partial.
Example model_gradient_elastic_example :
  (exists U f gm U' f' gm', e2_backward false false false 1 (fun _ _ => 0%Z) 1 2 (Some 1%Z) = Some (U, f, gm) /\
     e2_backward false false false 2 s2_th 1 2 None = Some (U', f', gm') /\ forall i, (0 <= i < 1 * 20)%Z -> gm ML i = gm' ML i) /\
  gm_of (e2_backward false false false 2 s2_th 1 2 None) ML 7%Z <> qz 0.
Proof.
  split; [|apply nz_spec; vm_compute; reflexivity].
  destruct (C10_elastic_model_gradient_partial 2 Qc_ops Qc_is_ring eexP aexpw 2 e2_nsrc e2_nrec e2_srcs e2_recs false false false eq_refl ltac:(lia) eex_geom e2_nsrc_pos e2_nrec_pos e2_src e2_rec eex_room
    eex_dt e2_md e2_store true true true 1 e2_gr 2 e2_g 1 (fun _ _ => 0%Z) (Some 1%Z) (e2_bsched 1 2 (Some 1%Z)) (eexB true) (eexB false)
    2 s2_th (e2_bsched 1 2 None) (eexB true) (eexB false)
    (Permutation_refl _) (Permutation_refl _) (e2_bsched_ok 1 2 (Some 1%Z)) ltac:(unfold nt_ok; lia) (Permutation_refl _) (Permutation_refl _) (e2_bsched_ok 1 2 None) ltac:(unfold nt_ok; lia) ltac:(intros; lia) s2_th_ok)
    as (U & f & gm & U' & f' & gm' & E & E' & H).
  exists U, f, gm, U', f', gm'. split; [exact E|]. split; [exact E'|]. intros i. exact (H ML i I eq_refl (or_intror eq_refl)).
Qed.

(** C10 is false for a shared model and several threads: the per-thread buffers are not cleared between calls, so each
    call adds everything accumulated so far again (acoustic.py:1160-1231, acoustic.c:1226-1243; elastic.py:1762-1900,
    elastic.c:2199-2250).  Two shots, two threads, two steps, frequency 1. *)
Theorem C10_elastic_threads_refuted : exists (P0 : spar (el_sys 2) Qc_ops) pw nsrc nrec srcs recs dt md store gr g visA visB sched sched' i,
  length (sp_shape P0) = 2%nat /\ sgeom (el_sys 2) Qc_ops P0 pw /\ sroom (el_sys 2) Qc_ops P0 pw /\
  (forall c, (0 <= nsrc c)%Z) /\ (forall c, (0 <= nrec c)%Z) /\
  (forall c j, (0 <= j < 2 * nsrc c)%Z -> sloc_ok (el_sys 2) Qc_ops P0 c (srcs c j)) /\
  (forall c j, (0 <= j < 2 * nrec c)%Z -> sloc_ok (el_sys 2) Qc_ops P0 c (recs c j)) /\
  el_bvis 2 Qc_ops P0 pw true visA /\ el_bvis 2 Qc_ops P0 pw false visB /\
  sbsched_ok (el_sys 2) (el_kern 2) 2 visA visB 1 2 None sched /\ sbsched_ok (el_sys 2) (el_kern 2) 2 visA visB 1 2 (Some 1%Z) sched' /\
  exists U f gm U' f' gm',
    elastic_batch_backward 2 Qc_ops P0 nsrc nrec srcs recs false false false pw 2 (fun _ k => k) dt md true true true 1 gr 2 None sched store g = Some (U, f, gm) /\
    elastic_batch_backward 2 Qc_ops P0 nsrc nrec srcs recs false false false pw 2 (fun _ k => k) dt md true true true 1 gr 2 (Some 1%Z) sched' store g = Some (U', f', gm') /\
    (0 <= i < prodZ (sp_shape P0))%Z /\ gm ML i <> gm' ML i.
Proof.
  exists eexP, aexpw, e2_nsrc, e2_nrec, e2_srcs, e2_recs, eex_dt, e2_md, e2_store, e2_gr, e2_g, (eexB true), (eexB false),
    (e2_bsched 1 2 None), (e2_bsched 1 2 (Some 1%Z)), 6%Z.
  split; [reflexivity|]. split; [exact eex_geom|]. split; [exact eex_room|]. split; [exact e2_nsrc_pos|]. split; [exact e2_nrec_pos|].
  split; [exact e2_src|]. split; [exact e2_rec|]. split; [apply Permutation_refl|]. split; [apply Permutation_refl|].
  split; [apply e2_bsched_ok|]. split; [apply e2_bsched_ok|].
  assert (X : match e2_backward false false false 2 (fun _ k => k) 1 2 None, e2_backward false false false 2 (fun _ k => k) 1 2 (Some 1%Z) with
    | Some (_, _, gm), Some (_, _, gm') => nz (gm ML 6%Z - gm' ML 6%Z)%Qc | _, _ => false end = true) by (vm_compute; reflexivity).
  unfold e2_backward in X.
  destruct (elastic_batch_backward 2 Qc_ops eexP e2_nsrc e2_nrec e2_srcs e2_recs false false false aexpw 2 (fun _ k => k) eex_dt e2_md true true true 1 e2_gr 2 None _ _ _)
    as [[[U f] gm]|]; [|discriminate X].
  destruct (elastic_batch_backward 2 Qc_ops eexP e2_nsrc e2_nrec e2_srcs e2_recs false false false aexpw 2 (fun _ k => k) eex_dt e2_md true true true 1 e2_gr 2 (Some 1%Z) _ _ _)
    as [[[U' f'] gm']|]; [|discriminate X].
  exists U, f, gm, U', f', gm'. split; [reflexivity|]. split; [reflexivity|]. split; [split; [lia|reflexivity]|].
  apply nz_spec in X. intros Hc. apply X. rewrite Hc. apply Qcplus_opp_r.
Qed.
Print Assumptions C10_elastic_threads_refuted.

