(** * Properties C10, C11, C30: batches of shots, threads, backward callbacks. *)
From Coq Require Import List ZArith QArith Qcanon Lia Bool Permutation.
From Verif Require Import Ops Sums Grid Stencil ScalarModel ScalarRefine ScalarForward ScalarBackward ScalarFunc ScalarEx
  ShotsModel Shots ShotsThm ShotsEx.
Import ListNotations.
Local Open Scope K_scope.

(** C30: forward.  Whatever the interleaving of the shots, the wavefields, receiver amplitudes
    and snapshots of shot [k] are those of a run with that shot alone.  The single-shot run is spelled out: rows [k] of
    the locations and amplitudes, block [k] of the wavespeed if it is batched. *)
Theorem C30_forward (K : ops) (Kr : is_ring K) (P0 : par K) (pw : nat -> Z * Z) (NS nsrc nrec : Z)
    (srcs recs : Z -> Z) (batched : bool) :
  geom_ok K P0 pw -> (0 <= nsrc)%Z -> (0 <= nrec)%Z ->
  (forall j, (0 <= j < NS * nsrc)%Z -> loc_ok K P0 (srcs j)) ->
  (forall j, (0 <= j < NS * nrec)%Z -> loc_ok K P0 (recs j)) ->
  forall (v : arr K) vis vrg sr f nt cb sched store0 u k,
  fvis K P0 pw vis -> fsched_ok NS vis sr nt cb sched -> (0 < sr)%Z -> cb_ok nt sr cb -> (0 <= k < NS)%Z ->
  exists U R St U1 R1 St1,
    batch_forward K P0 nsrc nrec srcs recs batched pw v vrg sr f nt cb sched store0 u = Some (U, R, St) /\
    scalar_forward K (mkpar (p_acc P0) (p_shape P0) (p_rd P0) (p_rd2 P0) (p_a P0) (p_b P0) (p_db P0) (p_dt2 P0)
         (map (fun j => srcs (k * nsrc + j)%Z) (zrange 0 nsrc)) (map (fun j => recs (k * nrec + j)%Z) (zrange 0 nrec))) pw (if batched then (fun i => v (k * prodZ (p_shape P0) + i)%Z) else v) vis vrg sr
      (fun t => map (fun j => f t (k * nsrc + j)%Z) (zrange 0 nsrc)) nt cb (fun s i => store0 s (k * prodZ (p_shape P0) + i)%Z) (u k) = Some (U1, R1, St1) /\
    ueq K P0 (U k) U1 /\ (forall t, map (fun j => R t (k * nrec + j)%Z) (zrange 0 nrec) = R1 t) /\
    (forall s i, (0 <= i < prodZ (p_shape P0))%Z -> St s (k * prodZ (p_shape P0) + i)%Z = St1 s i).
Proof. exact (shots_forward K Kr P0 pw NS nsrc nrec srcs recs batched). Qed.
Print Assumptions C30_forward.

Example C30_forward_example : exists U R St U1 R1 St1,
  ex2_forward true 2 5 (Some 1%Z) = Some (U, R, St) /\
  scalar_forward Qc_ops (shot_par Qc_ops exP 2 2 ex2_srcs ex2_recs 1) expw (shot_v Qc_ops exP true ex_v 1) ex_visF true 2
    (fun t => row (ex2_f t) 2 1) 5 (Some 1%Z) (fun _ _ => qz 0) ex_U = Some (U1, R1, St1) /\
  row (R 3%Z) 2 1 = R1 3%Z /\ R1 3%Z <> [qz 0; qz 0].
Proof.
  destruct (C30_forward Qc_ops Qc_is_ring exP expw 2 2 2 ex2_srcs ex2_recs true ex_geom ltac:(lia) ltac:(lia) ex2_src ex2_rec
    ex_v ex_visF true 2 ex2_f 5 (Some 1%Z) _ (fun _ _ => qz 0) ex2_u 1 ex_visF_ok (ex2_fsched_ok 2 5 (Some 1%Z)) ltac:(lia)
    ltac:(cbn; lia) ltac:(lia)) as (U & R & St & U1 & R1 & St1 & E1 & E2 & _ & H & _).
  exists U, R, St, U1, R1, St1. split; [exact E1|]. split; [exact E2|]. split; [apply H|].
  assert (X : match scalar_forward Qc_ops (shot_par Qc_ops exP 2 2 ex2_srcs ex2_recs 1) expw (shot_v Qc_ops exP true ex_v 1) ex_visF true 2
    (fun t => row (ex2_f t) 2 1) 5 (Some 1%Z) (fun s => sh Qc_ops exP 1 (fun _ => qz 0)) (ex2_u 1) with
    | Some (_, R, _) => nz (nth 0 (R 3%Z) (qz 0)) | None => false end = true) by (vm_compute; reflexivity).
  match type of X with match ?t with _ => _ end = true => change (t = Some (U1, R1, St1)) in E2 end.
  rewrite E2 in X. apply nz_spec in X. intros Hc. apply X. rewrite Hc. reflexivity.
Qed.

(** C30: backward.  The same for the gradients of wavefields and source amplitudes, for any
    number of threads and assignment of shots to threads. *)
Theorem C30_backward (K : ops) (Kr : is_ring K) (P0 : par K) (pw : nat -> Z * Z) (NS nsrc nrec : Z)
    (srcs recs : Z -> Z) (batched : bool) :
  geom_ok K P0 pw -> (0 <= nsrc)%Z -> (0 <= nrec)%Z ->
  (forall j, (0 <= j < NS * nsrc)%Z -> loc_ok K P0 (srcs j)) ->
  (forall j, (0 <= j < NS * nrec)%Z -> loc_ok K P0 (recs j)) ->
  forall (v : arr K) store vrg sr gr nt g, (0 < sr)%Z ->
  forall nthr th cb sched vis k,
  bvis K P0 pw vis -> bsched_ok NS vis sr nt cb sched -> cb_ok nt sr cb -> (0 <= k < NS)%Z ->
  exists U f gv U1 f1 gv1,
    batch_backward K P0 nsrc nrec srcs recs batched pw nthr th v store vrg sr gr nt cb sched g = Some (U, f, gv) /\
    scalar_backward K (mkpar (p_acc P0) (p_shape P0) (p_rd P0) (p_rd2 P0) (p_a P0) (p_b P0) (p_db P0) (p_dt2 P0)
         (map (fun j => srcs (k * nsrc + j)%Z) (zrange 0 nsrc)) (map (fun j => recs (k * nrec + j)%Z) (zrange 0 nrec))) pw (if batched then (fun i => v (k * prodZ (p_shape P0) + i)%Z) else v) vis (fun s i => store s (k * prodZ (p_shape P0) + i)%Z)
      vrg sr (fun t => map (fun j => gr t (k * nrec + j)%Z) (zrange 0 nrec)) nt cb (g k) = Some (U1, f1, gv1) /\
    ueq K P0 (U k) U1 /\ (forall t, map (fun j => f t (k * nsrc + j)%Z) (zrange 0 nsrc) = f1 t).
Proof. exact (shots_backward K Kr P0 pw NS nsrc nrec srcs recs batched). Qed.
Print Assumptions C30_backward.

Example C30_backward_example : exists U f gv U1 f1 gv1,
  ex2_backward false 2 ex2_th 1 3 (Some 2%Z) = Some (U, f, gv) /\
  scalar_backward Qc_ops (shot_par Qc_ops exP 2 2 ex2_srcs ex2_recs 1) expw ex_v ex_visB (fun s => sh Qc_ops exP 1 (ex2_store s)) true 1
    (fun t => row (ex2_gr t) 2 1) 3 (Some 2%Z) ex_G = Some (U1, f1, gv1) /\
  row (f 0%Z) 2 1 = f1 0%Z /\ f1 0%Z <> [qz 0; qz 0].
Proof.
  destruct (C30_backward Qc_ops Qc_is_ring exP expw 2 2 2 ex2_srcs ex2_recs false ex_geom ltac:(lia) ltac:(lia) ex2_src ex2_rec
    ex_v ex2_store true 1 ex2_gr 3 ex2_g ltac:(lia) 2 ex2_th (Some 2%Z) _ ex_visB 1 ex_visB_ok (ex2_bsched_ok 1 3 (Some 2%Z))
    ltac:(cbn; lia) ltac:(lia)) as (U & f & gv & U1 & f1 & gv1 & E1 & E2 & _ & H).
  exists U, f, gv, U1, f1, gv1. split; [exact E1|]. split; [exact E2|]. split; [apply H|].
  assert (X : match scalar_backward Qc_ops (shot_par Qc_ops exP 2 2 ex2_srcs ex2_recs 1) expw (shot_v Qc_ops exP false ex_v 1) ex_visB
    (fun s => sh Qc_ops exP 1 (ex2_store s)) true 1 (fun t => row (ex2_gr t) 2 1) 3 (Some 2%Z) (ex2_g 1) with
    | Some (_, f, _) => nz (nth 0 (f 0%Z) (qz 0)) | None => false end = true) by (vm_compute; reflexivity).
  match type of X with match ?t with _ => _ end = true => change (t = Some (U1, f1, gv1)) in E2 end.
  rewrite E2 in X. apply nz_spec in X. intros Hc. apply X. rewrite Hc. reflexivity.
Qed.

(** C11: without callbacks the model gradient is that of each shot (batched model) or the sum
    over the shots of the gradients of the single-shot runs (shared model), whatever the
    number of threads, the assignment of shots to threads (which may differ between calls)
    and the interleaving. *)
Theorem C11_sum_of_shots (K : ops) (Kr : is_ring K) (P0 : par K) (pw : nat -> Z * Z) (NS nsrc nrec : Z)
    (srcs recs : Z -> Z) (batched : bool) :
  geom_ok K P0 pw -> (0 <= nsrc)%Z -> (0 <= nrec)%Z ->
  (forall j, (0 <= j < NS * nsrc)%Z -> loc_ok K P0 (srcs j)) ->
  (forall j, (0 <= j < NS * nrec)%Z -> loc_ok K P0 (recs j)) ->
  forall (v : arr K) store vrg sr gr nt g, (0 < sr)%Z ->
  forall nthr th cb sched vis,
  bvis K P0 pw vis -> bsched_ok NS vis sr nt cb sched -> cb_ok nt sr cb ->
  (forall s k, (0 <= k < NS)%Z -> (0 <= th s k < nthr)%Z) ->
  vrg = true -> (batched = true \/ nthr = 1%Z \/ cb = None) ->
  exists U f gv,
    batch_backward K P0 nsrc nrec srcs recs batched pw nthr th v store vrg sr gr nt cb sched g = Some (U, f, gv) /\
    let gv1 k := gv_of K (scalar_backward K (mkpar (p_acc P0) (p_shape P0) (p_rd P0) (p_rd2 P0) (p_a P0) (p_b P0) (p_db P0) (p_dt2 P0)
         (map (fun j => srcs (k * nsrc + j)%Z) (zrange 0 nsrc)) (map (fun j => recs (k * nrec + j)%Z) (zrange 0 nrec))) pw (if batched then (fun i => v (k * prodZ (p_shape P0) + i)%Z) else v) vis
                            (fun s i => store s (k * prodZ (p_shape P0) + i)%Z) vrg sr (fun t => map (fun j => gr t (k * nrec + j)%Z) (zrange 0 nrec)) nt cb (g k)) in
    if batched
    then forall k i, (0 <= k < NS)%Z -> (0 <= i < prodZ (p_shape P0))%Z -> gv (k * prodZ (p_shape P0) + i)%Z = gv1 k i
    else forall i, (0 <= i < prodZ (p_shape P0))%Z -> gv i = sumf (zrange 0 NS) (fun k => gv1 k i).
Proof. exact (shots_gradient K Kr P0 pw NS nsrc nrec srcs recs batched). Qed.
Print Assumptions C11_sum_of_shots.

Example C11_sum_of_shots_example :
  ex2_gv false 2 ex2_th 1 2 None 3 = qz (-17) /\
  exists U f gv, ex2_backward false 2 ex2_th 1 2 None = Some (U, f, gv) /\
  forall i, (0 <= i < 8)%Z -> gv i = sumf (K := Qc_ops) (zrange 0 2) (fun k =>
    gv_of Qc_ops (scalar_backward Qc_ops (shot_par Qc_ops exP 2 2 ex2_srcs ex2_recs k) expw ex_v ex_visB
      (fun s => sh Qc_ops exP k (ex2_store s)) true 1 (fun t => row (ex2_gr t) 2 k) 2 None ex_G) i).
Proof.
  split; [apply Qc_is_canon; vm_compute; reflexivity|].
  destruct (C11_sum_of_shots Qc_ops Qc_is_ring exP expw 2 2 2 ex2_srcs ex2_recs false ex_geom ltac:(lia) ltac:(lia) ex2_src ex2_rec
    ex_v ex2_store true 1 ex2_gr 2 ex2_g ltac:(lia) 2 ex2_th None _ ex_visB ex_visB_ok (ex2_bsched_ok 1 2 None)
    ltac:(cbn; lia) ex2_th_ok eq_refl (or_intror (or_intror eq_refl))) as (U & f & gv & E & H).
  exists U, f, gv. split; [exact E|exact H].
Qed.

(** C11: two runs without callbacks that differ in threads, schedule and visiting order agree. *)
Theorem C11_any_threads (K : ops) (Kr : is_ring K) (P0 : par K) (pw : nat -> Z * Z) (NS nsrc nrec : Z)
    (srcs recs : Z -> Z) (batched : bool) :
  geom_ok K P0 pw -> (0 <= nsrc)%Z -> (0 <= nrec)%Z ->
  (forall j, (0 <= j < NS * nsrc)%Z -> loc_ok K P0 (srcs j)) ->
  (forall j, (0 <= j < NS * nrec)%Z -> loc_ok K P0 (recs j)) ->
  forall (v : arr K) store sr gr nt g, (0 < sr)%Z ->
  forall nthr th sched vis nthr' th' sched' vis',
  bvis K P0 pw vis -> bsched_ok NS vis sr nt None sched ->
  bvis K P0 pw vis' -> bsched_ok NS vis' sr nt None sched' -> cb_ok nt sr None ->
  (forall s k, (0 <= k < NS)%Z -> (0 <= th s k < nthr)%Z) ->
  (forall s k, (0 <= k < NS)%Z -> (0 <= th' s k < nthr')%Z) ->
  exists U f gv U' f' gv',
    batch_backward K P0 nsrc nrec srcs recs batched pw nthr th v store true sr gr nt None sched g = Some (U, f, gv) /\
    batch_backward K P0 nsrc nrec srcs recs batched pw nthr' th' v store true sr gr nt None sched' g = Some (U', f', gv') /\
    (forall k, (0 <= k < NS)%Z -> ueq K P0 (U k) (U' k)) /\
    (forall t j, (0 <= j < NS * nsrc)%Z -> f t j = f' t j) /\
    (forall i, (0 <= i < (if batched then NS else 1) * prodZ (p_shape P0))%Z -> gv i = gv' i).
Proof.
  intros Hg H1 H2 H3 H4 v store sr gr nt g Hsr nthr th sched vis nthr' th' sched' vis' Hv Hs Hv' Hs' Hc Ht Ht'.
  destruct (shots_same K Kr P0 pw NS nsrc nrec srcs recs batched Hg H1 H2 H3 H4 v store true sr gr nt g Hsr nthr th None sched vis
    nthr' th' None sched' vis' Hv Hs Hc Hv' Hs' Hc) as (U & f & gv & U' & f' & gv' & E & E' & A & B & C).
  exists U, f, gv, U', f', gv'. split; [exact E|]. split; [exact E'|]. split; [exact A|]. split; [exact B|].
  apply C; auto.
Qed.
Print Assumptions C11_any_threads.

Example C11_any_threads_example :
  (exists U f gv U' f' gv',
    ex2_backward false 2 ex2_th 1 2 None = Some (U, f, gv) /\
    batch_backward Qc_ops exP 2 2 ex2_srcs ex2_recs false expw 3 (fun _ k => (2 * k)%Z) ex_v ex2_store true 1 ex2_gr 2 None
      (ex2_bsched 1 2 None) ex2_g = Some (U', f', gv') /\
    forall i, (0 <= i < 1 * 8)%Z -> gv i = gv' i) /\
  ex2_gv false 2 ex2_th 1 2 None 3 <> qz 0.
Proof.
  split; [|apply nz_spec; vm_compute; reflexivity].
  destruct (C11_any_threads Qc_ops Qc_is_ring exP expw 2 2 2 ex2_srcs ex2_recs false ex_geom ltac:(lia) ltac:(lia) ex2_src ex2_rec
    ex_v ex2_store 1 ex2_gr 2 ex2_g ltac:(lia) 2 ex2_th _ ex_visB 3 (fun _ k => (2 * k)%Z) _ ex_visB
    ex_visB_ok (ex2_bsched_ok 1 2 None) ex_visB_ok (ex2_bsched_ok 1 2 None) ltac:(cbn; lia) ex2_th_ok ltac:(intros; lia))
    as (U & f & gv & U' & f' & gv' & E & E' & _ & _ & H).
  exists U, f, gv, U', f', gv'. split; [exact E|]. split; [exact E'|exact H].
Qed.

(** C10: gradients of wavefields and sources do not depend on the backward callback frequency
    (nor on threads, schedules, visiting orders). *)
Theorem C10_other_gradients (K : ops) (Kr : is_ring K) (P0 : par K) (pw : nat -> Z * Z) (NS nsrc nrec : Z)
    (srcs recs : Z -> Z) (batched : bool) :
  geom_ok K P0 pw -> (0 <= nsrc)%Z -> (0 <= nrec)%Z ->
  (forall j, (0 <= j < NS * nsrc)%Z -> loc_ok K P0 (srcs j)) ->
  (forall j, (0 <= j < NS * nrec)%Z -> loc_ok K P0 (recs j)) ->
  forall (v : arr K) store vrg sr gr nt g, (0 < sr)%Z ->
  forall nthr th cb sched vis nthr' th' cb' sched' vis',
  bvis K P0 pw vis -> bsched_ok NS vis sr nt cb sched -> cb_ok nt sr cb ->
  bvis K P0 pw vis' -> bsched_ok NS vis' sr nt cb' sched' -> cb_ok nt sr cb' ->
  exists U f gv U' f' gv',
    batch_backward K P0 nsrc nrec srcs recs batched pw nthr th v store vrg sr gr nt cb sched g = Some (U, f, gv) /\
    batch_backward K P0 nsrc nrec srcs recs batched pw nthr' th' v store vrg sr gr nt cb' sched' g = Some (U', f', gv') /\
    (forall k, (0 <= k < NS)%Z -> ueq K P0 (U k) (U' k)) /\
    (forall t j, (0 <= j < NS * nsrc)%Z -> f t j = f' t j).
Proof.
  intros Hg H1 H2 H3 H4 v store vrg sr gr nt g Hsr nthr th cb sched vis nthr' th' cb' sched' vis' Hv Hs Hc Hv' Hs' Hc'.
  destruct (shots_same K Kr P0 pw NS nsrc nrec srcs recs batched Hg H1 H2 H3 H4 v store vrg sr gr nt g Hsr nthr th cb sched vis
    nthr' th' cb' sched' vis' Hv Hs Hc Hv' Hs' Hc') as (U & f & gv & U' & f' & gv' & E & E' & A & B & C).
  exists U, f, gv, U', f', gv'. auto 10.
Qed.
Print Assumptions C10_other_gradients.

Example C10_other_gradients_example : exists U f gv U' f' gv',
  ex2_backward false 2 ex2_th 1 3 None = Some (U, f, gv) /\
  ex2_backward false 2 ex2_th 1 3 (Some 2%Z) = Some (U', f', gv') /\
  f 0%Z 2%Z = f' 0%Z 2%Z /\ s_wfc Qc_ops (U 1%Z) [3%Z] = s_wfc Qc_ops (U' 1%Z) [3%Z] /\ s_wfc Qc_ops (U 1%Z) [3%Z] <> qz 0.
Proof.
  destruct (C10_other_gradients Qc_ops Qc_is_ring exP expw 2 2 2 ex2_srcs ex2_recs false ex_geom ltac:(lia) ltac:(lia) ex2_src ex2_rec
    ex_v ex2_store true 1 ex2_gr 3 ex2_g ltac:(lia) 2 ex2_th None _ ex_visB 2 ex2_th (Some 2%Z) _ ex_visB
    ex_visB_ok (ex2_bsched_ok 1 3 None) ltac:(cbn; lia) ex_visB_ok (ex2_bsched_ok 1 3 (Some 2%Z)) ltac:(cbn; lia))
    as (U & f & gv & U' & f' & gv' & E & E' & HU & H).
  exists U, f, gv, U', f', gv'. split; [exact E|]. split; [exact E'|]. split; [apply H; lia|].
  split; [apply (HU 1%Z ltac:(lia) [3%Z]); vm_compute; tauto|].
  assert (X : match ex2_backward false 2 ex2_th 1 3 None with
    | Some (U, _, _) => nz (s_wfc Qc_ops (U 1%Z) [3%Z]) | None => false end = true) by (vm_compute; reflexivity).
  unfold ex2_backward in X. rewrite E in X. apply nz_spec in X. exact X.
Qed.

(** C10, model gradient, for a batched model or one thread.  Missing: a shared model with
    several threads, where the statement is false ([C10_threads_refuted]). *)
Theorem C10_model_gradient_partial (K : ops) (Kr : is_ring K) (P0 : par K) (pw : nat -> Z * Z) (NS nsrc nrec : Z)
    (srcs recs : Z -> Z) (batched : bool) :
  geom_ok K P0 pw -> (0 <= nsrc)%Z -> (0 <= nrec)%Z ->
  (forall j, (0 <= j < NS * nsrc)%Z -> loc_ok K P0 (srcs j)) ->
  (forall j, (0 <= j < NS * nrec)%Z -> loc_ok K P0 (recs j)) ->
  forall (v : arr K) store sr gr nt g, (0 < sr)%Z ->
  forall nthr th cb sched vis nthr' th' sched' vis',
  bvis K P0 pw vis -> bsched_ok NS vis sr nt cb sched -> cb_ok nt sr cb ->
  bvis K P0 pw vis' -> bsched_ok NS vis' sr nt None sched' -> cb_ok nt sr None ->
  (forall s k, (0 <= k < NS)%Z -> (0 <= th s k < nthr)%Z) ->
  (forall s k, (0 <= k < NS)%Z -> (0 <= th' s k < nthr')%Z) ->
  batched = true \/ nthr = 1%Z ->
  exists U f gv U' f' gv',
    batch_backward K P0 nsrc nrec srcs recs batched pw nthr th v store true sr gr nt cb sched g = Some (U, f, gv) /\
    batch_backward K P0 nsrc nrec srcs recs batched pw nthr' th' v store true sr gr nt None sched' g = Some (U', f', gv') /\
    (forall i, (0 <= i < (if batched then NS else 1) * prodZ (p_shape P0))%Z -> gv i = gv' i).
Proof.
  intros Hg H1 H2 H3 H4 v store sr gr nt g Hsr nthr th cb sched vis nthr' th' sched' vis' Hv Hs Hc Hv' Hs' Hc' Ht Ht' Hb.
  destruct (shots_same K Kr P0 pw NS nsrc nrec srcs recs batched Hg H1 H2 H3 H4 v store true sr gr nt g Hsr nthr th cb sched vis
    nthr' th' None sched' vis' Hv Hs Hc Hv' Hs' Hc') as (U & f & gv & U' & f' & gv' & E & E' & _ & _ & C).
  exists U, f, gv, U', f', gv'. split; [exact E|]. split; [exact E'|]. apply C; auto. tauto.
Qed.
Print Assumptions C10_model_gradient_partial.

Example C10_model_gradient_example :
  (exists U f gv U' f' gv',
    ex2_backward false 1 (fun _ _ => 0%Z) 1 2 (Some 1%Z) = Some (U, f, gv) /\
    ex2_backward false 2 ex2_th 1 2 None = Some (U', f', gv') /\ forall i, (0 <= i < 1 * 8)%Z -> gv i = gv' i) /\
  ex2_gv false 2 ex2_th 1 2 None 3 <> qz 0.
Proof.
  split; [|apply nz_spec; vm_compute; reflexivity].
  destruct (C10_model_gradient_partial Qc_ops Qc_is_ring exP expw 2 2 2 ex2_srcs ex2_recs false ex_geom ltac:(lia) ltac:(lia)
    ex2_src ex2_rec ex_v ex2_store 1 ex2_gr 2 ex2_g ltac:(lia) 1 (fun _ _ => 0%Z) (Some 1%Z) _ ex_visB 2 ex2_th _ ex_visB
    ex_visB_ok (ex2_bsched_ok 1 2 (Some 1%Z)) ltac:(cbn; lia) ex_visB_ok (ex2_bsched_ok 1 2 None) ltac:(cbn; lia)
    ltac:(intros; lia) ex2_th_ok (or_intror eq_refl)) as (U & f & gv & U' & f' & gv' & E & E' & H).
  exists U, f, gv, U', f', gv'. split; [exact E|]. split; [exact E'|exact H].
Qed.

(** C10 is false for a shared model and several threads: the per-thread buffers are not
    cleared between calls, so each call adds everything accumulated so far again
    (scalar.py:1209-1218, scalar.c:704-708).  Two shots, two threads, two steps, frequency 1. *)
Theorem C10_threads_refuted : exists (P0 : par Qc_ops) pw (srcs recs : Z -> Z) v store gr g vis sched sched' i,
  geom_ok Qc_ops P0 pw /\
  (forall j, (0 <= j < 2 * 2)%Z -> loc_ok Qc_ops P0 (srcs j)) /\
  (forall j, (0 <= j < 2 * 2)%Z -> loc_ok Qc_ops P0 (recs j)) /\
  bvis Qc_ops P0 pw vis /\ bsched_ok 2 vis 1 2 None sched /\ bsched_ok 2 vis 1 2 (Some 1%Z) sched' /\
  exists U f gv U' f' gv',
    batch_backward Qc_ops P0 2 2 srcs recs false pw 2 (fun _ k => k) v store true 1 gr 2 None sched g = Some (U, f, gv) /\
    batch_backward Qc_ops P0 2 2 srcs recs false pw 2 (fun _ k => k) v store true 1 gr 2 (Some 1%Z) sched' g = Some (U', f', gv') /\
    (0 <= i < prodZ (p_shape P0))%Z /\ gv i <> gv' i.
Proof.
  exists exP, expw, ex2_srcs, ex2_recs, ex_v, ex2_store, ex2_gr, ex2_g, ex_visB, (ex2_bsched 1 2 None), (ex2_bsched 1 2 (Some 1%Z)), 3%Z.
  split; [exact ex_geom|]. split; [exact ex2_src|]. split; [exact ex2_rec|]. split; [exact ex_visB_ok|].
  split; [apply ex2_bsched_ok|]. split; [apply ex2_bsched_ok|].
  assert (X : match ex2_backward false 2 (fun _ k => k) 1 2 None, ex2_backward false 2 (fun _ k => k) 1 2 (Some 1%Z) with
    | Some (_, _, gv), Some (_, _, gv') => nz (gv 3%Z - gv' 3%Z)%Qc | _, _ => false end = true) by (vm_compute; reflexivity).
  unfold ex2_backward in X.
  destruct (batch_backward Qc_ops exP 2 2 ex2_srcs ex2_recs false expw 2 (fun _ k => k) ex_v ex2_store true 1 ex2_gr 2 None _ _) as [[[U f] gv]|];
    [|discriminate X].
  destruct (batch_backward Qc_ops exP 2 2 ex2_srcs ex2_recs false expw 2 (fun _ k => k) ex_v ex2_store true 1 ex2_gr 2 (Some 1%Z) _ _) as [[[U' f'] gv']|];
    [|discriminate X].
  exists U, f, gv, U', f', gv'. split; [reflexivity|]. split; [reflexivity|]. split; [split; [lia|reflexivity]|].
  apply nz_spec in X. intros Hc. apply X. rewrite Hc. apply Qcplus_opp_r.
Qed.
Print Assumptions C10_threads_refuted.
