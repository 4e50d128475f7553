(** * Property C64: the CUDA propagator of the scalar Born wave equation. *)
From Coq Require Import List ZArith QArith Qcanon Lia Bool Permutation.
From Verif Require Import Ops Sums Grid Stencil ScalarModel ScalarRefine ScalarForward ScalarBackward ScalarFunc ScalarEx
  ShotsModel Shots ShotsThm ShotsEx Threads GpuModel GpuLaunch GpuFwd GpuLocs GpuThm PropGpu BornModel BornEx BornGpuModel BornGpuForward BornGpuBackward BornGpuThm.
Import ListNotations.
Local Open Scope K_scope.

(** C64: forward.  However the threads of every launch are interleaved, both wavefields and both
    kinds of receiver amplitudes that shot [k] gets from the device are those of a run of that shot
    alone on the CPU, with any order of the cells and any callback frequency. *)
Theorem C64_forward (K : ops) (Kr : is_ring K) (P0 : par K) (pw : nat -> Z * Z) (NS nsrc nrec nrecsc : Z) (srcs recs recssc : Z -> Z) (vbat sbat : bool) :
  geom_ok K P0 pw -> (0 <= nsrc < 2 ^ 31)%Z -> (0 <= nrec < 2 ^ 31)%Z -> (0 <= nrecsc < 2 ^ 31)%Z ->
  (1 <= length (p_shape P0) <= 3)%nat /\ Forall (fun m => 2 * fd_pad (p_acc P0) <= m < 2 ^ 31)%Z (p_shape P0) /\ (0 <= NS < 2 ^ 31)%Z ->
  (forall j, (0 <= j < NS * nsrc)%Z -> loc_ok K P0 (srcs j)) ->
  (forall j, (0 <= j < NS * nrec)%Z -> loc_ok K P0 (recs j)) ->
  (forall j, (0 <= j < NS * nrecsc)%Z -> loc_ok K P0 (recssc j)) ->
  forall (v scatter : arr K) (sr nt : Z), (0 < sr)%Z ->
  forall vrg srg f fsc cb cb' w0 wsc0 w0' wsc0' u usc vis out k,
  (forall k j j', (0 <= k < NS)%Z -> (0 <= j < nsrc)%Z -> (0 <= j' < nsrc)%Z -> (0 <= srcs (k * nsrc + j))%Z -> srcs (k * nsrc + j)%Z = srcs (k * nsrc + j')%Z -> j = j') ->
  cb_ok nt sr cb -> cb_ok nt sr cb' -> (0 <= k < NS)%Z -> fvis K P0 pw vis ->
  gpu_born_forward K P0 NS nsrc nrec nrecsc srcs recs recssc vbat sbat pw v scatter vrg srg sr f fsc nt cb w0 wsc0 u usc out ->
  exists o,
    born_forward K (mkpar (p_acc P0) (p_shape P0) (p_rd P0) (p_rd2 P0) (p_a P0) (p_b P0) (p_db P0) (p_dt2 P0)
         (map (fun j => srcs (k * nsrc + j)%Z) (zrange 0 nsrc)) (map (fun j => recs (k * nrec + j)%Z) (zrange 0 nrec)))
      (map (fun j => recssc (k * nrecsc + j)%Z) (zrange 0 nrecsc)) pw (if vbat then (fun i => v (k * prodZ (p_shape P0) + i)%Z) else v) (if sbat then (fun i => scatter (k * prodZ (p_shape P0) + i)%Z) else scatter) vis vrg srg sr
      (fun t => map (fun j => f t (k * nsrc + j)%Z) (zrange 0 nsrc)) (fun t => map (fun j => fsc t (k * nsrc + j)%Z) (zrange 0 nsrc)) nt cb' w0' wsc0' (u k) (usc k) = Some o /\
    ueq K P0 (go_u K out k) (bo_u K o) /\ ueq K P0 (go_usc K out k) (bo_usc K o) /\
    (forall t, map (fun j => go_r K out t (k * nrec + j)%Z) (zrange 0 nrec) = bo_r K o t) /\
    (forall t, map (fun j => go_rsc K out t (k * nrecsc + j)%Z) (zrange 0 nrecsc) = bo_rsc K o t).
Proof. exact (gpu_born_forward_cpu K Kr P0 pw NS nsrc nrec nrecsc srcs recs recssc vbat sbat). Qed.
Print Assumptions C64_forward.

(** C64: the snapshots of both wavefields are, in every cell, those of a run on the CPU (in some
    order of the cells). *)
Theorem C64_snapshots (K : ops) (P0 : par K) (NS nsrc nrec nrecsc : Z) (srcs recs recssc : Z -> Z) (vbat sbat : bool) :
  (0 <= nsrc < 2 ^ 31)%Z -> (0 <= nrec < 2 ^ 31)%Z -> (0 <= nrecsc < 2 ^ 31)%Z ->
  (1 <= length (p_shape P0) <= 3)%nat /\ Forall (fun m => 2 * fd_pad (p_acc P0) <= m < 2 ^ 31)%Z (p_shape P0) /\ (0 <= NS < 2 ^ 31)%Z ->
  (forall j, (0 <= j < NS * nsrc)%Z -> (srcs j < prodZ (p_shape P0))%Z) ->
  (forall j, (0 <= j < NS * nrec)%Z -> (recs j < prodZ (p_shape P0))%Z) ->
  (forall j, (0 <= j < NS * nrecsc)%Z -> (recssc j < prodZ (p_shape P0))%Z) ->
  (forall k j j', (0 <= k < NS)%Z -> (0 <= j < nsrc)%Z -> (0 <= j' < nsrc)%Z -> (0 <= srcs (k * nsrc + j))%Z -> srcs (k * nsrc + j)%Z = srcs (k * nsrc + j')%Z -> j = j') ->
  forall pw (v scatter : arr K) vrg srg sr f fsc nt cb w0 wsc0 u usc out k, geom_ok K P0 pw -> (0 < sr)%Z -> cb_ok nt sr cb -> (0 <= k < NS)%Z ->
  gpu_born_forward K P0 NS nsrc nrec nrecsc srcs recs recssc vbat sbat pw v scatter vrg srg sr f fsc nt cb w0 wsc0 u usc out ->
  exists vis o, fvis K P0 pw vis /\
    born_forward K (mkpar (p_acc P0) (p_shape P0) (p_rd P0) (p_rd2 P0) (p_a P0) (p_b P0) (p_db P0) (p_dt2 P0)
         (map (fun j => srcs (k * nsrc + j)%Z) (zrange 0 nsrc)) (map (fun j => recs (k * nrec + j)%Z) (zrange 0 nrec)))
      (map (fun j => recssc (k * nrecsc + j)%Z) (zrange 0 nrecsc)) pw (if vbat then (fun i => v (k * prodZ (p_shape P0) + i)%Z) else v) (if sbat then (fun i => scatter (k * prodZ (p_shape P0) + i)%Z) else scatter) vis vrg srg sr
      (fun t => map (fun j => f t (k * nsrc + j)%Z) (zrange 0 nsrc)) (fun t => map (fun j => fsc t (k * nsrc + j)%Z) (zrange 0 nsrc)) nt cb
      (fun s i => w0 s (k * prodZ (p_shape P0) + i)%Z) (fun s i => wsc0 s (k * prodZ (p_shape P0) + i)%Z) (u k) (usc k) = Some o /\
    ueq K P0 (go_u K out k) (bo_u K o) /\ ueq K P0 (go_usc K out k) (bo_usc K o) /\
    (forall t, map (fun j => go_r K out t (k * nrec + j)%Z) (zrange 0 nrec) = bo_r K o t) /\
    (forall t, map (fun j => go_rsc K out t (k * nrecsc + j)%Z) (zrange 0 nrecsc) = bo_rsc K o t) /\
    (forall s i, (0 <= i < prodZ (p_shape P0))%Z -> go_w K out s (k * prodZ (p_shape P0) + i)%Z = bo_w K o s i) /\
    (forall s i, (0 <= i < prodZ (p_shape P0))%Z -> go_wsc K out s (k * prodZ (p_shape P0) + i)%Z = bo_wsc K o s i).
Proof. exact (gpu_born_forward_shot K P0 NS nsrc nrec nrecsc srcs recs recssc vbat sbat). Qed.
Print Assumptions C64_snapshots.

(** C64: backward.  The same for the gradients of both wavefields and both kinds of source
    amplitudes. *)
Theorem C64_backward (K : ops) (Kr : is_ring K) (P0 : par K) (pw : nat -> Z * Z) (NS nsrc nrec nrecsc : Z) (srcs recs recssc : Z -> Z) (vbat sbat : bool) :
  geom_ok K P0 pw -> (0 <= nsrc < 2 ^ 31)%Z -> (0 <= nrec < 2 ^ 31)%Z -> (0 <= nrecsc < 2 ^ 31)%Z ->
  (1 <= length (p_shape P0) <= 3)%nat /\ Forall (fun m => 2 * fd_pad (p_acc P0) <= m < 2 ^ 31)%Z (p_shape P0) /\ (0 <= NS < 2 ^ 31)%Z ->
  (forall j, (0 <= j < NS * nsrc)%Z -> loc_ok K P0 (srcs j)) ->
  (forall j, (0 <= j < NS * nrec)%Z -> loc_ok K P0 (recs j)) ->
  (forall j, (0 <= j < NS * nrecsc)%Z -> loc_ok K P0 (recssc j)) ->
  forall (v scatter : arr K) (sr nt : Z), (0 < sr)%Z ->
  forall w wsc vrg srg gr grsc cb g gsc,
  (forall k j j', (0 <= k < NS)%Z -> (0 <= j < nrec)%Z -> (0 <= j' < nrec)%Z -> (0 <= recs (k * nrec + j))%Z -> recs (k * nrec + j)%Z = recs (k * nrec + j')%Z -> j = j') ->
  (forall k j j', (0 <= k < NS)%Z -> (0 <= j < nrecsc)%Z -> (0 <= j' < nrecsc)%Z -> (0 <= recssc (k * nrecsc + j))%Z -> recssc (k * nrecsc + j)%Z = recssc (k * nrecsc + j')%Z -> j = j') ->
  cb_ok nt sr cb -> forall cb' vis out k, cb_ok nt sr cb' -> (0 <= k < NS)%Z -> bvis K P0 pw vis ->
  gpu_born_backward K P0 NS nsrc nrec nrecsc srcs recs recssc vbat sbat pw v scatter w wsc vrg srg sr gr grsc nt cb g gsc out ->
  exists o,
    born_backward K (mkpar (p_acc P0) (p_shape P0) (p_rd P0) (p_rd2 P0) (p_a P0) (p_b P0) (p_db P0) (p_dt2 P0)
         (map (fun j => srcs (k * nsrc + j)%Z) (zrange 0 nsrc)) (map (fun j => recs (k * nrec + j)%Z) (zrange 0 nrec)))
      (map (fun j => recssc (k * nrecsc + j)%Z) (zrange 0 nrecsc)) pw (if vbat then (fun i => v (k * prodZ (p_shape P0) + i)%Z) else v) (if sbat then (fun i => scatter (k * prodZ (p_shape P0) + i)%Z) else scatter) vis
      (fun s i => w s (k * prodZ (p_shape P0) + i)%Z) (fun s i => wsc s (k * prodZ (p_shape P0) + i)%Z)
      vrg srg sr (fun t => map (fun j => gr t (k * nrec + j)%Z) (zrange 0 nrec)) (fun t => map (fun j => grsc t (k * nrecsc + j)%Z) (zrange 0 nrecsc)) nt cb' (g k) (gsc k) = Some o /\
    ueq K P0 (gg_u K out k) (bg_u K o) /\ ueq K P0 (gg_usc K out k) (bg_usc K o) /\
    (forall t, map (fun j => gg_f K out t (k * nsrc + j)%Z) (zrange 0 nsrc) = bg_f K o t) /\
    (forall t, map (fun j => gg_fsc K out t (k * nsrc + j)%Z) (zrange 0 nsrc) = bg_fsc K o t).
Proof. exact (gpu_born_backward_cpu K Kr P0 pw NS nsrc nrec nrecsc srcs recs recssc vbat sbat). Qed.
Print Assumptions C64_backward.

(** C64: the gradient of the wavespeed is that of each shot (batched model) or the sum over the
    shots.  Missing: a shared model, several shots and callbacks
    ([C64_callback_gradient_refuted]). *)
Theorem C64_velocity_gradient_partial (K : ops) (Kr : is_ring K) (P0 : par K) (pw : nat -> Z * Z) (NS nsrc nrec nrecsc : Z) (srcs recs recssc : Z -> Z) (vbat sbat : bool) :
  geom_ok K P0 pw -> (0 <= nsrc < 2 ^ 31)%Z -> (0 <= nrec < 2 ^ 31)%Z -> (0 <= nrecsc < 2 ^ 31)%Z ->
  (1 <= length (p_shape P0) <= 3)%nat /\ Forall (fun m => 2 * fd_pad (p_acc P0) <= m < 2 ^ 31)%Z (p_shape P0) /\ (0 <= NS < 2 ^ 31)%Z ->
  (forall j, (0 <= j < NS * nsrc)%Z -> loc_ok K P0 (srcs j)) ->
  (forall j, (0 <= j < NS * nrec)%Z -> loc_ok K P0 (recs j)) ->
  (forall j, (0 <= j < NS * nrecsc)%Z -> loc_ok K P0 (recssc j)) ->
  forall (v scatter : arr K) (sr nt : Z), (0 < sr)%Z ->
  forall w wsc srg gr grsc cb g gsc,
  (forall k j j', (0 <= k < NS)%Z -> (0 <= j < nrec)%Z -> (0 <= j' < nrec)%Z -> (0 <= recs (k * nrec + j))%Z -> recs (k * nrec + j)%Z = recs (k * nrec + j')%Z -> j = j') ->
  (forall k j j', (0 <= k < NS)%Z -> (0 <= j < nrecsc)%Z -> (0 <= j' < nrecsc)%Z -> (0 <= recssc (k * nrecsc + j))%Z -> recssc (k * nrecsc + j)%Z = recssc (k * nrecsc + j')%Z -> j = j') ->
  cb_ok nt sr cb -> forall cb' vis out, (1 <= NS)%Z -> (vbat = true \/ NS = 1%Z \/ cb = None) -> cb_ok nt sr cb' -> bvis K P0 pw vis ->
  gpu_born_backward K P0 NS nsrc nrec nrecsc srcs recs recssc vbat sbat pw v scatter w wsc true srg sr gr grsc nt cb g gsc out ->
  let one k i := match born_backward K (mkpar (p_acc P0) (p_shape P0) (p_rd P0) (p_rd2 P0) (p_a P0) (p_b P0) (p_db P0) (p_dt2 P0)
         (map (fun j => srcs (k * nsrc + j)%Z) (zrange 0 nsrc)) (map (fun j => recs (k * nrec + j)%Z) (zrange 0 nrec)))
      (map (fun j => recssc (k * nrecsc + j)%Z) (zrange 0 nrecsc)) pw (if vbat then (fun i => v (k * prodZ (p_shape P0) + i)%Z) else v) (if sbat then (fun i => scatter (k * prodZ (p_shape P0) + i)%Z) else scatter) vis
      (fun s i => w s (k * prodZ (p_shape P0) + i)%Z) (fun s i => wsc s (k * prodZ (p_shape P0) + i)%Z)
      true srg sr (fun t => map (fun j => gr t (k * nrec + j)%Z) (zrange 0 nrec)) (fun t => map (fun j => grsc t (k * nrecsc + j)%Z) (zrange 0 nrecsc)) nt cb' (g k) (gsc k) with Some o => bg_v K o i | None => 0 end in
  if vbat then forall k i, (0 <= k < NS)%Z -> (0 <= i < prodZ (p_shape P0))%Z -> gg_v K out (k * prodZ (p_shape P0) + i)%Z = one k i
  else forall i, (0 <= i < prodZ (p_shape P0))%Z -> gg_v K out i = sumf (zrange 0 NS) (fun k => one k i).
Proof.
  exact (fun Hg H1 H2 H3 H4 H5 H6 H7 v scatter sr nt Hsr w wsc srg gr grsc cb g gsc Hu Husc Hcb cb' vis out Hns Hcase =>
    gpu_born_backward_grad K Kr P0 pw NS nsrc nrec nrecsc srcs recs recssc vbat sbat Hg H1 H2 H3 H4 H5 H6 H7 v scatter sr nt Hsr w wsc true srg gr grsc cb g gsc Hu Husc Hcb false cb' vis out Hns Hcase eq_refl).
Qed.
Print Assumptions C64_velocity_gradient_partial.

(** C64: the gradient of the scattering potential is that of each shot (batched model) or the sum over the
    shots.  Missing: a shared model, several shots and callbacks
    ([C64_callback_gradient_refuted]). *)
Theorem C64_scatter_gradient_partial (K : ops) (Kr : is_ring K) (P0 : par K) (pw : nat -> Z * Z) (NS nsrc nrec nrecsc : Z) (srcs recs recssc : Z -> Z) (vbat sbat : bool) :
  geom_ok K P0 pw -> (0 <= nsrc < 2 ^ 31)%Z -> (0 <= nrec < 2 ^ 31)%Z -> (0 <= nrecsc < 2 ^ 31)%Z ->
  (1 <= length (p_shape P0) <= 3)%nat /\ Forall (fun m => 2 * fd_pad (p_acc P0) <= m < 2 ^ 31)%Z (p_shape P0) /\ (0 <= NS < 2 ^ 31)%Z ->
  (forall j, (0 <= j < NS * nsrc)%Z -> loc_ok K P0 (srcs j)) ->
  (forall j, (0 <= j < NS * nrec)%Z -> loc_ok K P0 (recs j)) ->
  (forall j, (0 <= j < NS * nrecsc)%Z -> loc_ok K P0 (recssc j)) ->
  forall (v scatter : arr K) (sr nt : Z), (0 < sr)%Z ->
  forall w wsc vrg gr grsc cb g gsc,
  (forall k j j', (0 <= k < NS)%Z -> (0 <= j < nrec)%Z -> (0 <= j' < nrec)%Z -> (0 <= recs (k * nrec + j))%Z -> recs (k * nrec + j)%Z = recs (k * nrec + j')%Z -> j = j') ->
  (forall k j j', (0 <= k < NS)%Z -> (0 <= j < nrecsc)%Z -> (0 <= j' < nrecsc)%Z -> (0 <= recssc (k * nrecsc + j))%Z -> recssc (k * nrecsc + j)%Z = recssc (k * nrecsc + j')%Z -> j = j') ->
  cb_ok nt sr cb -> forall cb' vis out, (1 <= NS)%Z -> (sbat = true \/ NS = 1%Z \/ cb = None) -> cb_ok nt sr cb' -> bvis K P0 pw vis ->
  gpu_born_backward K P0 NS nsrc nrec nrecsc srcs recs recssc vbat sbat pw v scatter w wsc vrg true sr gr grsc nt cb g gsc out ->
  let one k i := match born_backward K (mkpar (p_acc P0) (p_shape P0) (p_rd P0) (p_rd2 P0) (p_a P0) (p_b P0) (p_db P0) (p_dt2 P0)
         (map (fun j => srcs (k * nsrc + j)%Z) (zrange 0 nsrc)) (map (fun j => recs (k * nrec + j)%Z) (zrange 0 nrec)))
      (map (fun j => recssc (k * nrecsc + j)%Z) (zrange 0 nrecsc)) pw (if vbat then (fun i => v (k * prodZ (p_shape P0) + i)%Z) else v) (if sbat then (fun i => scatter (k * prodZ (p_shape P0) + i)%Z) else scatter) vis
      (fun s i => w s (k * prodZ (p_shape P0) + i)%Z) (fun s i => wsc s (k * prodZ (p_shape P0) + i)%Z)
      vrg true sr (fun t => map (fun j => gr t (k * nrec + j)%Z) (zrange 0 nrec)) (fun t => map (fun j => grsc t (k * nrecsc + j)%Z) (zrange 0 nrecsc)) nt cb' (g k) (gsc k) with Some o => bg_scatter K o i | None => 0 end in
  if sbat then forall k i, (0 <= k < NS)%Z -> (0 <= i < prodZ (p_shape P0))%Z -> gg_scatter K out (k * prodZ (p_shape P0) + i)%Z = one k i
  else forall i, (0 <= i < prodZ (p_shape P0))%Z -> gg_scatter K out i = sumf (zrange 0 NS) (fun k => one k i).
Proof.
  exact (fun Hg H1 H2 H3 H4 H5 H6 H7 v scatter sr nt Hsr w wsc vrg gr grsc cb g gsc Hu Husc Hcb cb' vis out Hns Hcase =>
    gpu_born_backward_grad K Kr P0 pw NS nsrc nrec nrecsc srcs recs recssc vbat sbat Hg H1 H2 H3 H4 H5 H6 H7 v scatter sr nt Hsr w wsc vrg true gr grsc cb g gsc Hu Husc Hcb true cb' vis out Hns Hcase eq_refl).
Qed.
Print Assumptions C64_scatter_gradient_partial.

(** C64: runs exist.  With at most 65535 blocks in the second and third directions of every
    grid no launch is refused, forward and backward. *)
Theorem C64_runs (K : ops) (P0 : par K) (NS nsrc nrec nrecsc : Z) (srcs recs recssc : Z -> Z) (vbat sbat : bool) :
  (0 <= nsrc < 2 ^ 31)%Z -> (0 <= nrec < 2 ^ 31)%Z -> (0 <= nrecsc < 2 ^ 31)%Z -> (0 < NS < 2 ^ 16)%Z ->
  let fd := fd_pad (p_acc P0) in
  match p_shape P0 with
  | [nz; ny; nx] => (2 * fd < nx < 2 ^ 31 /\ 2 * fd < ny <= 2 * fd + 4 * 65535 /\ 2 * fd < nz <= 2 * fd + 65535)%Z
  | [ny; nx] => (2 * fd < nx < 2 ^ 31 /\ 2 * fd < ny <= 2 * fd + 4 * 65535)%Z
  | [nx] => (2 * fd < nx < 2 ^ 31)%Z
  | _ => False
  end ->
  (forall pw v scatter vrg srg sr f fsc nt cb w0 wsc0 u usc, exists out, gpu_born_forward K P0 NS nsrc nrec nrecsc srcs recs recssc vbat sbat pw v scatter vrg srg sr f fsc nt cb w0 wsc0 u usc out) /\
  (forall pw v scatter w wsc vrg srg sr gr grsc nt cb g gsc, exists out, gpu_born_backward K P0 NS nsrc nrec nrecsc srcs recs recssc vbat sbat pw v scatter w wsc vrg srg sr gr grsc nt cb g gsc out).
Proof. exact (gpu_born_exists K P0 NS nsrc nrec nrecsc srcs recs recssc vbat sbat). Qed.
Print Assumptions C64_runs.

(** *** Two shots of the 1-D problem of [ScalarEx] *)
Definition nx_recssc (j : Z) : Z := nth (Z.to_nat j) [5; 3; 2; 6]%Z 0%Z.
Definition nx_fsc (t : Z) : arr Qc_ops := fun j => qz (t - 2 * j + 1).
Definition nx_usc (k : Z) : st Qc_ops := exb_usc.
Definition nx_grsc (t : Z) : arr Qc_ops := fun j => qz (2 * t - j + 1).
Definition nx_wsc (s : Z) : arr Qc_ops := fun i => qz (s - i + 3).
Lemma nx_rec j : (0 <= j < 2 * 2)%Z -> loc_ok Qc_ops exP (nx_recssc j).
Proof.
  intros H. apply ex2_cases in H. destruct H as [->|[->|[->| ->]]]; right; (split; [split; [discriminate|reflexivity]|reflexivity]).
Qed.
Lemma nx_rec_distinct k j j' : (0 <= k < 2)%Z -> (0 <= j < 2)%Z -> (0 <= j' < 2)%Z -> (0 <= nx_recssc (k * 2 + j))%Z -> nx_recssc (k * 2 + j)%Z = nx_recssc (k * 2 + j')%Z -> j = j'.
Proof.
  intros Hk Hj Hj'. apply two_cases in Hk, Hj, Hj'. destruct Hk as [-> | ->]; destruct Hj as [-> | ->]; destruct Hj' as [-> | ->]; cbn; intros; try reflexivity; discriminate.
Qed.

Example gpu_born_forward_example : exists out,
  gpu_born_forward Qc_ops exP 2 2 2 2 ex2_srcs gx_recs nx_recssc false false expw ex_v exb_scat true true 1 ex2_f nx_fsc 3 (Some 2%Z) (fun _ _ => qz 0) (fun _ _ => qz 0) ex2_u nx_usc out /\
  row (go_r Qc_ops out 2%Z) 2 1 <> [qz 0; qz 0] /\ row (go_rsc Qc_ops out 2%Z) 2 1 <> [qz 0; qz 0].
Proof.
  destruct (proj1 (C64_runs Qc_ops exP 2 2 2 2 ex2_srcs gx_recs nx_recssc false false ltac:(lia) ltac:(lia) ltac:(lia) ltac:(lia) gx_fit) expw ex_v exb_scat true true 1%Z ex2_f nx_fsc 3%Z (Some 2%Z) (fun _ _ => qz 0) (fun _ _ => qz 0) ex2_u nx_usc) as [out H].
  exists out. split; [exact H|].
  destruct (C64_forward Qc_ops Qc_is_ring exP expw 2 2 2 2 ex2_srcs gx_recs nx_recssc false false ex_geom ltac:(lia) ltac:(lia) ltac:(lia) gx_sizes ex2_src gx_rec nx_rec ex_v exb_scat 1 3 ltac:(lia) true true ex2_f nx_fsc (Some 2%Z) None
    (fun _ _ => qz 0) (fun _ _ => qz 0) (fun _ _ => qz 0) (fun _ _ => qz 0) ex2_u nx_usc ex_visF out 1%Z gx_src_distinct ltac:(cbn; lia) ltac:(cbn; lia) ltac:(lia) ex_visF_ok H) as (o & E & _ & _ & A & B).
  specialize (A 2%Z). specialize (B 2%Z). change (row (go_r Qc_ops out 2%Z) 2 1 = bo_r Qc_ops o 2%Z) in A. change (row (go_rsc Qc_ops out 2%Z) 2 1 = bo_rsc Qc_ops o 2%Z) in B. rewrite A, B.
  match type of E with ?t = _ => assert (X : match t with Some o => nz (nth 0 (bo_r Qc_ops o 2%Z) (qz 0)) && nz (nth 0 (bo_rsc Qc_ops o 2%Z) (qz 0)) | None => false end = true) by (vm_compute; reflexivity) end.
  rewrite E in X. apply andb_true_iff in X. destruct X as [X Y]. apply nz_spec in X, Y. split; intros Hc; [apply X|apply Y]; rewrite Hc; reflexivity.
Qed.

Example gpu_born_backward_example : exists out,
  gpu_born_backward Qc_ops exP 2 2 2 2 ex2_srcs gx_recs nx_recssc false false expw ex_v exb_scat ex2_store nx_wsc true true 1 ex2_gr nx_grsc 3 None ex2_g nx_usc out /\
  row (gg_f Qc_ops out 0%Z) 2 1 <> [qz 0; qz 0] /\ row (gg_fsc Qc_ops out 0%Z) 2 1 <> [qz 0; qz 0] /\ gg_v Qc_ops out 3%Z <> qz 0 /\ gg_scatter Qc_ops out 3%Z <> qz 0.
Proof.
  destruct (proj2 (C64_runs Qc_ops exP 2 2 2 2 ex2_srcs gx_recs nx_recssc false false ltac:(lia) ltac:(lia) ltac:(lia) ltac:(lia) gx_fit) expw ex_v exb_scat ex2_store nx_wsc true true 1%Z ex2_gr nx_grsc 3%Z None ex2_g nx_usc) as [out H].
  exists out. split; [exact H|].
  destruct (C64_backward Qc_ops Qc_is_ring exP expw 2 2 2 2 ex2_srcs gx_recs nx_recssc false false ex_geom ltac:(lia) ltac:(lia) ltac:(lia) gx_sizes ex2_src gx_rec nx_rec ex_v exb_scat 1 3 ltac:(lia) ex2_store nx_wsc true true ex2_gr nx_grsc None ex2_g nx_usc
    gx_rec_distinct nx_rec_distinct ltac:(cbn; lia) (Some 2%Z) ex_visB out 1%Z ltac:(cbn; lia) ltac:(lia) ex_visB_ok H) as (o & E & _ & _ & A & B).
  specialize (A 0%Z). specialize (B 0%Z). change (row (gg_f Qc_ops out 0%Z) 2 1 = bg_f Qc_ops o 0%Z) in A. change (row (gg_fsc Qc_ops out 0%Z) 2 1 = bg_fsc Qc_ops o 0%Z) in B. rewrite A, B.
  match type of E with ?t = _ => assert (X : match t with Some o => nz (nth 0 (bg_f Qc_ops o 0%Z) (qz 0)) && nz (nth 0 (bg_fsc Qc_ops o 0%Z) (qz 0)) | None => false end = true) by (vm_compute; reflexivity) end.
  rewrite E in X. apply andb_true_iff in X. destruct X as [X Y]. apply nz_spec in X, Y.
  split; [|split]; [intros Hc; apply X; rewrite Hc; reflexivity|intros Hc; apply Y; rewrite Hc; reflexivity|]. clear A B E X Y.
  pose proof (C64_velocity_gradient_partial Qc_ops Qc_is_ring exP expw 2 2 2 2 ex2_srcs gx_recs nx_recssc false false ex_geom ltac:(lia) ltac:(lia) ltac:(lia) gx_sizes ex2_src gx_rec nx_rec ex_v exb_scat 1 3 ltac:(lia) ex2_store nx_wsc true ex2_gr nx_grsc None ex2_g nx_usc
    gx_rec_distinct nx_rec_distinct ltac:(cbn; lia) (Some 2%Z) ex_visB out ltac:(lia) (or_intror (or_intror eq_refl)) ltac:(cbn; lia) ex_visB_ok H) as A.
  pose proof (C64_scatter_gradient_partial Qc_ops Qc_is_ring exP expw 2 2 2 2 ex2_srcs gx_recs nx_recssc false false ex_geom ltac:(lia) ltac:(lia) ltac:(lia) gx_sizes ex2_src gx_rec nx_rec ex_v exb_scat 1 3 ltac:(lia) ex2_store nx_wsc true ex2_gr nx_grsc None ex2_g nx_usc
    gx_rec_distinct nx_rec_distinct ltac:(cbn; lia) (Some 2%Z) ex_visB out ltac:(lia) (or_intror (or_intror eq_refl)) ltac:(cbn; lia) ex_visB_ok H) as B.
  cbv beta iota zeta in A, B. split; [rewrite (A 3%Z) by (cbn; lia)|rewrite (B 3%Z) by (cbn; lia)];
    (match goal with |- ?x <> _ => assert (X : nz x = true) by (vm_compute; reflexivity) end; apply nz_spec in X; exact X).
Qed.

(** C64 for the gradients of the models is false for shared models, several shots and callbacks:
    as in scalar.cu the buffers of the shots are not cleared between calls and [combine_grad] adds
    them again at the end of every call (scalar_born.cu:1631-1642, scalar_born.py:1156-1265).  In
    every run of two shots and two steps with callbacks after every step both gradients are
    wrong. *)
Theorem C64_callback_gradient_refuted : exists (P0 : par Qc_ops) pw (srcs recs recssc : Z -> Z) v scatter w wsc gr grsc g gsc vis i,
  geom_ok Qc_ops P0 pw /\ bvis Qc_ops P0 pw vis /\ (0 <= i < prodZ (p_shape P0))%Z /\
  (exists out, gpu_born_backward Qc_ops P0 2 2 2 2 srcs recs recssc false false pw v scatter w wsc true true 1 gr grsc 2 (Some 1%Z) g gsc out) /\
  forall out, gpu_born_backward Qc_ops P0 2 2 2 2 srcs recs recssc false false pw v scatter w wsc true true 1 gr grsc 2 (Some 1%Z) g gsc out ->
    let one k := born_backward Qc_ops (mkpar (p_acc P0) (p_shape P0) (p_rd P0) (p_rd2 P0) (p_a P0) (p_b P0) (p_db P0) (p_dt2 P0)
         (map (fun j => srcs (k * 2 + j)%Z) (zrange 0 2)) (map (fun j => recs (k * 2 + j)%Z) (zrange 0 2)))
      (map (fun j => recssc (k * 2 + j)%Z) (zrange 0 2)) pw v scatter vis (fun s i => w s (k * prodZ (p_shape P0) + i)%Z) (fun s i => wsc s (k * prodZ (p_shape P0) + i)%Z)
      true true 1 (fun t => map (fun j => gr t (k * 2 + j)%Z) (zrange 0 2)) (fun t => map (fun j => grsc t (k * 2 + j)%Z) (zrange 0 2)) 2 (Some 1%Z) (g k) (gsc k) in
    gg_v Qc_ops out i <> sumf (K := Qc_ops) (zrange 0 2) (fun k => match one k with Some o => bg_v Qc_ops o i | None => qz 0 end) /\
    gg_scatter Qc_ops out i <> sumf (K := Qc_ops) (zrange 0 2) (fun k => match one k with Some o => bg_scatter Qc_ops o i | None => qz 0 end).
Proof.
  exists exP, expw, ex2_srcs, gx_recs, nx_recssc, ex_v, exb_scat, ex2_store, nx_wsc, ex2_gr, nx_grsc, ex2_g, nx_usc, ex_visB, 3%Z. split; [exact ex_geom|]. split; [exact ex_visB_ok|]. split; [split; [lia|reflexivity]|].
  split; [exact (proj2 (C64_runs Qc_ops exP 2 2 2 2 ex2_srcs gx_recs nx_recssc false false ltac:(lia) ltac:(lia) ltac:(lia) ltac:(lia) gx_fit) expw ex_v exb_scat ex2_store nx_wsc true true 1%Z ex2_gr nx_grsc 2%Z (Some 1%Z) ex2_g nx_usc)|].
  intros out H one.
  assert (A : forall b, gg_of Qc_ops b out 3%Z = _) by (intros b; refine (gpu_born_backward_again Qc_ops Qc_is_ring exP expw 2 2 2 2 ex2_srcs gx_recs nx_recssc false false ex_geom ltac:(lia) ltac:(lia) ltac:(lia) gx_sizes ex2_src gx_rec nx_rec ex_v exb_scat 1 2 ex2_store nx_wsc true true ex2_gr nx_grsc (Some 1%Z) ex2_g nx_usc gx_rec_distinct nx_rec_distinct b out [3%Z] ltac:(lia) _ eq_refl H); destruct b; reflexivity).
  pose proof (A false) as A1. pose proof (A true) as A2. cbn [gg_of] in A1, A2. clear A. split; [rewrite A1|rewrite A2];
    (match goal with |- ?x <> ?y => assert (X : nz (x - y)%Qc = true) by (vm_compute; reflexivity); apply nz_spec in X; intros C; apply X; rewrite C; apply Qcplus_opp_r end).
Qed.
Print Assumptions C64_callback_gradient_refuted.
