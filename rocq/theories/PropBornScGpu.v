(** * Property C66: the reduced backward pass of the scalar Born propagator on CUDA devices. *)
From Coq Require Import List ZArith QArith Qcanon Lia Bool Permutation.
From Verif Require Import Ops Sums Grid Stencil ScalarModel ScalarRefine ScalarForward ScalarBackward ScalarFunc ScalarEx
  ShotsModel Shots ShotsThm ShotsEx Threads GpuModel GpuLaunch GpuFwd GpuLocs GpuThm PropGpu BornModel BornEx BornGpuModel BornGpuThm PropBornGpu BornScGpuModel BornScGpuThm.
Import ListNotations.
Local Open Scope K_scope.

(** C66: however the threads of every launch are interleaved, the gradients of the scattered
    wavefields and of the scattered source amplitudes that shot [k] gets from the device are those
    of the reduced pass of that shot alone on the CPU, with any order of the cells and any callback
    frequency.  The receivers of the background ([rec]) do not matter. *)
Theorem C66_backward (K : ops) (Kr : is_ring K) (P0 : par K) (pw : nat -> Z * Z) (NS nsrc nrecsc : Z) (srcs recssc : Z -> Z) (vbat sbat : bool) :
  geom_ok K P0 pw -> (0 <= nsrc < 2 ^ 31)%Z -> (0 <= nrecsc < 2 ^ 31)%Z ->
  (1 <= length (p_shape P0) <= 3)%nat /\ Forall (fun m => 2 * fd_pad (p_acc P0) <= m < 2 ^ 31)%Z (p_shape P0) /\ (0 <= NS < 2 ^ 31)%Z ->
  (forall j, (0 <= j < NS * nsrc)%Z -> loc_ok K P0 (srcs j)) ->
  (forall j, (0 <= j < NS * nrecsc)%Z -> loc_ok K P0 (recssc j)) ->
  forall (v : arr K) (sr nt : Z), (0 < sr)%Z ->
  forall w srg grsc cb gsc,
  (forall k j j', (0 <= k < NS)%Z -> (0 <= j < nrecsc)%Z -> (0 <= j' < nrecsc)%Z -> (0 <= recssc (k * nrecsc + j))%Z -> recssc (k * nrecsc + j)%Z = recssc (k * nrecsc + j')%Z -> j = j') ->
  cb_ok nt sr cb -> forall cb' vis out k, cb_ok nt sr cb' -> (0 <= k < NS)%Z -> bvis K P0 pw vis ->
  gpu_born_backward_sc K P0 NS nsrc nrecsc srcs recssc vbat sbat pw v w srg sr grsc nt cb gsc out ->
  forall rec, exists U1 f1 gs1,
    born_backward_sc K (mkpar (p_acc P0) (p_shape P0) (p_rd P0) (p_rd2 P0) (p_a P0) (p_b P0) (p_db P0) (p_dt2 P0)
         (map (fun j => srcs (k * nsrc + j)%Z) (zrange 0 nsrc)) rec)
      (map (fun j => recssc (k * nrecsc + j)%Z) (zrange 0 nrecsc)) pw (if vbat then (fun i => v (k * prodZ (p_shape P0) + i)%Z) else v) vis
      (fun s i => w s (k * prodZ (p_shape P0) + i)%Z) srg sr (fun t => map (fun j => grsc t (k * nrecsc + j)%Z) (zrange 0 nrecsc)) nt cb' (gsc k) = Some (U1, f1, gs1) /\
    let '(U, f, _) := out in
    ueq K P0 (U k) U1 /\ (forall t, map (fun j => f t (k * nsrc + j)%Z) (zrange 0 nsrc) = f1 t).
Proof.
  exact (fun Hg H1 H2 H3 H4 H5 v sr nt Hsr w srg grsc cb gsc Hu Hcb cb' vis out k Hc' Hk Hv Ho rec =>
    gpu_born_backward_sc_cpu K Kr P0 pw NS nsrc nrecsc srcs recssc vbat sbat Hg H1 H2 H3 H4 H5 v sr nt Hsr w srg grsc cb gsc Hu Hcb cb' vis out k Hc' Hk Hv Ho).
Qed.
Print Assumptions C66_backward.

(** C66: the gradient of the scattering potential is that of each shot (batched potential) or the
    sum over the shots.  Missing: a shared potential, several shots and callbacks
    ([C66_callback_gradient_refuted]). *)
Theorem C66_scatter_gradient_partial (K : ops) (Kr : is_ring K) (P0 : par K) (pw : nat -> Z * Z) (NS nsrc nrecsc : Z) (srcs recssc : Z -> Z) (vbat sbat : bool) :
  geom_ok K P0 pw -> (0 <= nsrc < 2 ^ 31)%Z -> (0 <= nrecsc < 2 ^ 31)%Z ->
  (1 <= length (p_shape P0) <= 3)%nat /\ Forall (fun m => 2 * fd_pad (p_acc P0) <= m < 2 ^ 31)%Z (p_shape P0) /\ (0 <= NS < 2 ^ 31)%Z ->
  (forall j, (0 <= j < NS * nsrc)%Z -> loc_ok K P0 (srcs j)) ->
  (forall j, (0 <= j < NS * nrecsc)%Z -> loc_ok K P0 (recssc j)) ->
  forall (v : arr K) (sr nt : Z), (0 < sr)%Z ->
  forall w grsc cb gsc,
  (forall k j j', (0 <= k < NS)%Z -> (0 <= j < nrecsc)%Z -> (0 <= j' < nrecsc)%Z -> (0 <= recssc (k * nrecsc + j))%Z -> recssc (k * nrecsc + j)%Z = recssc (k * nrecsc + j')%Z -> j = j') ->
  cb_ok nt sr cb -> forall cb' vis U f gs, (1 <= NS)%Z -> (sbat = true \/ NS = 1%Z \/ cb = None) -> cb_ok nt sr cb' -> bvis K P0 pw vis ->
  gpu_born_backward_sc K P0 NS nsrc nrecsc srcs recssc vbat sbat pw v w true sr grsc nt cb gsc (U, f, gs) ->
  forall rec : list Z, let one k := match born_backward_sc K (mkpar (p_acc P0) (p_shape P0) (p_rd P0) (p_rd2 P0) (p_a P0) (p_b P0) (p_db P0) (p_dt2 P0)
         (map (fun j => srcs (k * nsrc + j)%Z) (zrange 0 nsrc)) rec)
      (map (fun j => recssc (k * nrecsc + j)%Z) (zrange 0 nrecsc)) pw (if vbat then (fun i => v (k * prodZ (p_shape P0) + i)%Z) else v) vis
      (fun s i => w s (k * prodZ (p_shape P0) + i)%Z) true sr (fun t => map (fun j => grsc t (k * nrecsc + j)%Z) (zrange 0 nrecsc)) nt cb' (gsc k) with Some (_, _, gs1) => gs1 | None => fun _ => 0 end in
  if sbat then forall k i, (0 <= k < NS)%Z -> (0 <= i < prodZ (p_shape P0))%Z -> gs (k * prodZ (p_shape P0) + i)%Z = one k i
  else forall i, (0 <= i < prodZ (p_shape P0))%Z -> gs i = sumf (zrange 0 NS) (fun k => one k i).
Proof.
  exact (fun Hg H1 H2 H3 H4 H5 v sr nt Hsr w grsc cb gsc Hu Hcb cb' vis U f gs Hns Hcase Hc' Hv Ho rec =>
    gpu_born_backward_sc_grad K Kr P0 pw NS nsrc nrecsc srcs recssc vbat sbat Hg H1 H2 H3 H4 H5 v sr nt Hsr w true grsc cb gsc Hu Hcb cb' vis (U, f, gs) Hns Hcase eq_refl Hc' Hv Ho).
Qed.
Print Assumptions C66_scatter_gradient_partial.

(** C66: choosing the reduced pass is safe.  Every run of the full backward pass on the device and
    every run of the reduced one give the same gradients of the scattered wavefields, the scattered
    source amplitudes and the scattering potential (for the potential: with callbacks only if it is
    batched or there is one shot). *)
Theorem C66_reduced_is_full (K : ops) (Kr : is_ring K) (P0 : par K) (pw : nat -> Z * Z) (NS nsrc nrec nrecsc : Z) (srcs recs recssc : Z -> Z) (vbat sbat : bool) :
  geom_ok K P0 pw -> (0 <= nsrc < 2 ^ 31)%Z -> (0 <= nrec < 2 ^ 31)%Z -> (0 <= nrecsc < 2 ^ 31)%Z ->
  (1 <= length (p_shape P0) <= 3)%nat /\ Forall (fun m => 2 * fd_pad (p_acc P0) <= m < 2 ^ 31)%Z (p_shape P0) /\ (0 <= NS < 2 ^ 31)%Z ->
  (forall j, (0 <= j < NS * nsrc)%Z -> loc_ok K P0 (srcs j)) ->
  (forall j, (0 <= j < NS * nrec)%Z -> loc_ok K P0 (recs j)) ->
  (forall j, (0 <= j < NS * nrecsc)%Z -> loc_ok K P0 (recssc j)) ->
  (forall k j j', (0 <= k < NS)%Z -> (0 <= j < nrec)%Z -> (0 <= j' < nrec)%Z -> (0 <= recs (k * nrec + j))%Z -> recs (k * nrec + j)%Z = recs (k * nrec + j')%Z -> j = j') ->
  (forall k j j', (0 <= k < NS)%Z -> (0 <= j < nrecsc)%Z -> (0 <= j' < nrecsc)%Z -> (0 <= recssc (k * nrecsc + j))%Z -> recssc (k * nrecsc + j)%Z = recssc (k * nrecsc + j')%Z -> j = j') ->
  forall v scatter w wsc vrg srg sr gr grsc nt cb cb' g gsc out out', (0 < sr)%Z -> cb_ok nt sr cb -> cb_ok nt sr cb' ->
  gpu_born_backward K P0 NS nsrc nrec nrecsc srcs recs recssc vbat sbat pw v scatter w wsc vrg srg sr gr grsc nt cb g gsc out ->
  gpu_born_backward_sc K P0 NS nsrc nrecsc srcs recssc vbat sbat pw v w srg sr grsc nt cb' gsc out' ->
  let '(U, f, gs) := out' in
  (forall k, (0 <= k < NS)%Z -> ueq K P0 (U k) (gg_usc K out k) /\
     forall t, map (fun j => f t (k * nsrc + j)%Z) (zrange 0 nsrc) = map (fun j => gg_fsc K out t (k * nsrc + j)%Z) (zrange 0 nsrc)) /\
  ((1 <= NS)%Z -> srg = true -> sbat = true \/ NS = 1%Z \/ (cb = None /\ cb' = None) ->
   forall i, (0 <= i < (if sbat then NS * prodZ (p_shape P0) else prodZ (p_shape P0)))%Z -> gs i = gg_scatter K out i).
Proof. exact (gpu_born_reduced K Kr P0 pw NS nsrc nrec nrecsc srcs recs recssc vbat sbat). Qed.
Print Assumptions C66_reduced_is_full.

(** C66: runs exist.  With at most 65535 blocks in the second and third directions of every grid no
    launch is refused. *)
Theorem C66_runs (K : ops) (P0 : par K) (NS nsrc nrecsc : Z) (srcs recssc : Z -> Z) (vbat sbat : bool) :
  (0 <= nsrc < 2 ^ 31)%Z -> (0 <= nrecsc < 2 ^ 31)%Z -> (0 < NS < 2 ^ 16)%Z ->
  let fd := fd_pad (p_acc P0) in
  match p_shape P0 with
  | [nz; ny; nx] => (2 * fd < nx < 2 ^ 31 /\ 2 * fd < ny <= 2 * fd + 4 * 65535 /\ 2 * fd < nz <= 2 * fd + 65535)%Z
  | [ny; nx] => (2 * fd < nx < 2 ^ 31 /\ 2 * fd < ny <= 2 * fd + 4 * 65535)%Z
  | [nx] => (2 * fd < nx < 2 ^ 31)%Z
  | _ => False
  end ->
  forall pw v w srg sr grsc nt cb gsc, exists out, gpu_born_backward_sc K P0 NS nsrc nrecsc srcs recssc vbat sbat pw v w srg sr grsc nt cb gsc out.
Proof. exact (gpu_born_backward_sc_exists K P0 NS nsrc nrecsc srcs recssc vbat sbat). Qed.
Print Assumptions C66_runs.

(** *** Two shots of the 1-D problem of [ScalarEx] *)
Example gpu_born_reduced_example : exists U f gs,
  gpu_born_backward_sc Qc_ops exP 2 2 2 ex2_srcs nx_recssc false false expw ex_v ex2_store true 1 nx_grsc 3 None nx_usc (U, f, gs) /\
  row (f 0%Z) 2 1 <> [qz 0; qz 0] /\ gs 3%Z <> qz 0.
Proof.
  destruct (C66_runs Qc_ops exP 2 2 2 ex2_srcs nx_recssc false false ltac:(lia) ltac:(lia) ltac:(lia) gx_fit expw ex_v ex2_store true 1%Z nx_grsc 3%Z None nx_usc) as [[[U f] gs] H].
  exists U, f, gs. split; [exact H|].
  destruct (C66_backward Qc_ops Qc_is_ring exP expw 2 2 2 ex2_srcs nx_recssc false false ex_geom ltac:(lia) ltac:(lia) gx_sizes ex2_src nx_rec ex_v 1 3 ltac:(lia) ex2_store true nx_grsc None nx_usc
    nx_rec_distinct ltac:(cbn; lia) (Some 2%Z) ex_visB (U, f, gs) 1%Z ltac:(cbn; lia) ltac:(lia) ex_visB_ok H []) as (U1 & f1 & gs1 & E & _ & A).
  specialize (A 0%Z). change (row (f 0%Z) 2 1 = f1 0%Z) in A. rewrite A.
  match type of E with ?t = _ => assert (X : match t with Some (_, f1, _) => nz (nth 0 (f1 0%Z) (qz 0)) | None => false end = true) by (vm_compute; reflexivity) end.
  rewrite E in X. apply nz_spec in X. split; [intros Hc; apply X; rewrite Hc; reflexivity|]. clear A E X.
  pose proof (C66_scatter_gradient_partial Qc_ops Qc_is_ring exP expw 2 2 2 ex2_srcs nx_recssc false false ex_geom ltac:(lia) ltac:(lia) gx_sizes ex2_src nx_rec ex_v 1 3 ltac:(lia) ex2_store nx_grsc None nx_usc
    nx_rec_distinct ltac:(cbn; lia) (Some 2%Z) ex_visB U f gs ltac:(lia) (or_intror (or_intror eq_refl)) ltac:(cbn; lia) ex_visB_ok H []) as A.
  cbv beta iota zeta in A. rewrite (A 3%Z) by (cbn; lia).
  match goal with |- ?x <> _ => assert (X : nz x = true) by (vm_compute; reflexivity) end. apply nz_spec in X. exact X.
Qed.
(** A full and a reduced run, and the gradient they share. *)
Example gpu_born_both_example : exists out U f gs,
  gpu_born_backward Qc_ops exP 2 2 2 2 ex2_srcs gx_recs nx_recssc false false expw ex_v exb_scat ex2_store nx_wsc true true 1 ex2_gr nx_grsc 3 None ex2_g nx_usc out /\
  gpu_born_backward_sc Qc_ops exP 2 2 2 ex2_srcs nx_recssc false false expw ex_v ex2_store true 1 nx_grsc 3 None nx_usc (U, f, gs) /\
  gs 3%Z = gg_scatter Qc_ops out 3%Z.
Proof.
  destruct gpu_born_reduced_example as (U & f & gs & H & _). destruct gpu_born_backward_example as (out & H' & _). exists out, U, f, gs. split; [exact H'|]. split; [exact H|].
  refine (proj2 (C66_reduced_is_full Qc_ops Qc_is_ring exP expw 2 2 2 2 ex2_srcs gx_recs nx_recssc false false ex_geom ltac:(lia) ltac:(lia) ltac:(lia) gx_sizes ex2_src gx_rec nx_rec gx_rec_distinct nx_rec_distinct
    ex_v exb_scat ex2_store nx_wsc true true 1%Z ex2_gr nx_grsc 3%Z None None ex2_g nx_usc out (U, f, gs) ltac:(lia) ltac:(cbn; lia) ltac:(cbn; lia) H' H) ltac:(lia) eq_refl (or_intror (or_intror (conj eq_refl eq_refl))) 3%Z _). cbn. lia.
Qed.

(** C66 for the gradient of the scattering potential is false for a shared potential, several shots
    and callbacks: the buffers of the shots are not cleared between calls and [combine_grad] adds
    them again at the end of every call (scalar_born.cu:1965-1970, scalar_born.py:1297-1346).  In
    every run of two shots and two steps with callbacks after every step the gradient is wrong. *)
Theorem C66_callback_gradient_refuted : exists (P0 : par Qc_ops) pw (srcs recssc : Z -> Z) v w grsc gsc vis i,
  geom_ok Qc_ops P0 pw /\ bvis Qc_ops P0 pw vis /\ (0 <= i < prodZ (p_shape P0))%Z /\
  (exists out, gpu_born_backward_sc Qc_ops P0 2 2 2 srcs recssc false false pw v w true 1 grsc 2 (Some 1%Z) gsc out) /\
  forall U f gs, gpu_born_backward_sc Qc_ops P0 2 2 2 srcs recssc false false pw v w true 1 grsc 2 (Some 1%Z) gsc (U, f, gs) ->
    let one k := born_backward_sc Qc_ops (mkpar (p_acc P0) (p_shape P0) (p_rd P0) (p_rd2 P0) (p_a P0) (p_b P0) (p_db P0) (p_dt2 P0)
         (map (fun j => srcs (k * 2 + j)%Z) (zrange 0 2)) [])
      (map (fun j => recssc (k * 2 + j)%Z) (zrange 0 2)) pw v vis (fun s i => w s (k * prodZ (p_shape P0) + i)%Z)
      true 1 (fun t => map (fun j => grsc t (k * 2 + j)%Z) (zrange 0 2)) 2 (Some 1%Z) (gsc k) in
    gs i <> sumf (K := Qc_ops) (zrange 0 2) (fun k => match one k with Some (_, _, gs1) => gs1 i | None => qz 0 end).
Proof.
  exists exP, expw, ex2_srcs, nx_recssc, ex_v, ex2_store, nx_grsc, nx_usc, ex_visB, 3%Z. split; [exact ex_geom|]. split; [exact ex_visB_ok|]. split; [split; [lia|reflexivity]|].
  split; [exact (C66_runs Qc_ops exP 2 2 2 ex2_srcs nx_recssc false false ltac:(lia) ltac:(lia) ltac:(lia) gx_fit expw ex_v ex2_store true 1%Z nx_grsc 2%Z (Some 1%Z) nx_usc)|].
  intros U f gs H one.
  pose proof (gpu_born_backward_sc_again Qc_ops Qc_is_ring exP expw 2 2 2 ex2_srcs nx_recssc false false ex_geom ltac:(lia) ltac:(lia) gx_sizes ex2_src nx_rec ex_v 1 2 ex2_store true nx_grsc (Some 1%Z) nx_usc nx_rec_distinct (U, f, gs) [3%Z] ltac:(lia) eq_refl eq_refl H) as A.
  cbn [snd] in A. change (idx (p_shape exP) [3%Z]) with 3%Z in A. rewrite A.
  match goal with |- ?x <> ?y => assert (X : nz (x - y)%Qc = true) by (vm_compute; reflexivity); apply nz_spec in X; intros C; apply X; rewrite C; apply Qcplus_opp_r end.
Qed.
Print Assumptions C66_callback_gradient_refuted.
