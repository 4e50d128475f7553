(** * Property C59: the CUDA propagator of the scalar wave equation. *)
From Coq Require Import List ZArith QArith Qcanon Lia Bool Permutation.
From Verif Require Import Ops Sums Grid Stencil ScalarModel ScalarRefine ScalarForward ScalarBackward ScalarFunc ScalarEx
  ShotsModel Shots ShotsThm ShotsEx Threads GpuModel GpuLaunch GpuFwd GpuLocs GpuThm.
Import ListNotations.
Local Open Scope K_scope.

(** C59: forward.  However the threads of every launch are interleaved, the wavefields, receiver
    amplitudes and snapshots that shot [k] gets from the device are those of a run of that shot
    alone on the CPU, with any order of the cells and any callback frequency. *)
Theorem C59_forward (K : ops) (Kr : is_ring K) (P0 : par K) (pw : nat -> Z * Z) (NS nsrc nrec : Z) (srcs recs : Z -> Z) (batched : bool) :
  geom_ok K P0 pw -> (0 <= nsrc < 2 ^ 31)%Z -> (0 <= nrec < 2 ^ 31)%Z ->
  (1 <= length (p_shape P0) <= 3)%nat /\ Forall (fun m => 2 * fd_pad (p_acc P0) <= m < 2 ^ 31)%Z (p_shape P0) /\ (0 <= NS < 2 ^ 31)%Z ->
  (forall j, (0 <= j < NS * nsrc)%Z -> loc_ok K P0 (srcs j)) ->
  (forall j, (0 <= j < NS * nrec)%Z -> loc_ok K P0 (recs j)) ->
  forall (v : arr K) (sr nt : Z), (0 < sr)%Z ->
  forall vrg f cb cb' store0 store0' u vis out k,
  (forall k j j', (0 <= k < NS)%Z -> (0 <= j < nsrc)%Z -> (0 <= j' < nsrc)%Z -> (0 <= srcs (k * nsrc + j))%Z -> srcs (k * nsrc + j)%Z = srcs (k * nsrc + j')%Z -> j = j') ->
  cb_ok nt sr cb -> cb_ok nt sr cb' -> (0 <= k < NS)%Z -> fvis K P0 pw vis ->
  gpu_forward K P0 NS nsrc nrec srcs recs batched pw v vrg sr f nt cb store0 u out ->
  exists U1 R1 St1,
    scalar_forward K (mkpar (p_acc P0) (p_shape P0) (p_rd P0) (p_rd2 P0) (p_a P0) (p_b P0) (p_db P0) (p_dt2 P0)
         (map (fun j => srcs (k * nsrc + j)%Z) (zrange 0 nsrc)) (map (fun j => recs (k * nrec + j)%Z) (zrange 0 nrec))) pw (if batched then (fun i => v (k * prodZ (p_shape P0) + i)%Z) else v) vis vrg sr
      (fun t => map (fun j => f t (k * nsrc + j)%Z) (zrange 0 nsrc)) nt cb' (fun s i => store0' s (k * prodZ (p_shape P0) + i)%Z) (u k) = Some (U1, R1, St1) /\
    let '(U, R, St) := out in
    ueq K P0 (U k) U1 /\ (forall t, map (fun j => R t (k * nrec + j)%Z) (zrange 0 nrec) = R1 t) /\
    (vrg = true -> forall s p, (0 <= s < nt / sr)%Z -> interior K P0 p = true -> St s (k * prodZ (p_shape P0) + idx (p_shape P0) p)%Z = St1 s (idx (p_shape P0) p)).
Proof. exact (gpu_forward_cpu K Kr P0 pw NS nsrc nrec srcs recs batched). Qed.
Print Assumptions C59_forward.

(** C59: backward.  The same for the gradients of wavefields and source amplitudes. *)
Theorem C59_backward (K : ops) (Kr : is_ring K) (P0 : par K) (pw : nat -> Z * Z) (NS nsrc nrec : Z) (srcs recs : Z -> Z) (batched : bool) :
  geom_ok K P0 pw -> (0 <= nsrc < 2 ^ 31)%Z -> (0 <= nrec < 2 ^ 31)%Z ->
  (1 <= length (p_shape P0) <= 3)%nat /\ Forall (fun m => 2 * fd_pad (p_acc P0) <= m < 2 ^ 31)%Z (p_shape P0) /\ (0 <= NS < 2 ^ 31)%Z ->
  (forall j, (0 <= j < NS * nsrc)%Z -> loc_ok K P0 (srcs j)) ->
  (forall j, (0 <= j < NS * nrec)%Z -> loc_ok K P0 (recs j)) ->
  forall (v : arr K) (sr nt : Z), (0 < sr)%Z ->
  forall store vrg gr cb cb' g vis out k,
  (forall k j j', (0 <= k < NS)%Z -> (0 <= j < nrec)%Z -> (0 <= j' < nrec)%Z -> (0 <= recs (k * nrec + j))%Z -> recs (k * nrec + j)%Z = recs (k * nrec + j')%Z -> j = j') ->
  cb_ok nt sr cb -> cb_ok nt sr cb' -> (0 <= k < NS)%Z -> bvis K P0 pw vis ->
  gpu_backward K P0 NS nsrc nrec srcs recs batched pw v store vrg sr gr nt cb g out ->
  exists U1 f1 gv1,
    scalar_backward K (mkpar (p_acc P0) (p_shape P0) (p_rd P0) (p_rd2 P0) (p_a P0) (p_b P0) (p_db P0) (p_dt2 P0)
         (map (fun j => srcs (k * nsrc + j)%Z) (zrange 0 nsrc)) (map (fun j => recs (k * nrec + j)%Z) (zrange 0 nrec))) pw (if batched then (fun i => v (k * prodZ (p_shape P0) + i)%Z) else v) vis (fun s i => store s (k * prodZ (p_shape P0) + i)%Z)
      vrg sr (fun t => map (fun j => gr t (k * nrec + j)%Z) (zrange 0 nrec)) nt cb' (g k) = Some (U1, f1, gv1) /\
    let '(U, f, _) := out in ueq K P0 (U k) U1 /\ (forall t, map (fun j => f t (k * nsrc + j)%Z) (zrange 0 nsrc) = f1 t).
Proof. exact (gpu_backward_cpu K Kr P0 pw NS nsrc nrec srcs recs batched). Qed.
Print Assumptions C59_backward.

(** C59: the gradient of the wavespeed is that of each shot (batched model) or the sum over the
    shots.  Missing: a shared model, several shots and callbacks
    ([C59_callback_gradient_refuted]). *)
Theorem C59_gradient_partial (K : ops) (Kr : is_ring K) (P0 : par K) (pw : nat -> Z * Z) (NS nsrc nrec : Z) (srcs recs : Z -> Z) (batched : bool) :
  geom_ok K P0 pw -> (0 <= nsrc < 2 ^ 31)%Z -> (0 <= nrec < 2 ^ 31)%Z ->
  (1 <= length (p_shape P0) <= 3)%nat /\ Forall (fun m => 2 * fd_pad (p_acc P0) <= m < 2 ^ 31)%Z (p_shape P0) /\ (0 <= NS < 2 ^ 31)%Z ->
  (forall j, (0 <= j < NS * nsrc)%Z -> loc_ok K P0 (srcs j)) ->
  (forall j, (0 <= j < NS * nrec)%Z -> loc_ok K P0 (recs j)) ->
  forall (v : arr K) (sr nt : Z), (0 < sr)%Z ->
  forall store gr cb cb' g vis out,
  (forall k j j', (0 <= k < NS)%Z -> (0 <= j < nrec)%Z -> (0 <= j' < nrec)%Z -> (0 <= recs (k * nrec + j))%Z -> recs (k * nrec + j)%Z = recs (k * nrec + j')%Z -> j = j') ->
  cb_ok nt sr cb -> cb_ok nt sr cb' -> (1 <= NS)%Z -> bvis K P0 pw vis ->
  (batched = true \/ NS = 1%Z \/ cb = None) ->
  gpu_backward K P0 NS nsrc nrec srcs recs batched pw v store true sr gr nt cb g out ->
  let gv1 k := gv_of K (scalar_backward K (mkpar (p_acc P0) (p_shape P0) (p_rd P0) (p_rd2 P0) (p_a P0) (p_b P0) (p_db P0) (p_dt2 P0)
         (map (fun j => srcs (k * nsrc + j)%Z) (zrange 0 nsrc)) (map (fun j => recs (k * nrec + j)%Z) (zrange 0 nrec))) pw (if batched then (fun i => v (k * prodZ (p_shape P0) + i)%Z) else v) vis (fun s i => store s (k * prodZ (p_shape P0) + i)%Z)
      true sr (fun t => map (fun j => gr t (k * nrec + j)%Z) (zrange 0 nrec)) nt cb' (g k)) in
  let '(_, _, gv) := out in
  if batched then forall k i, (0 <= k < NS)%Z -> (0 <= i < prodZ (p_shape P0))%Z -> gv (k * prodZ (p_shape P0) + i)%Z = gv1 k i
  else forall i, (0 <= i < prodZ (p_shape P0))%Z -> gv i = sumf (zrange 0 NS) (fun k => gv1 k i).
Proof. exact (gpu_backward_grad K Kr P0 pw NS nsrc nrec srcs recs batched). Qed.
Print Assumptions C59_gradient_partial.

(** C59: runs exist.  With at most 65535 blocks in the second and third directions of every
    grid no launch is refused, forward and backward. *)
Theorem C59_runs (K : ops) (P0 : par K) (NS nsrc nrec : Z) (srcs recs : Z -> Z) (batched : bool) :
  (0 <= nsrc < 2 ^ 31)%Z -> (0 <= nrec < 2 ^ 31)%Z -> (0 < NS < 2 ^ 16)%Z ->
  let fd := fd_pad (p_acc P0) in
  match p_shape P0 with
  | [nz; ny; nx] => (2 * fd < nx < 2 ^ 31 /\ 2 * fd < ny <= 2 * fd + 4 * 65535 /\ 2 * fd < nz <= 2 * fd + 65535)%Z
  | [ny; nx] => (2 * fd < nx < 2 ^ 31 /\ 2 * fd < ny <= 2 * fd + 4 * 65535)%Z
  | [nx] => (2 * fd < nx < 2 ^ 31)%Z
  | _ => False
  end ->
  (forall pw v vrg sr f nt cb store0 u, exists out, gpu_forward K P0 NS nsrc nrec srcs recs batched pw v vrg sr f nt cb store0 u out) /\
  (forall pw v store vrg sr gr nt cb g, exists out, gpu_backward K P0 NS nsrc nrec srcs recs batched pw v store vrg sr gr nt cb g out).
Proof. exact (gpu_exists K P0 NS nsrc nrec srcs recs batched). Qed.
Print Assumptions C59_runs.

(** *** Two shots of the 1-D problem of [ScalarEx] *)
Definition gx_recs (j : Z) : Z := nth (Z.to_nat j) [2; 6; 4; 5]%Z 0%Z.
Lemma gx_rec j : (0 <= j < 2 * 2)%Z -> loc_ok Qc_ops exP (gx_recs j).
Proof.
  intros H. apply ex2_cases in H. destruct H as [->|[->|[->| ->]]]; right; (split; [split; [discriminate|reflexivity]|reflexivity]).
Qed.
Lemma gx_sizes : (1 <= length (p_shape exP) <= 3)%nat /\ Forall (fun m => 2 * fd_pad (p_acc exP) <= m < 2 ^ 31)%Z (p_shape exP) /\ (0 <= 2 < 2 ^ 31)%Z.
Proof. split; [cbn; lia|]. split; [repeat constructor; cbn; lia|lia]. Qed.
Lemma two_cases k : (0 <= k < 2)%Z -> (k = 0 \/ k = 1)%Z.
Proof. lia. Qed.
Lemma gx_src_distinct k j j' : (0 <= k < 2)%Z -> (0 <= j < 2)%Z -> (0 <= j' < 2)%Z -> (0 <= ex2_srcs (k * 2 + j))%Z -> ex2_srcs (k * 2 + j)%Z = ex2_srcs (k * 2 + j')%Z -> j = j'.
Proof.
  intros Hk Hj Hj'. apply two_cases in Hk, Hj, Hj'. destruct Hk as [-> | ->]; destruct Hj as [-> | ->]; destruct Hj' as [-> | ->]; cbn; intros; try reflexivity; try discriminate; lia.
Qed.
Lemma gx_rec_distinct k j j' : (0 <= k < 2)%Z -> (0 <= j < 2)%Z -> (0 <= j' < 2)%Z -> (0 <= gx_recs (k * 2 + j))%Z -> gx_recs (k * 2 + j)%Z = gx_recs (k * 2 + j')%Z -> j = j'.
Proof.
  intros Hk Hj Hj'. apply two_cases in Hk, Hj, Hj'. destruct Hk as [-> | ->]; destruct Hj as [-> | ->]; destruct Hj' as [-> | ->]; cbn; intros; try reflexivity; discriminate.
Qed.
Lemma gx_fit : (2 * fd_pad (p_acc exP) < 8 < 2 ^ 31)%Z.
Proof. cbn. lia. Qed.

Example gpu_forward_example : exists U R St,
  gpu_forward Qc_ops exP 2 2 2 ex2_srcs gx_recs false expw ex_v true 1 ex2_f 3 (Some 2%Z) (fun _ _ => qz 0) ex2_u (U, R, St) /\
  row (R 2%Z) 2 1 <> [qz 0; qz 0].
Proof.
  destruct (proj1 (C59_runs Qc_ops exP 2 2 2 ex2_srcs gx_recs false ltac:(lia) ltac:(lia) ltac:(lia) gx_fit) expw ex_v true 1%Z ex2_f 3%Z (Some 2%Z) (fun _ _ => qz 0) ex2_u) as [[[U R] St] H].
  exists U, R, St. split; [exact H|].
  destruct (C59_forward Qc_ops Qc_is_ring exP expw 2 2 2 ex2_srcs gx_recs false ex_geom ltac:(lia) ltac:(lia) gx_sizes ex2_src gx_rec ex_v 1 3 ltac:(lia) true ex2_f (Some 2%Z) None (fun _ _ => qz 0) (fun _ _ => qz 0) ex2_u ex_visF (U, R, St) 1%Z gx_src_distinct ltac:(cbn; lia) ltac:(cbn; lia) ltac:(lia) ex_visF_ok H) as (U1 & R1 & St1 & E & _ & A & _).
  specialize (A 2%Z). change (row (R 2%Z) 2 1 = R1 2%Z) in A. rewrite A.
  assert (X : match scalar_forward Qc_ops (shot_par Qc_ops exP 2 2 ex2_srcs gx_recs 1) expw ex_v ex_visF true 1
    (fun t => row (ex2_f t) 2 1) 3 None (fun _ _ => qz 0) (ex2_u 1) with
    | Some (_, R, _) => nz (nth 0 (R 2%Z) (qz 0)) | None => false end = true) by (vm_compute; reflexivity).
  match type of X with match ?t with _ => _ end = true => change (t = Some (U1, R1, St1)) in E end.
  rewrite E in X. apply nz_spec in X. intros Hc. apply X. rewrite Hc. reflexivity.
Qed.

Example gpu_backward_example : exists U f gv,
  gpu_backward Qc_ops exP 2 2 2 ex2_srcs gx_recs false expw ex_v ex2_store true 1 ex2_gr 3 None ex2_g (U, f, gv) /\
  row (f 0%Z) 2 1 <> [qz 0; qz 0] /\ gv 3%Z <> qz 0.
Proof.
  destruct (proj2 (C59_runs Qc_ops exP 2 2 2 ex2_srcs gx_recs false ltac:(lia) ltac:(lia) ltac:(lia) gx_fit) expw ex_v ex2_store true 1%Z ex2_gr 3%Z None ex2_g) as [[[U f] gv] H].
  exists U, f, gv. split; [exact H|]. split.
  - destruct (C59_backward Qc_ops Qc_is_ring exP expw 2 2 2 ex2_srcs gx_recs false ex_geom ltac:(lia) ltac:(lia) gx_sizes ex2_src gx_rec ex_v 1 3 ltac:(lia) ex2_store true ex2_gr None (Some 2%Z) ex2_g ex_visB (U, f, gv) 1%Z gx_rec_distinct ltac:(cbn; lia) ltac:(cbn; lia) ltac:(lia) ex_visB_ok H) as (U1 & f1 & gv1 & E & _ & A).
    specialize (A 0%Z). change (row (f 0%Z) 2 1 = f1 0%Z) in A. rewrite A.
    assert (X : match scalar_backward Qc_ops (shot_par Qc_ops exP 2 2 ex2_srcs gx_recs 1) expw ex_v ex_visB (fun s i => ex2_store s (1 * 8 + i)%Z) true 1
      (fun t => row (ex2_gr t) 2 1) 3 (Some 2%Z) (ex2_g 1) with
      | Some (_, f, _) => nz (nth 0 (f 0%Z) (qz 0)) | None => false end = true) by (vm_compute; reflexivity).
    match type of X with match ?t with _ => _ end = true => change (t = Some (U1, f1, gv1)) in E end.
    rewrite E in X. apply nz_spec in X. intros Hc. apply X. rewrite Hc. reflexivity.
  - pose proof (C59_gradient_partial Qc_ops Qc_is_ring exP expw 2 2 2 ex2_srcs gx_recs false ex_geom ltac:(lia) ltac:(lia) gx_sizes ex2_src gx_rec ex_v 1 3 ltac:(lia) ex2_store ex2_gr None (Some 2%Z) ex2_g ex_visB (U, f, gv) gx_rec_distinct ltac:(cbn; lia) ltac:(cbn; lia) ltac:(lia) ex_visB_ok (or_intror (or_intror eq_refl)) H) as A.
    cbv beta iota zeta in A. rewrite (A 3%Z) by (cbn; lia). match goal with |- ?x <> _ => assert (X : nz x = true) by (vm_compute; reflexivity) end.
    apply nz_spec in X. exact X.
Qed.

(** C59 for the gradient is false for a shared model, several shots and callbacks: the buffers of
    the shots are not cleared between calls and [combine_grad_v] adds them again at the end of
    every call (scalar.cu:996-1003, scalar.py:1195-1203).  In every run of two shots and two
    steps with callbacks after every step the gradient is wrong. *)
Theorem C59_callback_gradient_refuted : exists (P0 : par Qc_ops) pw (srcs recs : Z -> Z) v store gr g vis i,
  geom_ok Qc_ops P0 pw /\ bvis Qc_ops P0 pw vis /\ (0 <= i < prodZ (p_shape P0))%Z /\
  (exists out, gpu_backward Qc_ops P0 2 2 2 srcs recs false pw v store true 1 gr 2 (Some 1%Z) g out) /\
  forall out, gpu_backward Qc_ops P0 2 2 2 srcs recs false pw v store true 1 gr 2 (Some 1%Z) g out ->
    snd out i <> sumf (K := Qc_ops) (zrange 0 2) (fun k => gv_of Qc_ops (scalar_backward Qc_ops (mkpar (p_acc P0) (p_shape P0) (p_rd P0) (p_rd2 P0) (p_a P0) (p_b P0) (p_db P0) (p_dt2 P0)
         (map (fun j => srcs (k * 2 + j)%Z) (zrange 0 2)) (map (fun j => recs (k * 2 + j)%Z) (zrange 0 2))) pw v vis (fun s i => store s (k * prodZ (p_shape P0) + i)%Z)
      true 1 (fun t => map (fun j => gr t (k * 2 + j)%Z) (zrange 0 2)) 2 (Some 1%Z) (g k)) i).
Proof.
  exists exP, expw, ex2_srcs, gx_recs, ex_v, ex2_store, ex2_gr, ex2_g, ex_visB, 3%Z. split; [exact ex_geom|]. split; [exact ex_visB_ok|]. split; [split; [lia|reflexivity]|].
  split; [exact (proj2 (C59_runs Qc_ops exP 2 2 2 ex2_srcs gx_recs false ltac:(lia) ltac:(lia) ltac:(lia) gx_fit) expw ex_v ex2_store true 1%Z ex2_gr 2%Z (Some 1%Z) ex2_g)|].
  intros out H.
  pose proof (gpu_backward_again Qc_ops Qc_is_ring exP expw 2 2 2 ex2_srcs gx_recs false ex_geom ltac:(lia) ltac:(lia) gx_sizes ex2_src gx_rec ex_v 1 2 ex2_store ex2_gr (Some 1%Z) ex2_g out [3%Z] gx_rec_distinct ltac:(lia) eq_refl eq_refl H) as A.
  destruct out as [[U f] gv]. cbv beta iota zeta in A. cbn [snd]. change (idx (p_shape exP) [3%Z]) with 3%Z in A. rewrite A.
  match goal with |- ?x <> ?y => assert (X : nz (x - y)%Qc = true) by (vm_compute; reflexivity); apply nz_spec in X; intros C; apply X; rewrite C; apply Qcplus_opp_r end.
Qed.
Print Assumptions C59_callback_gradient_refuted.

(** C59 needs sources in different cells (checked by common.py:2144-2187): with two sources of a
    shot in the same cell some execution of [add_sources] loses an amplitude. *)
Theorem C59_same_cell_refuted : exists (P0 : par Qc_ops) (srcs : Z -> Z) (f : arr Qc_ops) (M M' : mem loc Qc_ops) (i : Z),
  kexec Qc_ops (launch_locs 2 1) (add_thread Qc_ops P0 1 NWfp 2 srcs f) M M' /\
  M' (NWfp, i) <> add_to_wavefield Qc_ops (fun i => M (NWfp, i)) [srcs 0%Z; srcs 1%Z] [f 0%Z; f 1%Z] i.
Proof.
  set (f := fun j => qz (j + 1)). set (M := fun _ : loc => qz 0).
  exists exP, (fun _ => 3%Z), f, M, (put loc_eq (put loc_eq M (NWfp, 3%Z) (M (NWfp, 3%Z) + f 0%Z)%Qc) (NWfp, 3%Z) (M (NWfp, 3%Z) + f 1%Z)%Qc), 3%Z. split; [split; [reflexivity|]|].
  - assert (E : map (add_thread Qc_ops exP 1 NWfp 2 (fun _ => 3%Z) f) (threads (launch_locs 2 1)) =
      Load (NWfp, 3%Z) (fun x => Store (NWfp, 3%Z) (x + f 0%Z)%Qc Ret) :: Load (NWfp, 3%Z) (fun x => Store (NWfp, 3%Z) (x + f 1%Z)%Qc Ret) :: repeat Ret 30) by reflexivity.
    rewrite E. apply (race loc_eq Qcplus). intros p Hp. apply repeat_spec in Hp. exact Hp.
  - intros C. apply (f_equal (fun x => Qeq_bool (this x) (2 # 1))) in C. revert C. vm_compute. discriminate.
Qed.
Print Assumptions C59_same_cell_refuted.

(** With 65536 shots the launches are refused and there is no run on the device. *)
Theorem C59_shots_limit (K : ops) (P0 : par K) (nsrc nrec : Z) (srcs recs : Z -> Z) (batched : bool) pw v vrg sr f nt cb store0 u :
  (length (p_shape P0) <= 2)%nat -> (0 < sr <= nt)%Z -> cb_ok nt sr cb ->
  forall NS out, (2 ^ 16 <= NS < 2 ^ 31)%Z -> ~ gpu_forward K P0 NS nsrc nrec srcs recs batched pw v vrg sr f nt cb store0 u out.
Proof. exact (gpu_shots_limit K P0 nsrc nrec srcs recs batched pw v vrg sr f nt cb store0 u). Qed.
Print Assumptions C59_shots_limit.
Example gpu_shots_limit_example : forall out, ~ gpu_forward Qc_ops exP 65536 2 2 ex2_srcs gx_recs false expw ex_v true 1 ex2_f 3 None (fun _ _ => qz 0) ex2_u out.
Proof. intros out. apply C59_shots_limit; [cbn; lia|lia|cbn; lia|lia]. Qed.
