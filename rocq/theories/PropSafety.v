(** * Property C22: the scalar kernels stay inside their arrays. *)
From Coq Require Import List ZArith QArith Qcanon Lia Bool Permutation.
From Verif Require Import Ops Sums Grid Stencil ScalarModel ScalarRefine ScalarForward ScalarBackward ScalarFunc ScalarEx
  ShotsModel Shots ShotsThm ShotsEx Safety.
Import ListNotations.
Local Open Scope K_scope.

(** C22, reads of the forward kernel.  All arrays ([n_shots] blocks of wavefields, PML
    variables and snapshots, rows of amplitudes, profiles, wavespeed) are poisoned outside
    their allocation; after a call, shot [k]'s block, snapshots and receiver amplitudes are not
    poisoned.  No ring laws are used: poisoned values never cancel. *)
Theorem C22_forward_reads (K : ops) (P0 : par K) (NS nsrc nrec : Z) (srcs recs : Z -> Z) (batched : bool) :
  (0 <= nsrc)%Z -> (0 <= nrec)%Z -> forall pw, geom_ok K P0 pw ->
  (forall j, (0 <= j < NS * nsrc)%Z -> loc_ok K P0 (srcs j)) ->
  (forall j, (0 <= j < NS * nrec)%Z -> loc_ok K P0 (recs j)) ->
  forall (v : arr K) vis vrg sr f nt s0 nsn ntr M k,
  fvis K P0 pw vis -> (0 <= k < NS)%Z -> (0 < sr)%Z -> (0 <= s0)%Z -> (s0 + nt <= ntr)%Z -> (ntr <= nsn * sr)%Z ->
  fdefined K P0 nsn ntr
    (c_forward K (shot_par K P0 nsrc nrec srcs recs k) (shot_v K P0 batched v k) vis vrg sr
       (fun t => row (f t) nsrc k) nt s0 (fview K P0 nrec k M))
    (c_forward (opt K) (shot_par (opt K) (gpar K P0) nsrc nrec srcs recs k)
       (shot_v (opt K) (gpar K P0) batched (gv_arr K P0 NS batched v) k) vis vrg sr
       (fun t => row (gfam ntr (NS * nsrc) f t) nsrc k) nt s0
       (fview (opt K) (gpar K P0) nrec k (gfmem K P0 NS nrec nsn ntr M))).
Proof. exact (forward_safe K P0 NS nsrc nrec srcs recs batched). Qed.
Print Assumptions C22_forward_reads.

(** The last shot of the batch, all steps. *)
Example C22_forward_reads_example (M : fglob Qc_ops) :
  fdefined Qc_ops exP 2 4
    (c_forward Qc_ops (shot_par Qc_ops exP 2 2 ex2_srcs ex2_recs 1) (shot_v Qc_ops exP true ex_v 1) ex_visF true 2
       (fun t => row (ex2_f t) 2 1) 4 0 (fview Qc_ops exP 2 1 M))
    (c_forward (opt Qc_ops) (shot_par (opt Qc_ops) (gpar Qc_ops exP) 2 2 ex2_srcs ex2_recs 1)
       (shot_v (opt Qc_ops) (gpar Qc_ops exP) true (gv_arr Qc_ops exP 2 true ex_v) 1) ex_visF true 2
       (fun t => row (gfam 4 (2 * 2) ex2_f t) 2 1) 4 0
       (fview (opt Qc_ops) (gpar Qc_ops exP) 2 1 (gfmem Qc_ops exP 2 2 2 4 M))).
Proof.
  apply (C22_forward_reads Qc_ops exP 2 2 2 ex2_srcs ex2_recs true ltac:(lia) ltac:(lia) expw ex_geom ex2_src ex2_rec); try lia.
  exact ex_visF_ok.
Qed.

(** The poison works: visiting a cell in the padding poisons the result. *)
Example C22_detects_example :
  m_wfp (opt Qc_ops)
    (c_forward (opt Qc_ops) (shot_par (opt Qc_ops) (gpar Qc_ops exP) 2 2 ex2_srcs ex2_recs 1)
       (shot_v (opt Qc_ops) (gpar Qc_ops exP) true (gv_arr Qc_ops exP 2 true ex_v) 1) [([0%Z], [7%Z])] false 1
       (fun t => row (gfam 1 (2 * 2) ex2_f t) 2 1) 1 0
       (fview (opt Qc_ops) (gpar Qc_ops exP) 2 1
          (gfmem Qc_ops exP 2 2 0 1 (mkfglob Qc_ops (fun _ => qz 1) (fun _ => qz 1) (fun _ _ => qz 1) (fun _ _ => qz 1) (fun _ _ => qz 1)
             (fun _ _ => qz 1) (fun _ _ => qz 1))))) 7%Z = None.
Proof. vm_compute. reflexivity. Qed.

(** C22, reads of the backward kernel (the model gradient buffer included: a block per shot or
    per thread). *)
Theorem C22_backward_reads (K : ops) (P0 : par K) (NS nsrc nrec : Z) (srcs recs : Z -> Z) (batched : bool) :
  (0 <= nsrc)%Z -> (0 <= nrec)%Z -> forall pw, geom_ok K P0 pw ->
  (forall j, (0 <= j < NS * nsrc)%Z -> loc_ok K P0 (srcs j)) ->
  (forall j, (0 <= j < NS * nrec)%Z -> loc_ok K P0 (recs j)) ->
  forall (v2 : arr K) vis store vrg sr gr nt s0 nsn ntr nth th M k,
  bvis K P0 pw vis -> (0 <= k < NS)%Z -> (0 <= th k < nth)%Z ->
  (0 < sr)%Z -> (nt <= s0)%Z -> (s0 <= ntr)%Z -> (ntr <= nsn * sr)%Z ->
  bdefined K P0 ntr
    (c_backward K (shot_par K P0 nsrc nrec srcs recs k) (shot_v K P0 batched v2 k) vis (fun s => sh K P0 k (store s)) vrg sr
       (fun t => row (gr t) nrec k) nt s0 (bview K P0 nsrc batched th k M))
    (c_backward (opt K) (shot_par (opt K) (gpar K P0) nsrc nrec srcs recs k)
       (shot_v (opt K) (gpar K P0) batched (gv_arr K P0 NS batched v2) k) vis
       (fun s => sh (opt K) (gpar K P0) k (gfam nsn (NS * prodZ (p_shape P0)) store s)) vrg sr
       (fun t => row (gfam ntr (NS * nrec) gr t) nrec k) nt s0
       (bview (opt K) (gpar K P0) nsrc batched th k (gbmem K P0 NS nsrc batched nth ntr M))).
Proof. exact (backward_safe K P0 NS nsrc nrec srcs recs batched). Qed.
Print Assumptions C22_backward_reads.

Example C22_backward_reads_example (M : bglob Qc_ops) :
  bdefined Qc_ops exP 4
    (c_backward Qc_ops (shot_par Qc_ops exP 2 2 ex2_srcs ex2_recs 1) (shot_v Qc_ops exP false ex_v 1) ex_visB
       (fun s => sh Qc_ops exP 1 (ex2_store s)) true 2 (fun t => row (ex2_gr t) 2 1) 4 4 (bview Qc_ops exP 2 false (ex2_th 4) 1 M))
    (c_backward (opt Qc_ops) (shot_par (opt Qc_ops) (gpar Qc_ops exP) 2 2 ex2_srcs ex2_recs 1)
       (shot_v (opt Qc_ops) (gpar Qc_ops exP) false (gv_arr Qc_ops exP 2 false ex_v) 1) ex_visB
       (fun s => sh (opt Qc_ops) (gpar Qc_ops exP) 1 (gfam 2 (2 * prodZ (p_shape exP)) ex2_store s)) true 2
       (fun t => row (gfam 4 (2 * 2) ex2_gr t) 2 1) 4 4
       (bview (opt Qc_ops) (gpar Qc_ops exP) 2 false (ex2_th 4) 1 (gbmem Qc_ops exP 2 2 false 2 4 M))).
Proof.
  apply (C22_backward_reads Qc_ops exP 2 2 2 ex2_srcs ex2_recs false ltac:(lia) ltac:(lia) expw ex_geom ex2_src ex2_rec); try lia.
  - exact ex_visB_ok.
  - apply ex2_th_ok. lia.
Qed.

(** C22, writes of the forward kernel: any action of shot [k] leaves every element outside its
    own block, every snapshot not belonging to a step of the call, and every row of receiver
    amplitudes of other steps or shots, as it was. *)
Theorem C22_forward_writes (K : ops) (Kr : is_ring K) (P0 : par K) (NS nsrc nrec : Z) (srcs recs : Z -> Z) (batched : bool) :
  (0 <= nsrc)%Z -> (0 <= nrec)%Z -> forall pw, geom_ok K P0 pw ->
  (forall j, (0 <= j < NS * nsrc)%Z -> loc_ok K P0 (srcs j)) ->
  forall (v : arr K) vis vrg sr f s0 nt M k a,
  fvis K P0 pw vis -> (0 <= k < NS)%Z -> In a (fprog vis nt s0) ->
  let M' := fexec K P0 nsrc nrec srcs recs batched v vrg sr f s0 M (k, a) in
  (forall j, ~ own k (prodZ (p_shape P0)) j -> F_wfc K M' j = F_wfc K M j /\ F_wfp K M' j = F_wfp K M j /\
     (forall d, F_psi K M' d j = F_psi K M d j /\ F_psin K M' d j = F_psin K M d j /\ F_zeta K M' d j = F_zeta K M d j) /\
     forall s, F_store K M' s j = F_store K M s j) /\
  (forall s j, ~ (exists t, s = t / sr /\ s0 <= t < s0 + nt)%Z -> F_store K M' s j = F_store K M s j) /\
  (forall t j, ~ (s0 <= t < s0 + nt)%Z \/ ~ own k nrec j -> F_r K M' t j = F_r K M t j).
Proof. exact (forward_writes K Kr P0 NS nsrc nrec srcs recs batched). Qed.
Print Assumptions C22_forward_writes.

Example C22_forward_writes_example (M : fglob Qc_ops) :
  F_wfp Qc_ops (fexec Qc_ops exP 2 2 ex2_srcs ex2_recs true ex_v true 2 ex2_f 2 M (1%Z, Cell 2 ([0%Z], [3%Z]))) 7%Z = F_wfp Qc_ops M 7%Z.
Proof.
  apply (C22_forward_writes Qc_ops Qc_is_ring exP 2 2 2 ex2_srcs ex2_recs true ltac:(lia) ltac:(lia) expw ex_geom ex2_src ex_v ex_visF true 2
    ex2_f 2 2 M 1 (Cell 2 ([0%Z], [3%Z])) ex_visF_ok ltac:(lia) ltac:(vm_compute; tauto)).
  unfold own. cbn. lia.
Qed.

(** C22, writes of the backward kernel. *)
Theorem C22_backward_writes (K : ops) (Kr : is_ring K) (P0 : par K) (NS nsrc nrec : Z) (srcs recs : Z -> Z) (batched : bool) :
  (0 <= nsrc)%Z -> (0 <= nrec)%Z -> forall pw, geom_ok K P0 pw ->
  (forall j, (0 <= j < NS * nrec)%Z -> loc_ok K P0 (recs j)) ->
  forall (th : Z -> Z) (v2 : arr K) store vis vrg sr gr s0 nt M k a,
  bvis K P0 pw vis -> (0 <= k < NS)%Z -> In a (bprog vis nt s0) ->
  let M' := bexec K P0 nsrc nrec srcs recs batched th v2 store vrg sr gr s0 M (k, a) in
  (forall j, ~ own k (prodZ (p_shape P0)) j -> B_wfc K M' j = B_wfc K M j /\ B_wfp K M' j = B_wfp K M j /\
     (forall d, B_psi K M' d j = B_psi K M d j /\ B_psin K M' d j = B_psin K M d j /\
                B_zeta K M' d j = B_zeta K M d j /\ B_zetan K M' d j = B_zetan K M d j)) /\
  (forall j, ~ own (if batched then k else th k) (prodZ (p_shape P0)) j -> B_buf K M' j = B_buf K M j) /\
  (forall t j, ~ (s0 - nt <= t < s0)%Z \/ ~ own k nsrc j -> B_f K M' t j = B_f K M t j).
Proof. exact (backward_writes K Kr P0 NS nsrc nrec srcs recs batched). Qed.
Print Assumptions C22_backward_writes.

Example C22_backward_writes_example (M : bglob Qc_ops) :
  B_buf Qc_ops (bexec Qc_ops exP 2 2 ex2_srcs ex2_recs false (ex2_th 1) ex_v ex2_store true 1 ex2_gr 1 M (1%Z, Cell 0 ([0%Z], [4%Z]))) 12%Z
  = B_buf Qc_ops M 12%Z.
Proof.
  apply (C22_backward_writes Qc_ops Qc_is_ring exP 2 2 2 ex2_srcs ex2_recs false ltac:(lia) ltac:(lia) expw ex_geom ex2_rec (ex2_th 1) ex_v
    ex2_store ex_visB true 1 ex2_gr 1 1 M 1 (Cell 0 ([0%Z], [4%Z])) ex_visB_ok ltac:(lia) ltac:(vm_compute; tauto)).
  unfold own. cbn. lia.
Qed.
