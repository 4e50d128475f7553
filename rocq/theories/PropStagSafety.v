(** * Property C22 for the acoustic and elastic kernels: they stay inside their arrays. *)
From Coq Require Import List ZArith QArith Qcanon Lia Bool Permutation.
From Verif Require Import Ops Sums Grid Stencil DualNum ScalarModel ScalarRefine ScalarApi ScalarEx ShotsModel Safety
  Stag StagAdj StagKernel StagCell StagRefine StagGrad AcousticModel AcousticThm AcousticEx ElasticModel ElasticThm ElasticEx
  StagRunInst StagShotsModel StagShots StagShotsThm StagShotsInst StagShotsEx StagSafety StagSafetyInst.
Import ListNotations.
Local Open Scope K_scope.

(** C22, reads of the acoustic forward kernel.  All arrays (wavefields, PML variables, snapshots, models, profiles, amplitudes)
    are poisoned outside their allocation; after any sequence of the actions of a call, on any of the shots, every allocated
    element is unpoisoned and equals that of the run on unpoisoned memory.  No ring laws: poison never cancels. *)
Theorem C22_acoustic_forward_reads (nd : nat) (K : ops) (P0 : spar (ac_sys nd) K) (pw : nat -> Z * Z) (NS : Z)
    (nsrc nrec : aX -> Z) (srcs recs : aX -> Z -> Z) (kbat bbat : bool) :
  length (sp_shape P0) = nd -> sgeom (ac_sys nd) K P0 pw ->
  (forall c j, (0 <= j < NS * nsrc c)%Z -> sloc_ok (ac_sys nd) K P0 c (srcs c j)) ->
  (forall c j, (0 <= j < NS * nrec c)%Z -> sloc_ok (ac_sys nd) K P0 c (recs c j)) ->
  forall (dt : K) (kb : aM -> arr K) visA visB kg bg sr f nt s0 nsn ntr l G,
  ac_fvis nd K P0 pw true visA -> ac_fvis nd K P0 pw false visB -> (0 <= s0)%Z -> (s0 + nt <= ntr)%Z ->
  (forall k a, In (k, a) l -> (0 <= k < NS)%Z /\ In a (sfprog (ac_sys nd) (ac_kern nd) visA visB nt s0)) ->
  sdefined (ac_sys nd) (ac_kern nd) K P0 NS (ac_flag kbat bbat) false 0 nsn ntr nrec
    (fold_left (sfexec (ac_sys nd) (ac_kern nd) K P0 (ac_num nd K dt) nsrc nrec srcs recs (ac_flag kbat bbat) kb (ac_flag kg bg) sr f) l G)
    (fold_left (sfexec (ac_sys nd) (ac_kern nd) (opt K) (sgpar (ac_sys nd) K P0) (ac_num nd (opt K) (Some dt)) nsrc nrec srcs recs (ac_flag kbat bbat) (sgmd (ac_sys nd) (ac_kern nd) K P0 NS (ac_flag kbat bbat) kb) (ac_flag kg bg) sr
       (sgrow (ac_sys nd) K NS ntr nsrc f)) l (sgmem (ac_sys nd) (ac_kern nd) K P0 NS (ac_flag kbat bbat) false 0 nsn ntr nrec G)).
Proof. exact (acoustic_forward_reads nd K P0 pw NS nsrc nrec srcs recs kbat bbat). Qed.
Print Assumptions C22_acoustic_forward_reads.
Example forward_reads_acoustic_example (G : gmem (ac_sys 2) (ac_kern 2) Qc_ops) :
  let l := map (fun a => (1%Z, a)) (sfprog (ac_sys 2) (ac_kern 2) (aexF true) (aexF false) 2 2) in
  sdefined (ac_sys 2) (ac_kern 2) Qc_ops aexP 2 (ac_flag true false) false 0 2 4 a2_nrec
    (fold_left (sfexec (ac_sys 2) (ac_kern 2) Qc_ops aexP (ac_num 2 Qc_ops aex_dt) a2_nsrc a2_nrec a2_srcs a2_recs (ac_flag true false) a2_md (ac_flag true true) 2 a2_f) l G)
    (fold_left (sfexec (ac_sys 2) (ac_kern 2) (opt Qc_ops) (sgpar (ac_sys 2) Qc_ops aexP) (ac_num 2 (opt Qc_ops) (Some aex_dt)) a2_nsrc a2_nrec a2_srcs a2_recs (ac_flag true false) (sgmd (ac_sys 2) (ac_kern 2) Qc_ops aexP 2 (ac_flag true false) a2_md)
       (ac_flag true true) 2 (sgrow (ac_sys 2) Qc_ops 2 4 a2_nsrc a2_f)) l (sgmem (ac_sys 2) (ac_kern 2) Qc_ops aexP 2 (ac_flag true false) false 0 2 4 a2_nrec G)).
Proof.
  intros l. apply (C22_acoustic_forward_reads 2 Qc_ops aexP aexpw 2 a2_nsrc a2_nrec a2_srcs a2_recs true false eq_refl aex_geom a2_src a2_rec aex_dt a2_md (aexF true) (aexF false) true true 2 a2_f 2 2 2 4 l G (Permutation_refl _) (Permutation_refl _) ); try lia.
  intros k a H. apply in_map_iff in H. destruct H as (b & [= <- <-] & Hb). split; [lia|exact Hb].
Qed.
(** The poison works: visiting a cell of the padding poisons an allocated element. *)
Example detects_acoustic_example :
  let G := mkgmem (ac_sys 2) (ac_kern 2) Qc_ops (fun _ _ => qz 1) (fun _ _ _ => qz 1) (fun _ _ => qz 1) in
  match aexF true with
  | (g, (r, p)) :: _ =>
    existsb (fun v => existsb (fun j => match G_m _ _ _ (sfexec (ac_sys 2) (ac_kern 2) (opt Qc_ops) (sgpar (ac_sys 2) Qc_ops aexP) (ac_num 2 (opt Qc_ops) (Some aex_dt)) a2_nsrc a2_nrec a2_srcs a2_recs (ac_flag true false) (sgmd (ac_sys 2) (ac_kern 2) Qc_ops aexP 2 (ac_flag true false) a2_md)
       (ac_flag true true) 2 (sgrow (ac_sys 2) Qc_ops 2 4 a2_nsrc a2_f) (sgmem (ac_sys 2) (ac_kern 2) Qc_ops aexP 2 (ac_flag true false) false 0 2 4 a2_nrec G)
       (1%Z, SCell true 0 (g, (r, [3%Z; 4%Z])))) v j with None => true | Some _ => false end) (zrange 0 40)) (map VX (g_X g)) = true
  | [] => False
  end.
Proof. vm_compute. reflexivity. Qed.

(** C22, reads of the acoustic backward kernel: a whole call of the compiled function, the sum over the threads' gradient buffers and
    the exchange of the PML variables included. *)
Theorem C22_acoustic_backward_reads (nd : nat) (K : ops) (P0 : spar (ac_sys nd) K) (pw : nat -> Z * Z) (NS : Z)
    (nsrc nrec : aX -> Z) (srcs recs : aX -> Z -> Z) (kbat bbat : bool) :
  length (sp_shape P0) = nd -> sgeom (ac_sys nd) K P0 pw ->
  (forall c j, (0 <= j < NS * nsrc c)%Z -> sloc_ok (ac_sys nd) K P0 c (srcs c j)) ->
  (forall c j, (0 <= j < NS * nrec c)%Z -> sloc_ok (ac_sys nd) K P0 c (recs c j)) ->
  sroom (ac_sys nd) K P0 pw -> forall (dt : K) (kb : aM -> arr K) visA visB kg bg sr gr cf s nsn ntr nthr th sched G,
  ac_bvis nd K P0 pw true visA -> ac_bvis nd K P0 pw false visB ->
  (0 < sr)%Z -> (0 <= cf)%Z -> (0 <= s)%Z -> (s * sr <= ntr)%Z -> (ntr <= nsn * sr)%Z ->
  (forall k, (0 <= k < NS)%Z -> (0 <= th s k < nthr)%Z) ->
  (forall k a, In (k, a) (sched s) -> (0 <= k < NS)%Z /\ In a (sbprog (ac_sys nd) (ac_kern nd) visA visB (Z.min s cf * sr) (s * sr))) ->
  sdefined (ac_sys nd) (ac_kern nd) K P0 NS (ac_flag kbat bbat) true nthr nsn ntr nsrc
    (sbatch_bchunk (ac_sys nd) (ac_kern nd) K P0 (ac_num nd K dt) nsrc nrec srcs recs (ac_flag kbat bbat) (fun _ => true) nthr th kb (ac_flag kg bg) sr gr sched cf G s)
    (sbatch_bchunk (ac_sys nd) (ac_kern nd) (opt K) (sgpar (ac_sys nd) K P0) (ac_num nd (opt K) (Some dt)) nsrc nrec srcs recs (ac_flag kbat bbat) (fun _ => true) nthr th (sgmd (ac_sys nd) (ac_kern nd) K P0 NS (ac_flag kbat bbat) kb) (ac_flag kg bg) sr
       (sgrow (ac_sys nd) K NS ntr nrec gr) sched cf (sgmem (ac_sys nd) (ac_kern nd) K P0 NS (ac_flag kbat bbat) true nthr nsn ntr nsrc G) s).
Proof. exact (acoustic_backward_reads nd K P0 pw NS nsrc nrec srcs recs kbat bbat). Qed.
Print Assumptions C22_acoustic_backward_reads.
Example backward_reads_acoustic_example (G : gmem (ac_sys 2) (ac_kern 2) Qc_ops) :
  let l := fun _ : Z => map (fun a => (1%Z, a)) (sbprog (ac_sys 2) (ac_kern 2) (aexB true) (aexB false) 3 3) in
  sdefined (ac_sys 2) (ac_kern 2) Qc_ops aexP 2 (ac_flag false true) true 2 3 3 a2_nsrc
    (sbatch_bchunk (ac_sys 2) (ac_kern 2) Qc_ops aexP (ac_num 2 Qc_ops aex_dt) a2_nsrc a2_nrec a2_srcs a2_recs (ac_flag false true) (fun _ => true) 2 s2_th a2_md (ac_flag true true) 1 a2_gr l 3 G 3)
    (sbatch_bchunk (ac_sys 2) (ac_kern 2) (opt Qc_ops) (sgpar (ac_sys 2) Qc_ops aexP) (ac_num 2 (opt Qc_ops) (Some aex_dt)) a2_nsrc a2_nrec a2_srcs a2_recs (ac_flag false true) (fun _ => true) 2 s2_th (sgmd (ac_sys 2) (ac_kern 2) Qc_ops aexP 2 (ac_flag false true) a2_md)
       (ac_flag true true) 1 (sgrow (ac_sys 2) Qc_ops 2 3 a2_nrec a2_gr) l 3 (sgmem (ac_sys 2) (ac_kern 2) Qc_ops aexP 2 (ac_flag false true) true 2 3 3 a2_nsrc G) 3).
Proof.
  intros l. apply (C22_acoustic_backward_reads 2 Qc_ops aexP aexpw 2 a2_nsrc a2_nrec a2_srcs a2_recs false true eq_refl aex_geom a2_src a2_rec aex_room aex_dt a2_md (aexB true) (aexB false) true true 1 a2_gr 3 3 3 3 2 s2_th l G (Permutation_refl _) (Permutation_refl _) ); try lia.
  - apply s2_th_ok.
  - intros k a H. apply in_map_iff in H. destruct H as (b & [= <- <-] & Hb). split; [lia|exact Hb].
Qed.

(** C22, writes of the acoustic forward kernel: an action of shot [k] leaves everything outside the shot's own blocks, every snapshot
    of other steps than those of the call, the gradient buffers, and the receiver amplitudes of other steps or shots as they were. *)
Theorem C22_acoustic_forward_writes (nd : nat) (K : ops) (P0 : spar (ac_sys nd) K) (pw : nat -> Z * Z) (NS : Z)
    (nsrc nrec : aX -> Z) (srcs recs : aX -> Z -> Z) (kbat bbat : bool) :
  length (sp_shape P0) = nd -> sgeom (ac_sys nd) K P0 pw ->
  (forall c j, (0 <= j < NS * nsrc c)%Z -> sloc_ok (ac_sys nd) K P0 c (srcs c j)) ->
  (forall c j, (0 <= j < NS * nrec c)%Z -> sloc_ok (ac_sys nd) K P0 c (recs c j)) ->
  forall (dt : K) (kb : aM -> arr K) visA visB kg bg sr f nt s0 G k a,
  ac_fvis nd K P0 pw true visA -> ac_fvis nd K P0 pw false visB -> (0 <= k < NS)%Z ->
  In a (sfprog (ac_sys nd) (ac_kern nd) visA visB nt s0) -> (0 < sr)%Z ->
  let n := prodZ (sp_shape P0) in
  let G' := sfexec (ac_sys nd) (ac_kern nd) K P0 (ac_num nd K dt) nsrc nrec srcs recs (ac_flag kbat bbat) kb (ac_flag kg bg) sr f G (k, a) in
  (forall v j, ~ (k * n <= j < k * n + n)%Z -> G_m _ _ K G' v j = G_m _ _ K G v j) /\
  (forall q si j, ~ (s0 / sr <= si <= (s0 + nt - 1) / sr)%Z -> G_m _ _ K G' (VQ q si) j = G_m _ _ K G (VQ q si) j) /\
  (forall q j, G_m _ _ K G' (VG q) j = G_m _ _ K G (VG q) j) /\
  (forall t c j, ~ (s0 <= t < s0 + nt)%Z \/ ~ (k * nrec c <= j < k * nrec c + nrec c)%Z -> G_r _ _ K G' t c j = G_r _ _ K G t c j) /\
  (forall q, G_g _ _ K G' q = G_g _ _ K G q).
Proof. exact (acoustic_forward_writes nd K P0 pw NS nsrc nrec srcs recs kbat bbat). Qed.
Print Assumptions C22_acoustic_forward_writes.
Example forward_writes_acoustic_example (G : gmem (ac_sys 2) (ac_kern 2) Qc_ops) :
  match aexF true with
  | c :: _ => G_m _ _ _ (sfexec (ac_sys 2) (ac_kern 2) Qc_ops aexP (ac_num 2 Qc_ops aex_dt) a2_nsrc a2_nrec a2_srcs a2_recs (ac_flag true false) a2_md (ac_flag true true) 2 a2_f G (1%Z, SCell true 3 c)) (VQ MK 0) 25%Z
              = G_m _ _ _ G (VQ MK 0) 25%Z
  | [] => False
  end.
Proof.
  remember (aexF true) as V eqn:EV. destruct V as [|c V]; [discriminate EV|].
  apply (C22_acoustic_forward_writes 2 Qc_ops aexP aexpw 2 a2_nsrc a2_nrec a2_srcs a2_recs true false eq_refl aex_geom a2_src a2_rec aex_dt a2_md (aexF true) (aexF false) true true 2 a2_f 2 2 G 1 (SCell true 3 c) (Permutation_refl _) (Permutation_refl _) ); try lia.
  - rewrite <- EV. unfold sfprog. apply in_flat_map. exists 3%Z. split; [apply In_zrange; lia|]. rewrite !in_app_iff. right. left. left. reflexivity.
  - intros [H _]. apply H. reflexivity.
Qed.

(** C22, writes of the acoustic backward kernel: the same; the snapshots are never written, and a gradient buffer only in the block of the
    shot or of the shot's thread. *)
Theorem C22_acoustic_backward_writes (nd : nat) (K : ops) (P0 : spar (ac_sys nd) K) (pw : nat -> Z * Z) (NS : Z)
    (nsrc nrec : aX -> Z) (srcs recs : aX -> Z -> Z) (kbat bbat : bool) :
  length (sp_shape P0) = nd -> sgeom (ac_sys nd) K P0 pw ->
  (forall c j, (0 <= j < NS * nsrc c)%Z -> sloc_ok (ac_sys nd) K P0 c (srcs c j)) ->
  (forall c j, (0 <= j < NS * nrec c)%Z -> sloc_ok (ac_sys nd) K P0 c (recs c j)) ->
  sroom (ac_sys nd) K P0 pw -> forall (dt : K) (kb : aM -> arr K) visA visB kg bg sr gr nt s0 (th : Z -> Z) G k a,
  ac_bvis nd K P0 pw true visA -> ac_bvis nd K P0 pw false visB -> (0 <= k < NS)%Z ->
  In a (sbprog (ac_sys nd) (ac_kern nd) visA visB nt s0) ->
  let n := prodZ (sp_shape P0) in
  let G' := sbexec (ac_sys nd) (ac_kern nd) K P0 (ac_num nd K dt) nsrc nrec srcs recs (ac_flag kbat bbat) th kb (ac_flag kg bg) sr gr s0 G (k, a) in
  (forall v j, match v with VG _ => False | _ => True end -> ~ (k * n <= j < k * n + n)%Z -> G_m _ _ K G' v j = G_m _ _ K G v j) /\
  (forall q j, let b := (if ac_flag kbat bbat q then k else th k) in ~ (b * n <= j < b * n + n)%Z -> G_m _ _ K G' (VG q) j = G_m _ _ K G (VG q) j) /\
  (forall q si j, G_m _ _ K G' (VQ q si) j = G_m _ _ K G (VQ q si) j) /\
  (forall t c j, ~ (s0 - nt <= t < s0)%Z \/ ~ (k * nsrc c <= j < k * nsrc c + nsrc c)%Z -> G_r _ _ K G' t c j = G_r _ _ K G t c j) /\
  (forall q, G_g _ _ K G' q = G_g _ _ K G q).
Proof. exact (acoustic_backward_writes nd K P0 pw NS nsrc nrec srcs recs kbat bbat). Qed.
Print Assumptions C22_acoustic_backward_writes.
Example backward_writes_acoustic_example (G : gmem (ac_sys 2) (ac_kern 2) Qc_ops) :
  match aexB true with
  | c :: _ => G_m _ _ _ (sbexec (ac_sys 2) (ac_kern 2) Qc_ops aexP (ac_num 2 Qc_ops aex_dt) a2_nsrc a2_nrec a2_srcs a2_recs (ac_flag false true) (fun k => 1 - k)%Z a2_md (ac_flag true true) 1 a2_gr 3 G (1%Z, SCell true 2 c)) (VG MK) 25%Z
              = G_m _ _ _ G (VG MK) 25%Z
  | [] => False
  end.
Proof.
  remember (aexB true) as V eqn:EV. destruct V as [|c V]; [discriminate EV|].
  apply (C22_acoustic_backward_writes 2 Qc_ops aexP aexpw 2 a2_nsrc a2_nrec a2_srcs a2_recs false true eq_refl aex_geom a2_src a2_rec aex_room aex_dt a2_md (aexB true) (aexB false) true true 1 a2_gr 3 3 (fun k => 1 - k)%Z G 1 (SCell true 2 c) (Permutation_refl _) (Permutation_refl _) ); try lia.
  - rewrite <- EV. unfold sbprog. apply in_flat_map. exists 2%Z. split; [apply -> in_rev; apply In_zrange; lia|]. rewrite !in_app_iff, !in_map_iff.
    right. left. exists c. split; [reflexivity|left; reflexivity].
  - intros [_ H]. discriminate H.
Qed.

(** C22, reads of the elastic forward kernel.  All arrays (wavefields, PML variables, snapshots, models, profiles, amplitudes)
    are poisoned outside their allocation; after any sequence of the actions of a call, on any of the shots, every allocated
    element is unpoisoned and equals that of the run on unpoisoned memory.  No ring laws: poison never cancels. *)
Theorem C22_elastic_forward_reads (nd : nat) (K : ops) (P0 : spar (el_sys nd) K) (pw : nat -> Z * Z) (NS : Z)
    (nsrc nrec : eC -> Z) (srcs recs : eC -> Z -> Z) (lbat mbat bbat : bool) :
  length (sp_shape P0) = nd -> (0 < nd)%nat -> sgeom (el_sys nd) K P0 pw ->
  (forall c j, (0 <= j < NS * nsrc c)%Z -> sloc_ok (el_sys nd) K P0 c (srcs c j)) ->
  (forall c j, (0 <= j < NS * nrec c)%Z -> sloc_ok (el_sys nd) K P0 c (recs c j)) ->
  forall (dt : K) (md : eM -> arr K) visA visB lg mg bg sr f nt s0 nsn ntr l G,
  el_fvis nd K P0 pw true visA -> el_fvis nd K P0 pw false visB -> (0 <= s0)%Z -> (s0 + nt <= ntr)%Z ->
  (forall k a, In (k, a) l -> (0 <= k < NS)%Z /\ In a (sfprog (el_sys nd) (el_kern nd) visA visB nt s0)) ->
  sdefined (el_sys nd) (el_kern nd) K P0 NS (el_fm lbat mbat bbat) false 0 nsn ntr nrec
    (fold_left (sfexec (el_sys nd) (el_kern nd) K P0 (el_num nd K dt) nsrc nrec srcs recs (el_fm lbat mbat bbat) md (el_fq lg mg bg) sr f) l G)
    (fold_left (sfexec (el_sys nd) (el_kern nd) (opt K) (sgpar (el_sys nd) K P0) (el_num nd (opt K) (Some dt)) nsrc nrec srcs recs (el_fm lbat mbat bbat) (sgmd (el_sys nd) (el_kern nd) K P0 NS (el_fm lbat mbat bbat) md) (el_fq lg mg bg) sr
       (sgrow (el_sys nd) K NS ntr nsrc f)) l (sgmem (el_sys nd) (el_kern nd) K P0 NS (el_fm lbat mbat bbat) false 0 nsn ntr nrec G)).
Proof. exact (elastic_forward_reads nd K P0 pw NS nsrc nrec srcs recs lbat mbat bbat). Qed.
Print Assumptions C22_elastic_forward_reads.
Example forward_reads_elastic_example (G : gmem (el_sys 2) (el_kern 2) Qc_ops) :
  let l := map (fun a => (1%Z, a)) (sfprog (el_sys 2) (el_kern 2) (eexF true) (eexF false) 2 2) in
  sdefined (el_sys 2) (el_kern 2) Qc_ops eexP 2 (el_fm true false true) false 0 2 4 e2_nrec
    (fold_left (sfexec (el_sys 2) (el_kern 2) Qc_ops eexP (el_num 2 Qc_ops eex_dt) e2_nsrc e2_nrec e2_srcs e2_recs (el_fm true false true) e2_md (el_fq true true true) 2 e2_f) l G)
    (fold_left (sfexec (el_sys 2) (el_kern 2) (opt Qc_ops) (sgpar (el_sys 2) Qc_ops eexP) (el_num 2 (opt Qc_ops) (Some eex_dt)) e2_nsrc e2_nrec e2_srcs e2_recs (el_fm true false true) (sgmd (el_sys 2) (el_kern 2) Qc_ops eexP 2 (el_fm true false true) e2_md)
       (el_fq true true true) 2 (sgrow (el_sys 2) Qc_ops 2 4 e2_nsrc e2_f)) l (sgmem (el_sys 2) (el_kern 2) Qc_ops eexP 2 (el_fm true false true) false 0 2 4 e2_nrec G)).
Proof.
  intros l. apply (C22_elastic_forward_reads 2 Qc_ops eexP aexpw 2 e2_nsrc e2_nrec e2_srcs e2_recs true false true eq_refl ltac:(lia) eex_geom e2_src e2_rec eex_dt e2_md (eexF true) (eexF false) true true true 2 e2_f 2 2 2 4 l G (Permutation_refl _) (Permutation_refl _) ); try lia.
  intros k a H. apply in_map_iff in H. destruct H as (b & [= <- <-] & Hb). split; [lia|exact Hb].
Qed.
(** The poison works: visiting a cell of the padding poisons an allocated element. *)
Example detects_elastic_example :
  let G := mkgmem (el_sys 2) (el_kern 2) Qc_ops (fun _ _ => qz 1) (fun _ _ _ => qz 1) (fun _ _ => qz 1) in
  match eexF true with
  | (g, (r, p)) :: _ =>
    existsb (fun v => existsb (fun j => match G_m _ _ _ (sfexec (el_sys 2) (el_kern 2) (opt Qc_ops) (sgpar (el_sys 2) Qc_ops eexP) (el_num 2 (opt Qc_ops) (Some eex_dt)) e2_nsrc e2_nrec e2_srcs e2_recs (el_fm true false true) (sgmd (el_sys 2) (el_kern 2) Qc_ops eexP 2 (el_fm true false true) e2_md)
       (el_fq true true true) 2 (sgrow (el_sys 2) Qc_ops 2 4 e2_nsrc e2_f) (sgmem (el_sys 2) (el_kern 2) Qc_ops eexP 2 (el_fm true false true) false 0 2 4 e2_nrec G)
       (1%Z, SCell true 0 (g, (r, [3%Z; 4%Z])))) v j with None => true | Some _ => false end) (zrange 0 40)) (map VX (g_X g)) = true
  | [] => False
  end.
Proof. vm_compute. reflexivity. Qed.

(** C22, reads of the elastic backward kernel: a whole call of the compiled function, the sum over the threads' gradient buffers and
    the exchange of the PML variables included. *)
Theorem C22_elastic_backward_reads (nd : nat) (K : ops) (P0 : spar (el_sys nd) K) (pw : nat -> Z * Z) (NS : Z)
    (nsrc nrec : eC -> Z) (srcs recs : eC -> Z -> Z) (lbat mbat bbat : bool) :
  length (sp_shape P0) = nd -> (0 < nd)%nat -> sgeom (el_sys nd) K P0 pw ->
  (forall c j, (0 <= j < NS * nsrc c)%Z -> sloc_ok (el_sys nd) K P0 c (srcs c j)) ->
  (forall c j, (0 <= j < NS * nrec c)%Z -> sloc_ok (el_sys nd) K P0 c (recs c j)) ->
  sroom (el_sys nd) K P0 pw -> forall (dt : K) (md : eM -> arr K) visA visB lg mg bg sr gr cf s nsn ntr nthr th sched G,
  el_bvis nd K P0 pw true visA -> el_bvis nd K P0 pw false visB ->
  (0 < sr)%Z -> (0 <= cf)%Z -> (0 <= s)%Z -> (s * sr <= ntr)%Z -> (ntr <= nsn * sr)%Z ->
  (forall k, (0 <= k < NS)%Z -> (0 <= th s k < nthr)%Z) ->
  (forall k a, In (k, a) (sched s) -> (0 <= k < NS)%Z /\ In a (sbprog (el_sys nd) (el_kern nd) visA visB (Z.min s cf * sr) (s * sr))) ->
  sdefined (el_sys nd) (el_kern nd) K P0 NS (el_fm lbat mbat bbat) true nthr nsn ntr nsrc
    (sbatch_bchunk (el_sys nd) (el_kern nd) K P0 (el_num nd K dt) nsrc nrec srcs recs (el_fm lbat mbat bbat) (el_cmb nd K P0) nthr th md (el_fm lg mg bg) sr gr sched cf G s)
    (sbatch_bchunk (el_sys nd) (el_kern nd) (opt K) (sgpar (el_sys nd) K P0) (el_num nd (opt K) (Some dt)) nsrc nrec srcs recs (el_fm lbat mbat bbat) (el_cmb nd K P0) nthr th (sgmd (el_sys nd) (el_kern nd) K P0 NS (el_fm lbat mbat bbat) md) (el_fm lg mg bg) sr
       (sgrow (el_sys nd) K NS ntr nrec gr) sched cf (sgmem (el_sys nd) (el_kern nd) K P0 NS (el_fm lbat mbat bbat) true nthr nsn ntr nsrc G) s).
Proof. exact (elastic_backward_reads nd K P0 pw NS nsrc nrec srcs recs lbat mbat bbat). Qed.
Print Assumptions C22_elastic_backward_reads.
Example backward_reads_elastic_example (G : gmem (el_sys 2) (el_kern 2) Qc_ops) :
  let l := fun _ : Z => map (fun a => (1%Z, a)) (sbprog (el_sys 2) (el_kern 2) (eexB true) (eexB false) 3 3) in
  sdefined (el_sys 2) (el_kern 2) Qc_ops eexP 2 (el_fm false true false) true 2 3 3 e2_nsrc
    (sbatch_bchunk (el_sys 2) (el_kern 2) Qc_ops eexP (el_num 2 Qc_ops eex_dt) e2_nsrc e2_nrec e2_srcs e2_recs (el_fm false true false) (el_cmb 2 Qc_ops eexP) 2 s2_th e2_md (el_fm true true true) 1 e2_gr l 3 G 3)
    (sbatch_bchunk (el_sys 2) (el_kern 2) (opt Qc_ops) (sgpar (el_sys 2) Qc_ops eexP) (el_num 2 (opt Qc_ops) (Some eex_dt)) e2_nsrc e2_nrec e2_srcs e2_recs (el_fm false true false) (el_cmb 2 Qc_ops eexP) 2 s2_th (sgmd (el_sys 2) (el_kern 2) Qc_ops eexP 2 (el_fm false true false) e2_md)
       (el_fm true true true) 1 (sgrow (el_sys 2) Qc_ops 2 3 e2_nrec e2_gr) l 3 (sgmem (el_sys 2) (el_kern 2) Qc_ops eexP 2 (el_fm false true false) true 2 3 3 e2_nsrc G) 3).
Proof.
  intros l. apply (C22_elastic_backward_reads 2 Qc_ops eexP aexpw 2 e2_nsrc e2_nrec e2_srcs e2_recs false true false eq_refl ltac:(lia) eex_geom e2_src e2_rec eex_room eex_dt e2_md (eexB true) (eexB false) true true true 1 e2_gr 3 3 3 3 2 s2_th l G (Permutation_refl _) (Permutation_refl _) ); try lia.
  - apply s2_th_ok.
  - intros k a H. apply in_map_iff in H. destruct H as (b & [= <- <-] & Hb). split; [lia|exact Hb].
Qed.

(** C22, writes of the elastic forward kernel: an action of shot [k] leaves everything outside the shot's own blocks, every snapshot
    of other steps than those of the call, the gradient buffers, and the receiver amplitudes of other steps or shots as they were. *)
Theorem C22_elastic_forward_writes (nd : nat) (K : ops) (P0 : spar (el_sys nd) K) (pw : nat -> Z * Z) (NS : Z)
    (nsrc nrec : eC -> Z) (srcs recs : eC -> Z -> Z) (lbat mbat bbat : bool) :
  length (sp_shape P0) = nd -> (0 < nd)%nat -> sgeom (el_sys nd) K P0 pw ->
  (forall c j, (0 <= j < NS * nsrc c)%Z -> sloc_ok (el_sys nd) K P0 c (srcs c j)) ->
  (forall c j, (0 <= j < NS * nrec c)%Z -> sloc_ok (el_sys nd) K P0 c (recs c j)) ->
  forall (dt : K) (md : eM -> arr K) visA visB lg mg bg sr f nt s0 G k a,
  el_fvis nd K P0 pw true visA -> el_fvis nd K P0 pw false visB -> (0 <= k < NS)%Z ->
  In a (sfprog (el_sys nd) (el_kern nd) visA visB nt s0) -> (0 < sr)%Z ->
  let n := prodZ (sp_shape P0) in
  let G' := sfexec (el_sys nd) (el_kern nd) K P0 (el_num nd K dt) nsrc nrec srcs recs (el_fm lbat mbat bbat) md (el_fq lg mg bg) sr f G (k, a) in
  (forall v j, ~ (k * n <= j < k * n + n)%Z -> G_m _ _ K G' v j = G_m _ _ K G v j) /\
  (forall q si j, ~ (s0 / sr <= si <= (s0 + nt - 1) / sr)%Z -> G_m _ _ K G' (VQ q si) j = G_m _ _ K G (VQ q si) j) /\
  (forall q j, G_m _ _ K G' (VG q) j = G_m _ _ K G (VG q) j) /\
  (forall t c j, ~ (s0 <= t < s0 + nt)%Z \/ ~ (k * nrec c <= j < k * nrec c + nrec c)%Z -> G_r _ _ K G' t c j = G_r _ _ K G t c j) /\
  (forall q, G_g _ _ K G' q = G_g _ _ K G q).
Proof. exact (elastic_forward_writes nd K P0 pw NS nsrc nrec srcs recs lbat mbat bbat). Qed.
Print Assumptions C22_elastic_forward_writes.
Example forward_writes_elastic_example (G : gmem (el_sys 2) (el_kern 2) Qc_ops) :
  match eexF true with
  | c :: _ => G_m _ _ _ (sfexec (el_sys 2) (el_kern 2) Qc_ops eexP (el_num 2 Qc_ops eex_dt) e2_nsrc e2_nrec e2_srcs e2_recs (el_fm true false true) e2_md (el_fq true true true) 2 e2_f G (1%Z, SCell true 3 c)) (VQ (QB 0) 0) 25%Z
              = G_m _ _ _ G (VQ (QB 0) 0) 25%Z
  | [] => False
  end.
Proof.
  remember (eexF true) as V eqn:EV. destruct V as [|c V]; [discriminate EV|].
  apply (C22_elastic_forward_writes 2 Qc_ops eexP aexpw 2 e2_nsrc e2_nrec e2_srcs e2_recs true false true eq_refl ltac:(lia) eex_geom e2_src e2_rec eex_dt e2_md (eexF true) (eexF false) true true true 2 e2_f 2 2 G 1 (SCell true 3 c) (Permutation_refl _) (Permutation_refl _) ); try lia.
  - rewrite <- EV. unfold sfprog. apply in_flat_map. exists 3%Z. split; [apply In_zrange; lia|]. rewrite !in_app_iff. right. left. left. reflexivity.
  - intros [H _]. apply H. reflexivity.
Qed.

(** C22, writes of the elastic backward kernel: the same; the snapshots are never written, and a gradient buffer only in the block of the
    shot or of the shot's thread. *)
Theorem C22_elastic_backward_writes (nd : nat) (K : ops) (P0 : spar (el_sys nd) K) (pw : nat -> Z * Z) (NS : Z)
    (nsrc nrec : eC -> Z) (srcs recs : eC -> Z -> Z) (lbat mbat bbat : bool) :
  length (sp_shape P0) = nd -> (0 < nd)%nat -> sgeom (el_sys nd) K P0 pw ->
  (forall c j, (0 <= j < NS * nsrc c)%Z -> sloc_ok (el_sys nd) K P0 c (srcs c j)) ->
  (forall c j, (0 <= j < NS * nrec c)%Z -> sloc_ok (el_sys nd) K P0 c (recs c j)) ->
  sroom (el_sys nd) K P0 pw -> forall (dt : K) (md : eM -> arr K) visA visB lg mg bg sr gr nt s0 (th : Z -> Z) G k a,
  el_bvis nd K P0 pw true visA -> el_bvis nd K P0 pw false visB -> (0 <= k < NS)%Z ->
  In a (sbprog (el_sys nd) (el_kern nd) visA visB nt s0) ->
  let n := prodZ (sp_shape P0) in
  let G' := sbexec (el_sys nd) (el_kern nd) K P0 (el_num nd K dt) nsrc nrec srcs recs (el_fm lbat mbat bbat) th md (el_fm lg mg bg) sr gr s0 G (k, a) in
  (forall v j, match v with VG _ => False | _ => True end -> ~ (k * n <= j < k * n + n)%Z -> G_m _ _ K G' v j = G_m _ _ K G v j) /\
  (forall q j, let b := (if el_fm lbat mbat bbat q then k else th k) in ~ (b * n <= j < b * n + n)%Z -> G_m _ _ K G' (VG q) j = G_m _ _ K G (VG q) j) /\
  (forall q si j, G_m _ _ K G' (VQ q si) j = G_m _ _ K G (VQ q si) j) /\
  (forall t c j, ~ (s0 - nt <= t < s0)%Z \/ ~ (k * nsrc c <= j < k * nsrc c + nsrc c)%Z -> G_r _ _ K G' t c j = G_r _ _ K G t c j) /\
  (forall q, G_g _ _ K G' q = G_g _ _ K G q).
Proof. exact (elastic_backward_writes nd K P0 pw NS nsrc nrec srcs recs lbat mbat bbat). Qed.
Print Assumptions C22_elastic_backward_writes.
Example backward_writes_elastic_example (G : gmem (el_sys 2) (el_kern 2) Qc_ops) :
  match eexB true with
  | c :: _ => G_m _ _ _ (sbexec (el_sys 2) (el_kern 2) Qc_ops eexP (el_num 2 Qc_ops eex_dt) e2_nsrc e2_nrec e2_srcs e2_recs (el_fm false true false) (fun k => 1 - k)%Z e2_md (el_fm true true true) 1 e2_gr 3 G (1%Z, SCell true 2 c)) (VG ML) 25%Z
              = G_m _ _ _ G (VG ML) 25%Z
  | [] => False
  end.
Proof.
  remember (eexB true) as V eqn:EV. destruct V as [|c V]; [discriminate EV|].
  apply (C22_elastic_backward_writes 2 Qc_ops eexP aexpw 2 e2_nsrc e2_nrec e2_srcs e2_recs false true false eq_refl ltac:(lia) eex_geom e2_src e2_rec eex_room eex_dt e2_md (eexB true) (eexB false) true true true 1 e2_gr 3 3 (fun k => 1 - k)%Z G 1 (SCell true 2 c) (Permutation_refl _) (Permutation_refl _) ); try lia.
  - rewrite <- EV. unfold sbprog. apply in_flat_map. exists 2%Z. split; [apply -> in_rev; apply In_zrange; lia|]. rewrite !in_app_iff, !in_map_iff.
    right. left. exists c. split; [reflexivity|left; reflexivity].
  - intros [_ H]. discriminate H.
Qed.

