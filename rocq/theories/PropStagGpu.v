(** * The acoustic and elastic propagators on a CUDA device: C63. *)
From Coq Require Import List ZArith QArith Qcanon Lia Bool Permutation.
From Verif Require Import Ops Sums Grid Stencil DualNum ScalarModel ScalarRefine ScalarApi ScalarEx ShotsModel
  Stag StagAdj StagKernel StagCell StagRefine StagGrad AcousticModel AcousticThm AcousticEx ElasticModel ElasticThm ElasticEx
  StagRunInst StagShotsModel StagShotsThm StagShotsInst StagShotsEx Threads GpuModel GpuThm StagGpuModel StagGpuRun StagGpuThm.
Import ListNotations.
Local Open Scope K_scope.

(** C63, acoustic, forward: whatever the order in which the threads of the kernels run, shot [k] of a batch gets the wavefields, receiver
    amplitudes and snapshots that the CPU gives that shot alone. *)
Theorem C63_acoustic_forward (nd : nat) (K : ops) (Kr : is_ring K) (P0 : spar (ac_sys nd) K) (pw : nat -> Z * Z) (NS : Z)
    (nsrc nrec : aX -> Z) (srcs recs : aX -> Z -> Z) (kbat bbat : bool) :
  length (sp_shape P0) = nd -> (1 <= nd <= 3)%nat -> sgeom (ac_sys nd) K P0 pw -> Forall (fun m => m < 2 ^ 31 - 1)%Z (sp_shape P0) -> (0 <= NS < 2 ^ 31)%Z ->
  (forall c, (0 <= nsrc c < 2 ^ 31)%Z) -> (forall c, (0 <= nrec c < 2 ^ 31)%Z) ->
  (forall c j, (0 <= j < NS * nsrc c)%Z -> sloc_ok (ac_sys nd) K P0 c (srcs c j)) ->
  (forall c j, (0 <= j < NS * nrec c)%Z -> sloc_ok (ac_sys nd) K P0 c (recs c j)) ->
  forall (dt : K) (kb : aM -> arr K) kg bg sr f nt cb store u visA visB out k,
  (forall c k j j', In c (ac_allX nd) -> (0 <= k < NS)%Z -> (0 <= j < nsrc c)%Z -> (0 <= j' < nsrc c)%Z ->
     (0 <= srcs c (k * nsrc c + j))%Z -> srcs c (k * nsrc c + j)%Z = srcs c (k * nsrc c + j')%Z -> j = j') ->
  ac_fvis nd K P0 pw true visA -> ac_fvis nd K P0 pw false visB -> nt_ok nt sr cb -> (0 <= k < NS)%Z ->
  acoustic_gpu_forward nd K P0 NS nsrc nrec srcs recs kbat bbat pw dt kb kg bg sr f nt cb store u out ->
  exists U1 R1 St1,
    acoustic_forward nd K (@mkspar (ac_sys nd) K (sp_acc P0) (sp_shape P0) (sp_rd P0) (sp_a P0) (sp_b P0)
        (fun c => map (fun j => srcs c (k * nsrc c + j)%Z) (zrange 0 (nsrc c))) (fun c => map (fun j => recs c (k * nrec c + j)%Z) (zrange 0 (nrec c))))
      pw dt (fun q => if ac_flag kbat bbat q then (fun i => kb q (k * prodZ (sp_shape P0) + i)%Z) else kb q) visA visB kg bg sr
      (fun t c => map (fun j => f t c (k * nsrc c + j)%Z) (zrange 0 (nsrc c))) nt cb (fun q si i => store q si (k * prodZ (sp_shape P0) + i)%Z) (u k)
      = Some (U1, R1, St1) /\
    (forall x p, mn (fst (fst out) k) x p = mn U1 x p) /\ (forall e p, me (fst (fst out) k) e p = me U1 e p) /\
    (forall t c, In c (ac_allX nd) -> map (fun j => snd (fst out) t c (k * nrec c + j)%Z) (zrange 0 (nrec c)) = R1 t c) /\
    (forall q si i, (0 <= i < prodZ (sp_shape P0))%Z -> snd out q si (k * prodZ (sp_shape P0) + i)%Z = St1 q si i).
Proof. exact (acoustic_gpu_fwd nd K Kr P0 pw NS nsrc nrec srcs recs kbat bbat). Qed.
Print Assumptions C63_acoustic_forward.

(** C63, acoustic, backward: the same for the gradients of wavefields and source amplitudes. *)
Theorem C63_acoustic_backward (nd : nat) (K : ops) (Kr : is_ring K) (P0 : spar (ac_sys nd) K) (pw : nat -> Z * Z) (NS : Z)
    (nsrc nrec : aX -> Z) (srcs recs : aX -> Z -> Z) (kbat bbat : bool) :
  length (sp_shape P0) = nd -> (1 <= nd <= 3)%nat -> sgeom (ac_sys nd) K P0 pw -> Forall (fun m => m < 2 ^ 31 - 1)%Z (sp_shape P0) -> (0 <= NS < 2 ^ 31)%Z ->
  (forall c, (0 <= nsrc c < 2 ^ 31)%Z) -> (forall c, (0 <= nrec c < 2 ^ 31)%Z) ->
  (forall c j, (0 <= j < NS * nsrc c)%Z -> sloc_ok (ac_sys nd) K P0 c (srcs c j)) ->
  (forall c j, (0 <= j < NS * nrec c)%Z -> sloc_ok (ac_sys nd) K P0 c (recs c j)) ->
  sroom (ac_sys nd) K P0 pw -> forall (dt : K) (kb : aM -> arr K) kg bg sr gr nt cb store g visA visB out k,
  (forall c k j j', In c (ac_allX nd) -> (0 <= k < NS)%Z -> (0 <= j < nrec c)%Z -> (0 <= j' < nrec c)%Z ->
     (0 <= recs c (k * nrec c + j))%Z -> recs c (k * nrec c + j)%Z = recs c (k * nrec c + j')%Z -> j = j') ->
  ac_bvis nd K P0 pw true visA -> ac_bvis nd K P0 pw false visB -> nt_ok nt sr cb -> (0 <= k < NS)%Z ->
  acoustic_gpu_backward nd K P0 NS nsrc nrec srcs recs kbat bbat pw dt kb kg bg sr gr nt cb store g out ->
  exists U1 f1 gm1,
    acoustic_backward nd K (@mkspar (ac_sys nd) K (sp_acc P0) (sp_shape P0) (sp_rd P0) (sp_a P0) (sp_b P0)
        (fun c => map (fun j => srcs c (k * nsrc c + j)%Z) (zrange 0 (nsrc c))) (fun c => map (fun j => recs c (k * nrec c + j)%Z) (zrange 0 (nrec c))))
      pw dt (fun q => if ac_flag kbat bbat q then (fun i => kb q (k * prodZ (sp_shape P0) + i)%Z) else kb q) visA visB kg bg sr
      (fun t c => map (fun j => gr t c (k * nrec c + j)%Z) (zrange 0 (nrec c))) nt cb (fun q si i => store q si (k * prodZ (sp_shape P0) + i)%Z) (g k)
      = Some (U1, f1, gm1) /\
    (forall x p, mn (fst (fst out) k) x p = mn U1 x p) /\ (forall e p, me (fst (fst out) k) e p = me U1 e p) /\
    (forall t c, In c (ac_allX nd) -> map (fun j => snd (fst out) t c (k * nsrc c + j)%Z) (zrange 0 (nsrc c)) = f1 t c).
Proof. exact (acoustic_gpu_bwd nd K Kr P0 pw NS nsrc nrec srcs recs kbat bbat). Qed.
Print Assumptions C63_acoustic_backward.

(** C63, acoustic: the gradient of a model is that of each shot (one block per shot) or the sum over the shots (shared model).
    Missing: a shared model, several shots and callbacks ([C63_callback_gradient_refuted]). *)
Theorem C63_acoustic_gradient_partial (nd : nat) (K : ops) (Kr : is_ring K) (P0 : spar (ac_sys nd) K) (pw : nat -> Z * Z) (NS : Z)
    (nsrc nrec : aX -> Z) (srcs recs : aX -> Z -> Z) (kbat bbat : bool) :
  length (sp_shape P0) = nd -> (1 <= nd <= 3)%nat -> sgeom (ac_sys nd) K P0 pw -> Forall (fun m => m < 2 ^ 31 - 1)%Z (sp_shape P0) -> (0 <= NS < 2 ^ 31)%Z ->
  (forall c, (0 <= nsrc c < 2 ^ 31)%Z) -> (forall c, (0 <= nrec c < 2 ^ 31)%Z) ->
  (forall c j, (0 <= j < NS * nsrc c)%Z -> sloc_ok (ac_sys nd) K P0 c (srcs c j)) ->
  (forall c j, (0 <= j < NS * nrec c)%Z -> sloc_ok (ac_sys nd) K P0 c (recs c j)) ->
  sroom (ac_sys nd) K P0 pw -> forall (dt : K) (kb : aM -> arr K) kg bg sr gr nt cb store g visA visB out q,
  (forall c k j j', In c (ac_allX nd) -> (0 <= k < NS)%Z -> (0 <= j < nrec c)%Z -> (0 <= j' < nrec c)%Z ->
     (0 <= recs c (k * nrec c + j))%Z -> recs c (k * nrec c + j)%Z = recs c (k * nrec c + j')%Z -> j = j') ->
  ac_bvis nd K P0 pw true visA -> ac_bvis nd K P0 pw false visB -> nt_ok nt sr cb -> (0 < NS)%Z -> ac_models nd q -> ac_flag kg bg q = true ->
  ac_flag kbat bbat q = true \/ NS = 1%Z \/ cb = None ->
  acoustic_gpu_backward nd K P0 NS nsrc nrec srcs recs kbat bbat pw dt kb kg bg sr gr nt cb store g out ->
  let gm1 k := gm_of (acoustic_backward nd K (@mkspar (ac_sys nd) K (sp_acc P0) (sp_shape P0) (sp_rd P0) (sp_a P0) (sp_b P0)
        (fun c => map (fun j => srcs c (k * nsrc c + j)%Z) (zrange 0 (nsrc c))) (fun c => map (fun j => recs c (k * nrec c + j)%Z) (zrange 0 (nrec c))))
      pw dt (fun q => if ac_flag kbat bbat q then (fun i => kb q (k * prodZ (sp_shape P0) + i)%Z) else kb q) visA visB kg bg sr
      (fun t c => map (fun j => gr t c (k * nrec c + j)%Z) (zrange 0 (nrec c))) nt cb (fun q si i => store q si (k * prodZ (sp_shape P0) + i)%Z) (g k)) q in
  if ac_flag kbat bbat q
  then forall k i, (0 <= k < NS)%Z -> (0 <= i < prodZ (sp_shape P0))%Z -> snd out q (k * prodZ (sp_shape P0) + i)%Z = gm1 k i
  else forall i, (0 <= i < prodZ (sp_shape P0))%Z -> snd out q i = sumf (zrange 0 NS) (fun k => gm1 k i).
Proof. exact (acoustic_gpu_grad nd K Kr P0 pw NS nsrc nrec srcs recs kbat bbat). Qed.
Print Assumptions C63_acoustic_gradient_partial.

(** C63, acoustic: with at most 65535 blocks in the second and third directions no launch is refused. *)
Theorem C63_acoustic_runs (nd : nat) (K : ops) (P0 : spar (ac_sys nd) K) (NS : Z) (nsrc nrec : aX -> Z) (srcs recs : aX -> Z -> Z) (kbat bbat : bool) :
  (forall c, (0 <= nsrc c < 2 ^ 31)%Z) -> (forall c, (0 <= nrec c < 2 ^ 31)%Z) -> (0 < NS < 2 ^ 16)%Z ->
  let fd := fd_pad (sp_acc P0) in
  match sp_shape P0 with
  | [nz; ny; nx] => (2 * fd <= nx < 2 ^ 31 - 1 /\ 2 * fd <= ny <= 4 * 65535 /\ 2 * fd <= nz <= 65535)%Z
  | [ny; nx] => (2 * fd <= nx < 2 ^ 31 - 1 /\ 2 * fd <= ny <= 4 * 65535)%Z
  | [nx] => (2 * fd <= nx < 2 ^ 31 - 1)%Z
  | _ => False
  end ->
  (forall pw dt kb kg bg sr f nt cb store u, exists out, acoustic_gpu_forward nd K P0 NS nsrc nrec srcs recs kbat bbat pw dt kb kg bg sr f nt cb store u out) /\
  (forall pw dt kb kg bg sr gr nt cb store g, exists out, acoustic_gpu_backward nd K P0 NS nsrc nrec srcs recs kbat bbat pw dt kb kg bg sr gr nt cb store g out).
Proof. exact (acoustic_gpu_exists nd K P0 NS nsrc nrec srcs recs kbat bbat). Qed.
Print Assumptions C63_acoustic_runs.

(** C63, elastic, forward: whatever the order in which the threads of the kernels run, shot [k] of a batch gets the wavefields, receiver
    amplitudes and snapshots that the CPU gives that shot alone. *)
Theorem C63_elastic_forward (nd : nat) (K : ops) (Kr : is_ring K) (P0 : spar (el_sys nd) K) (pw : nat -> Z * Z) (NS : Z)
    (nsrc nrec : eC -> Z) (srcs recs : eC -> Z -> Z) (lbat mbat bbat : bool) :
  length (sp_shape P0) = nd -> (1 <= nd <= 3)%nat -> sgeom (el_sys nd) K P0 pw -> Forall (fun m => m < 2 ^ 31 - 1)%Z (sp_shape P0) -> (0 <= NS < 2 ^ 31)%Z ->
  (forall c, (0 <= nsrc c < 2 ^ 31)%Z) -> (forall c, (0 <= nrec c < 2 ^ 31)%Z) ->
  (forall c j, (0 <= j < NS * nsrc c)%Z -> sloc_ok (el_sys nd) K P0 c (srcs c j)) ->
  (forall c j, (0 <= j < NS * nrec c)%Z -> sloc_ok (el_sys nd) K P0 c (recs c j)) ->
  forall (dt : K) (md : eM -> arr K) lg mg bg sr f nt cb store u visA visB out k,
  (forall c k j j', In c (el_allC nd) -> (0 <= k < NS)%Z -> (0 <= j < nsrc c)%Z -> (0 <= j' < nsrc c)%Z ->
     (0 <= srcs c (k * nsrc c + j))%Z -> srcs c (k * nsrc c + j)%Z = srcs c (k * nsrc c + j')%Z -> j = j') ->
  el_fvis nd K P0 pw true visA -> el_fvis nd K P0 pw false visB -> nt_ok nt sr cb -> (0 <= k < NS)%Z ->
  elastic_gpu_forward nd K P0 NS nsrc nrec srcs recs lbat mbat bbat pw dt md lg mg bg sr f nt cb store u out ->
  exists U1 R1 St1,
    elastic_forward nd K (@mkspar (el_sys nd) K (sp_acc P0) (sp_shape P0) (sp_rd P0) (sp_a P0) (sp_b P0)
        (fun c => map (fun j => srcs c (k * nsrc c + j)%Z) (zrange 0 (nsrc c))) (fun c => map (fun j => recs c (k * nrec c + j)%Z) (zrange 0 (nrec c))))
      pw dt (fun q => if el_fm lbat mbat bbat q then (fun i => md q (k * prodZ (sp_shape P0) + i)%Z) else md q) visA visB lg mg bg sr
      (fun t c => map (fun j => f t c (k * nsrc c + j)%Z) (zrange 0 (nsrc c))) nt cb (fun q si i => store q si (k * prodZ (sp_shape P0) + i)%Z) (u k)
      = Some (U1, R1, St1) /\
    (forall x p, mn (fst (fst out) k) x p = mn U1 x p) /\ (forall e p, me (fst (fst out) k) e p = me U1 e p) /\
    (forall t c, In c (el_allC nd) -> map (fun j => snd (fst out) t c (k * nrec c + j)%Z) (zrange 0 (nrec c)) = R1 t c) /\
    (forall q si i, (0 <= i < prodZ (sp_shape P0))%Z -> snd out q si (k * prodZ (sp_shape P0) + i)%Z = St1 q si i).
Proof. exact (elastic_gpu_fwd nd K Kr P0 pw NS nsrc nrec srcs recs lbat mbat bbat). Qed.
Print Assumptions C63_elastic_forward.

(** C63, elastic, backward: the same for the gradients of wavefields and source amplitudes. *)
Theorem C63_elastic_backward (nd : nat) (K : ops) (Kr : is_ring K) (P0 : spar (el_sys nd) K) (pw : nat -> Z * Z) (NS : Z)
    (nsrc nrec : eC -> Z) (srcs recs : eC -> Z -> Z) (lbat mbat bbat : bool) :
  length (sp_shape P0) = nd -> (1 <= nd <= 3)%nat -> sgeom (el_sys nd) K P0 pw -> Forall (fun m => m < 2 ^ 31 - 1)%Z (sp_shape P0) -> (0 <= NS < 2 ^ 31)%Z ->
  (forall c, (0 <= nsrc c < 2 ^ 31)%Z) -> (forall c, (0 <= nrec c < 2 ^ 31)%Z) ->
  (forall c j, (0 <= j < NS * nsrc c)%Z -> sloc_ok (el_sys nd) K P0 c (srcs c j)) ->
  (forall c j, (0 <= j < NS * nrec c)%Z -> sloc_ok (el_sys nd) K P0 c (recs c j)) ->
  sroom (el_sys nd) K P0 pw -> forall (dt : K) (md : eM -> arr K) lg mg bg sr gr nt cb store g visA visB out k,
  (forall c k j j', In c (el_allC nd) -> (0 <= k < NS)%Z -> (0 <= j < nrec c)%Z -> (0 <= j' < nrec c)%Z ->
     (0 <= recs c (k * nrec c + j))%Z -> recs c (k * nrec c + j)%Z = recs c (k * nrec c + j')%Z -> j = j') ->
  el_bvis nd K P0 pw true visA -> el_bvis nd K P0 pw false visB -> nt_ok nt sr cb -> (0 <= k < NS)%Z ->
  elastic_gpu_backward nd K P0 NS nsrc nrec srcs recs lbat mbat bbat pw dt md lg mg bg sr gr nt cb store g out ->
  exists U1 f1 gm1,
    elastic_backward nd K (@mkspar (el_sys nd) K (sp_acc P0) (sp_shape P0) (sp_rd P0) (sp_a P0) (sp_b P0)
        (fun c => map (fun j => srcs c (k * nsrc c + j)%Z) (zrange 0 (nsrc c))) (fun c => map (fun j => recs c (k * nrec c + j)%Z) (zrange 0 (nrec c))))
      pw dt (fun q => if el_fm lbat mbat bbat q then (fun i => md q (k * prodZ (sp_shape P0) + i)%Z) else md q) visA visB lg mg bg sr
      (fun t c => map (fun j => gr t c (k * nrec c + j)%Z) (zrange 0 (nrec c))) nt cb (fun q si i => store q si (k * prodZ (sp_shape P0) + i)%Z) (g k)
      = Some (U1, f1, gm1) /\
    (forall x p, mn (fst (fst out) k) x p = mn U1 x p) /\ (forall e p, me (fst (fst out) k) e p = me U1 e p) /\
    (forall t c, In c (el_allC nd) -> map (fun j => snd (fst out) t c (k * nsrc c + j)%Z) (zrange 0 (nsrc c)) = f1 t c).
Proof. exact (elastic_gpu_bwd nd K Kr P0 pw NS nsrc nrec srcs recs lbat mbat bbat). Qed.
Print Assumptions C63_elastic_backward.

(** C63, elastic: the gradient of a model is that of each shot (one block per shot) or the sum over the shots (shared model).
    Missing: a shared model, several shots and callbacks ([C63_callback_gradient_refuted]). *)
Theorem C63_elastic_gradient_partial (nd : nat) (K : ops) (Kr : is_ring K) (P0 : spar (el_sys nd) K) (pw : nat -> Z * Z) (NS : Z)
    (nsrc nrec : eC -> Z) (srcs recs : eC -> Z -> Z) (lbat mbat bbat : bool) :
  length (sp_shape P0) = nd -> (1 <= nd <= 3)%nat -> sgeom (el_sys nd) K P0 pw -> Forall (fun m => m < 2 ^ 31 - 1)%Z (sp_shape P0) -> (0 <= NS < 2 ^ 31)%Z ->
  (forall c, (0 <= nsrc c < 2 ^ 31)%Z) -> (forall c, (0 <= nrec c < 2 ^ 31)%Z) ->
  (forall c j, (0 <= j < NS * nsrc c)%Z -> sloc_ok (el_sys nd) K P0 c (srcs c j)) ->
  (forall c j, (0 <= j < NS * nrec c)%Z -> sloc_ok (el_sys nd) K P0 c (recs c j)) ->
  sroom (el_sys nd) K P0 pw -> forall (dt : K) (md : eM -> arr K) lg mg bg sr gr nt cb store g visA visB out q,
  (forall c k j j', In c (el_allC nd) -> (0 <= k < NS)%Z -> (0 <= j < nrec c)%Z -> (0 <= j' < nrec c)%Z ->
     (0 <= recs c (k * nrec c + j))%Z -> recs c (k * nrec c + j)%Z = recs c (k * nrec c + j')%Z -> j = j') ->
  el_bvis nd K P0 pw true visA -> el_bvis nd K P0 pw false visB -> nt_ok nt sr cb -> (0 < NS)%Z -> el_models nd q -> el_fm lg mg bg q = true ->
  el_fm lbat mbat bbat q = true \/ NS = 1%Z \/ cb = None ->
  elastic_gpu_backward nd K P0 NS nsrc nrec srcs recs lbat mbat bbat pw dt md lg mg bg sr gr nt cb store g out ->
  let gm1 k := gm_of (elastic_backward nd K (@mkspar (el_sys nd) K (sp_acc P0) (sp_shape P0) (sp_rd P0) (sp_a P0) (sp_b P0)
        (fun c => map (fun j => srcs c (k * nsrc c + j)%Z) (zrange 0 (nsrc c))) (fun c => map (fun j => recs c (k * nrec c + j)%Z) (zrange 0 (nrec c))))
      pw dt (fun q => if el_fm lbat mbat bbat q then (fun i => md q (k * prodZ (sp_shape P0) + i)%Z) else md q) visA visB lg mg bg sr
      (fun t c => map (fun j => gr t c (k * nrec c + j)%Z) (zrange 0 (nrec c))) nt cb (fun q si i => store q si (k * prodZ (sp_shape P0) + i)%Z) (g k)) q in
  if el_fm lbat mbat bbat q
  then forall k i, (0 <= k < NS)%Z -> (0 <= i < prodZ (sp_shape P0))%Z -> snd out q (k * prodZ (sp_shape P0) + i)%Z = gm1 k i
  else forall i, (0 <= i < prodZ (sp_shape P0))%Z -> snd out q i = sumf (zrange 0 NS) (fun k => gm1 k i).
Proof. exact (elastic_gpu_grad nd K Kr P0 pw NS nsrc nrec srcs recs lbat mbat bbat). Qed.
Print Assumptions C63_elastic_gradient_partial.

(** C63, elastic: with at most 65535 blocks in the second and third directions no launch is refused. *)
Theorem C63_elastic_runs (nd : nat) (K : ops) (P0 : spar (el_sys nd) K) (NS : Z) (nsrc nrec : eC -> Z) (srcs recs : eC -> Z -> Z) (lbat mbat bbat : bool) :
  (forall c, (0 <= nsrc c < 2 ^ 31)%Z) -> (forall c, (0 <= nrec c < 2 ^ 31)%Z) -> (0 < NS < 2 ^ 16)%Z ->
  let fd := fd_pad (sp_acc P0) in
  match sp_shape P0 with
  | [nz; ny; nx] => (2 * fd <= nx < 2 ^ 31 - 1 /\ 2 * fd <= ny <= 4 * 65535 /\ 2 * fd <= nz <= 65535)%Z
  | [ny; nx] => (2 * fd <= nx < 2 ^ 31 - 1 /\ 2 * fd <= ny <= 4 * 65535)%Z
  | [nx] => (2 * fd <= nx < 2 ^ 31 - 1)%Z
  | _ => False
  end ->
  (forall pw dt md lg mg bg sr f nt cb store u, exists out, elastic_gpu_forward nd K P0 NS nsrc nrec srcs recs lbat mbat bbat pw dt md lg mg bg sr f nt cb store u out) /\
  (forall pw dt md lg mg bg sr gr nt cb store g, exists out, elastic_gpu_backward nd K P0 NS nsrc nrec srcs recs lbat mbat bbat pw dt md lg mg bg sr gr nt cb store g out).
Proof. exact (elastic_gpu_exists nd K P0 NS nsrc nrec srcs recs lbat mbat bbat). Qed.
Print Assumptions C63_elastic_runs.

(** *** Two shots of the problems of [StagShotsEx] *)
Lemma a2_ns c : (0 <= a2_nsrc c < 2 ^ 31)%Z.
Proof. unfold a2_nsrc, a2_n. destruct c; try destruct (_ <? _)%nat; lia. Qed.
Lemma a2_nr c : (0 <= a2_nrec c < 2 ^ 31)%Z.
Proof. unfold a2_nrec, a2_n. destruct c; try destruct (_ <? _)%nat; lia. Qed.
Lemma a2_m : Forall (fun m => m < 2 ^ 31 - 1)%Z (sp_shape aexP).
Proof. repeat constructor; cbn; lia. Qed.
Lemma a2_fit : let fd := fd_pad (sp_acc aexP) in (2 * fd <= 5 < 2 ^ 31 - 1 /\ 2 * fd <= 4 <= 4 * 65535)%Z.
Proof. cbn. lia. Qed.
Lemma a2_sd c k j j' : In c (ac_allX 2) -> (0 <= k < 2)%Z -> (0 <= j < a2_nsrc c)%Z -> (0 <= j' < a2_nsrc c)%Z ->
  (0 <= a2_srcs c (k * a2_nsrc c + j))%Z -> a2_srcs c (k * a2_nsrc c + j)%Z = a2_srcs c (k * a2_nsrc c + j')%Z -> j = j'.
Proof.
  intros [<-|[<-|[<-|[]]]] Hk; cbn [a2_nsrc a2_n]; intros Hj Hj'; try (cbn in Hj, Hj'; lia).
  assert (E : (k = 0 \/ k = 1)%Z) by lia. assert (Ej : (j = 0 \/ j = 1)%Z) by (cbn in Hj; lia). assert (Ej' : (j' = 0 \/ j' = 1)%Z) by (cbn in Hj'; lia).
  destruct E as [-> | ->], Ej as [-> | ->], Ej' as [-> | ->]; cbn; intros; try reflexivity; try discriminate; try (unfold IGNORE in *; lia).
Qed.
Lemma a2_rd c k j j' : In c (ac_allX 2) -> (0 <= k < 2)%Z -> (0 <= j < a2_nrec c)%Z -> (0 <= j' < a2_nrec c)%Z ->
  (0 <= a2_recs c (k * a2_nrec c + j))%Z -> a2_recs c (k * a2_nrec c + j)%Z = a2_recs c (k * a2_nrec c + j')%Z -> j = j'.
Proof. intros [<-|[<-|[<-|[]]]] Hk Hj Hj'; cbn in Hj, Hj'; lia. Qed.
Definition a2_gf kbat bbat sr nt cb := acoustic_gpu_forward 2 Qc_ops aexP 2 a2_nsrc a2_nrec a2_srcs a2_recs kbat bbat aexpw aex_dt a2_md true true sr a2_f nt cb (fun _ _ _ => qz 0) a2_u.
Definition a2_gb kbat bbat sr nt cb := acoustic_gpu_backward 2 Qc_ops aexP 2 a2_nsrc a2_nrec a2_srcs a2_recs kbat bbat aexpw aex_dt a2_md true true sr a2_gr nt cb a2_store a2_g.
Definition a2_runs kbat bbat := C63_acoustic_runs 2 Qc_ops aexP 2 a2_nsrc a2_nrec a2_srcs a2_recs kbat bbat a2_ns a2_nr ltac:(lia) a2_fit.

Example gpu_acoustic_forward_example : (exists out, a2_gf true false 2 4 (Some 1%Z) out) /\
  forall out, a2_gf true false 2 4 (Some 1%Z) out -> snd (fst out) 3%Z XP 1%Z <> qz 0 /\ exists U1 R1 St1, a2_forward1 true false 2 4 (Some 1%Z) 1 = Some (U1, R1, St1) /\ [snd (fst out) 3%Z XP 1%Z] = R1 3%Z XP.
Proof.
  split; [exact (proj1 (a2_runs true false) aexpw aex_dt a2_md true true 2%Z a2_f 4%Z (Some 1%Z) (fun _ _ _ => qz 0) a2_u)|]. intros out H.
  destruct (C63_acoustic_forward 2 Qc_ops Qc_is_ring aexP aexpw 2 a2_nsrc a2_nrec a2_srcs a2_recs true false eq_refl ltac:(lia) aex_geom a2_m ltac:(lia) a2_ns a2_nr a2_src a2_rec
    aex_dt a2_md true true 2 a2_f 4 (Some 1%Z) (fun _ _ _ => qz 0) a2_u (aexF true) (aexF false) out 1 a2_sd (Permutation_refl _) (Permutation_refl _) ltac:(unfold nt_ok; lia) ltac:(lia) H)
    as (U1 & R1 & St1 & E & _ & _ & A & _).
  specialize (A 3%Z XP (or_introl eq_refl)). change ([snd (fst out) 3%Z XP 1%Z] = R1 3%Z XP) in A. change (a2_forward1 true false 2 4 (Some 1%Z) 1 = Some (U1, R1, St1)) in E.
  split; [|exists U1, R1, St1; split; [exact E|exact A]].
  assert (X : match a2_forward1 true false 2 4 (Some 1%Z) 1 with Some (_, R, _) => nz (nth 0 (R 3%Z XP) (qz 0)) | None => false end = true) by (vm_compute; reflexivity).
  rewrite E, <- A in X. apply nz_spec in X. exact X.
Qed.
Example gpu_acoustic_backward_example : (exists out, a2_gb false true 1 3 None out) /\
  forall out, a2_gb false true 1 3 None out -> snd (fst out) 0%Z XP 2%Z <> qz 0 /\
    snd out MK 7%Z = sumf (K := Qc_ops) (zrange 0 2) (fun k => gm_of (a2_backward1 false true 1 3 None k) MK 7%Z) /\
    snd out (MB 1) 27%Z = gm_of (a2_backward1 false true 1 3 None 1) (MB 1) 7%Z /\ snd out (MB 1) 27%Z <> qz 0.
Proof.
  split; [exact (proj2 (a2_runs false true) aexpw aex_dt a2_md true true 1%Z a2_gr 3%Z None a2_store a2_g)|]. intros out H.
  destruct (C63_acoustic_backward 2 Qc_ops Qc_is_ring aexP aexpw 2 a2_nsrc a2_nrec a2_srcs a2_recs false true eq_refl ltac:(lia) aex_geom a2_m ltac:(lia) a2_ns a2_nr a2_src a2_rec aex_room
    aex_dt a2_md true true 1 a2_gr 3 None a2_store a2_g (aexB true) (aexB false) out 1 a2_rd (Permutation_refl _) (Permutation_refl _) ltac:(unfold nt_ok; lia) ltac:(lia) H)
    as (U1 & f1 & gm1 & E & _ & _ & A).
  specialize (A 0%Z XP (or_introl eq_refl)). change ([snd (fst out) 0%Z XP 2%Z; snd (fst out) 0%Z XP 3%Z] = f1 0%Z XP) in A. change (a2_backward1 false true 1 3 None 1 = Some (U1, f1, gm1)) in E.
  split.
  - assert (X : match a2_backward1 false true 1 3 None 1 with Some (_, R, _) => nz (nth 0 (R 0%Z XP) (qz 0)) | None => false end = true) by (vm_compute; reflexivity).
    rewrite E, <- A in X. apply nz_spec in X. exact X.
  - pose proof (fun q Hq Hf => C63_acoustic_gradient_partial 2 Qc_ops Qc_is_ring aexP aexpw 2 a2_nsrc a2_nrec a2_srcs a2_recs false true eq_refl ltac:(lia) aex_geom a2_m ltac:(lia) a2_ns a2_nr a2_src a2_rec aex_room
      aex_dt a2_md true true 1 a2_gr 3 None a2_store a2_g (aexB true) (aexB false) out q a2_rd (Permutation_refl _) (Permutation_refl _) ltac:(unfold nt_ok; lia) ltac:(lia) Hq Hf (or_intror (or_intror eq_refl)) H) as G.
    split; [exact (G MK I eq_refl 7%Z ltac:(cbn; lia))|].
    pose proof (G (MB 1) (le_n 2) eq_refl 1%Z 7%Z ltac:(lia) ltac:(cbn; lia)) as B. change (snd out (MB 1) 27%Z = gm_of (a2_backward1 false true 1 3 None 1) (MB 1) 7%Z) in B.
    split; [exact B|]. rewrite B. apply nz_spec. vm_compute. reflexivity.
Qed.

Lemma e2_ns c : (0 <= e2_nsrc c < 2 ^ 31)%Z.
Proof. unfold e2_nsrc, e2_n. destruct c; try destruct (_ <? _)%nat; lia. Qed.
Lemma e2_nr c : (0 <= e2_nrec c < 2 ^ 31)%Z.
Proof. unfold e2_nrec, e2_n. destruct c; try destruct (_ <? _)%nat; lia. Qed.
Lemma e2_m : Forall (fun m => m < 2 ^ 31 - 1)%Z (sp_shape eexP).
Proof. repeat constructor; cbn; lia. Qed.
Lemma e2_fit : let fd := fd_pad (sp_acc eexP) in (2 * fd <= 5 < 2 ^ 31 - 1 /\ 2 * fd <= 4 <= 4 * 65535)%Z.
Proof. cbn. lia. Qed.
Lemma e2_sd c k j j' : In c (el_allC 2) -> (0 <= k < 2)%Z -> (0 <= j < e2_nsrc c)%Z -> (0 <= j' < e2_nsrc c)%Z ->
  (0 <= e2_srcs c (k * e2_nsrc c + j))%Z -> e2_srcs c (k * e2_nsrc c + j)%Z = e2_srcs c (k * e2_nsrc c + j')%Z -> j = j'.
Proof.
  intros [<-|[<-|[<-|[]]]] Hk; cbn [e2_nsrc e2_n]; intros Hj Hj'; try (cbn in Hj, Hj'; lia).
  assert (E : (k = 0 \/ k = 1)%Z) by lia. assert (Ej : (j = 0 \/ j = 1)%Z) by (cbn in Hj; lia). assert (Ej' : (j' = 0 \/ j' = 1)%Z) by (cbn in Hj'; lia).
  destruct E as [-> | ->], Ej as [-> | ->], Ej' as [-> | ->]; cbn; intros; try reflexivity; try discriminate; try (unfold IGNORE in *; lia).
Qed.
Lemma e2_rd c k j j' : In c (el_allC 2) -> (0 <= k < 2)%Z -> (0 <= j < e2_nrec c)%Z -> (0 <= j' < e2_nrec c)%Z ->
  (0 <= e2_recs c (k * e2_nrec c + j))%Z -> e2_recs c (k * e2_nrec c + j)%Z = e2_recs c (k * e2_nrec c + j')%Z -> j = j'.
Proof. intros [<-|[<-|[<-|[]]]] Hk Hj Hj'; cbn in Hj, Hj'; lia. Qed.
Definition e2_gf lbat mbat bbat sr nt cb := elastic_gpu_forward 2 Qc_ops eexP 2 e2_nsrc e2_nrec e2_srcs e2_recs lbat mbat bbat aexpw eex_dt e2_md true true true sr e2_f nt cb (fun _ _ _ => qz 0) e2_u.
Definition e2_gb lbat mbat bbat sr nt cb := elastic_gpu_backward 2 Qc_ops eexP 2 e2_nsrc e2_nrec e2_srcs e2_recs lbat mbat bbat aexpw eex_dt e2_md true true true sr e2_gr nt cb e2_store e2_g.
Definition e2_runs lbat mbat bbat := C63_elastic_runs 2 Qc_ops eexP 2 e2_nsrc e2_nrec e2_srcs e2_recs lbat mbat bbat e2_ns e2_nr ltac:(lia) e2_fit.
Example gpu_elastic_forward_example : (exists out, e2_gf true false true 1 3 (Some 2%Z) out) /\
  forall out, e2_gf true false true 1 3 (Some 2%Z) out -> snd (fst out) 2%Z CP 1%Z <> qz 0 /\ exists U1 R1 St1, e2_forward1 true false true 1 3 (Some 2%Z) 1 = Some (U1, R1, St1) /\ [snd (fst out) 2%Z CP 1%Z] = R1 2%Z CP.
Proof.
  split; [exact (proj1 (e2_runs true false true) aexpw eex_dt e2_md true true true 1%Z e2_f 3%Z (Some 2%Z) (fun _ _ _ => qz 0) e2_u)|]. intros out H.
  destruct (C63_elastic_forward 2 Qc_ops Qc_is_ring eexP aexpw 2 e2_nsrc e2_nrec e2_srcs e2_recs true false true eq_refl ltac:(lia) eex_geom e2_m ltac:(lia) e2_ns e2_nr e2_src e2_rec
    eex_dt e2_md true true true 1 e2_f 3 (Some 2%Z) (fun _ _ _ => qz 0) e2_u (eexF true) (eexF false) out 1 e2_sd (Permutation_refl _) (Permutation_refl _) ltac:(unfold nt_ok; lia) ltac:(lia) H)
    as (U1 & R1 & St1 & E & _ & _ & A & _).
  specialize (A 2%Z CP ltac:(right; right; left; reflexivity)). change ([snd (fst out) 2%Z CP 1%Z] = R1 2%Z CP) in A. change (e2_forward1 true false true 1 3 (Some 2%Z) 1 = Some (U1, R1, St1)) in E.
  split; [|exists U1, R1, St1; split; [exact E|exact A]].
  assert (X : match e2_forward1 true false true 1 3 (Some 2%Z) 1 with Some (_, R, _) => nz (nth 0 (R 2%Z CP) (qz 0)) | None => false end = true) by (vm_compute; reflexivity).
  rewrite E, <- A in X. apply nz_spec in X. exact X.
Qed.
Example gpu_elastic_backward_example : (exists out, e2_gb true false false 1 2 None out) /\
  forall out, e2_gb true false false 1 2 None out -> snd (fst out) 0%Z CP 2%Z <> qz 0 /\
    snd out MMU 7%Z = sumf (K := Qc_ops) (zrange 0 2) (fun k => gm_of (e2_backward1 true false false 1 2 None k) MMU 7%Z) /\ snd out MMU 7%Z <> qz 0 /\
    snd out ML 27%Z = gm_of (e2_backward1 true false false 1 2 None 1) ML 7%Z.
Proof.
  split; [exact (proj2 (e2_runs true false false) aexpw eex_dt e2_md true true true 1%Z e2_gr 2%Z None e2_store e2_g)|]. intros out H.
  destruct (C63_elastic_backward 2 Qc_ops Qc_is_ring eexP aexpw 2 e2_nsrc e2_nrec e2_srcs e2_recs true false false eq_refl ltac:(lia) eex_geom e2_m ltac:(lia) e2_ns e2_nr e2_src e2_rec eex_room
    eex_dt e2_md true true true 1 e2_gr 2 None e2_store e2_g (eexB true) (eexB false) out 1 e2_rd (Permutation_refl _) (Permutation_refl _) ltac:(unfold nt_ok; lia) ltac:(lia) H)
    as (U1 & f1 & gm1 & E & _ & _ & A).
  specialize (A 0%Z CP ltac:(right; right; left; reflexivity)). change ([snd (fst out) 0%Z CP 2%Z; snd (fst out) 0%Z CP 3%Z] = f1 0%Z CP) in A. change (e2_backward1 true false false 1 2 None 1 = Some (U1, f1, gm1)) in E.
  split.
  - assert (X : match e2_backward1 true false false 1 2 None 1 with Some (_, R, _) => nz (nth 0 (R 0%Z CP) (qz 0)) | None => false end = true) by (vm_compute; reflexivity).
    rewrite E, <- A in X. apply nz_spec in X. exact X.
  - pose proof (fun q Hq Hf => C63_elastic_gradient_partial 2 Qc_ops Qc_is_ring eexP aexpw 2 e2_nsrc e2_nrec e2_srcs e2_recs true false false eq_refl ltac:(lia) eex_geom e2_m ltac:(lia) e2_ns e2_nr e2_src e2_rec eex_room
      eex_dt e2_md true true true 1 e2_gr 2 None e2_store e2_g (eexB true) (eexB false) out q e2_rd (Permutation_refl _) (Permutation_refl _) ltac:(unfold nt_ok; lia) ltac:(lia) Hq Hf (or_intror (or_intror eq_refl)) H) as G.
    pose proof (G MMU I eq_refl 7%Z ltac:(cbn; lia)) as B. change (snd out MMU 7%Z = sumf (K := Qc_ops) (zrange 0 2) (fun k => gm_of (e2_backward1 true false false 1 2 None k) MMU 7%Z)) in B.
    split; [exact B|]. split; [rewrite B; apply nz_spec; vm_compute; reflexivity|]. exact (G ML I eq_refl 1%Z 7%Z ltac:(lia) ltac:(cbn; lia)).
Qed.

(** C63 for the gradient is false for a shared model, several shots and callbacks: the blocks of the shots are not cleared
    between calls and [combine_grad] adds them again at the end of every call (acoustic.cu:1696-1738,
    acoustic.py:1108-1122, 1181-1230; elastic.cu:3019-3053).  In every run of two shots and two steps with callbacks after every step the
    gradient of the bulk modulus is wrong. *)
Theorem C63_callback_gradient_refuted : exists (P0 : spar (ac_sys 2) Qc_ops) pw nsrc nrec srcs recs dt kb store gr g visA visB i,
  sgeom (ac_sys 2) Qc_ops P0 pw /\ ac_bvis 2 Qc_ops P0 pw true visA /\ ac_bvis 2 Qc_ops P0 pw false visB /\ (0 <= i < prodZ (sp_shape P0))%Z /\
  (exists out, acoustic_gpu_backward 2 Qc_ops P0 2 nsrc nrec srcs recs false false pw dt kb true true 1 gr 2 (Some 1%Z) store g out) /\
  forall out, acoustic_gpu_backward 2 Qc_ops P0 2 nsrc nrec srcs recs false false pw dt kb true true 1 gr 2 (Some 1%Z) store g out ->
    snd out MK i <> sumf (K := Qc_ops) (zrange 0 2) (fun k => gm_of (acoustic_backward 2 Qc_ops (@mkspar (ac_sys 2) Qc_ops (sp_acc P0) (sp_shape P0) (sp_rd P0) (sp_a P0) (sp_b P0)
        (fun c => map (fun j => srcs c (k * nsrc c + j)%Z) (zrange 0 (nsrc c))) (fun c => map (fun j => recs c (k * nrec c + j)%Z) (zrange 0 (nrec c))))
      pw dt kb visA visB true true 1 (fun t c => map (fun j => gr t c (k * nrec c + j)%Z) (zrange 0 (nrec c))) 2 (Some 1%Z) (fun q si i => store q si (k * prodZ (sp_shape P0) + i)%Z) (g k)) MK i).
Proof.
  exists aexP, aexpw, a2_nsrc, a2_nrec, a2_srcs, a2_recs, aex_dt, a2_md, a2_store, a2_gr, a2_g, (aexB true), (aexB false), 7%Z.
  split; [exact aex_geom|]. split; [exact (Permutation_refl _)|]. split; [exact (Permutation_refl _)|]. split; [cbn; lia|].
  split; [exact (proj2 (a2_runs false false) aexpw aex_dt a2_md true true 1%Z a2_gr 2%Z (Some 1%Z) a2_store a2_g)|]. intros out H.
  rewrite (acoustic_gpu_again 2 Qc_ops Qc_is_ring aexP aexpw 2 a2_nsrc a2_nrec a2_srcs a2_recs false false eq_refl ltac:(lia) aex_geom a2_m ltac:(lia) a2_ns a2_nr a2_src a2_rec aex_room
    aex_dt a2_md true true 1%Z a2_gr 2%Z (Some 1%Z) a2_store a2_g (aexB true) (aexB false) out MK 7%Z a2_rd (Permutation_refl _) (Permutation_refl _) ltac:(unfold nt_ok; lia) ltac:(lia) I eq_refl ltac:(cbn; lia) H).
  match goal with |- ?x <> ?y => assert (X : nz (x - y)%Qc = true) by (vm_compute; reflexivity); apply nz_spec in X; intros C; apply X; rewrite C; apply Qcplus_opp_r end.
Qed.
Print Assumptions C63_callback_gradient_refuted.
