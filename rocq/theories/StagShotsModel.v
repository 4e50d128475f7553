(** * Model of a batch of shots run by several threads: staggered-grid propagators.

    The compiled kernels loop over shots with [#pragma omp parallel for] (acoustic.c:292-294, 848-850;
    elastic.c:629-631, 1533-1535).  All shots use the same arrays, each at its own pointer offset.  As in
    [ShotsModel.v]: the arrays are global, a shot's kernel sees them shifted by its offset, and the threads'
    work is interleaved arbitrarily.

    Simplifications: the unit of interleaving is one cell update, one recording or one injection of a step;
    snapshots are families of arrays indexed by snapshot number; amplitudes are families of rows indexed by
    time step. *)
From Coq Require Import List ZArith QArith Lia Bool.
From Verif Require Import Ops Sums Grid Stencil ScalarModel ShotsModel Stag StagKernel AcousticModel ElasticModel.
Import ListNotations.
Local Open Scope K_scope.

(** Pointer [a + k * n] (si, acoustic.c:296-325, 857-886; elastic.c:639-705, 1548-1623), and back; arrays of all shots. *)
Definition bsh {A} (n k : Z) (a : Z -> A) : Z -> A := fun i => a (k * n + i)%Z.
Definition bunsh {A} (n k : Z) (a : Z -> A) : Z -> A := fun j => a (j - k * n)%Z.
Definition bstack {A} (n : Z) (a : Z -> Z -> A) : Z -> A := fun j => a (j / n)%Z (j mod n)%Z.

(** What a thread does to the memory of a shot between two scheduling points. *)
Inductive sact (G : Type) :=
| SRec (A : bool) (t : Z)                       (* record amplitudes *)
| SCell (A : bool) (t : Z) (c : G)              (* update a cell of phase A *)
| SInj (A : bool) (t : Z).                      (* add amplitudes *)
Arguments SRec {G}. Arguments SCell {G}. Arguments SInj {G}.

Section SShots.
Variable S : sys.
Variable N : kern S.
Variable K : ops.
Variable P0 : spar S K.                          (* everything but the locations *)
Variable num : (kM N -> arr K) -> knum S N K.    (* expressions, given the models *)
Variable NS : Z.                                 (* n_shots *)
Variables nsrc nrec : sC S -> Z.                 (* sources, receivers per shot of each kind *)
Variables srcs recs : sC S -> Z -> Z.            (* locations [n_shots, n_per_shot], flat *)
Variable bt : kM N -> bool.                      (* k_batched, b_batched, lamb_batched, ... *)
Variable cmb : Z -> bool.                        (* cells visited by the sum over threads *)
Notation shape := (sp_shape P0).
Notation n := (prodZ shape).
Notation kvar := (svar (sX S) (sE S) (kQ N) (kM N)).
Notation cell := (grp S (kQ N) (kM N) * (list Z * pt))%type.
Notation kmem := (kmem S N K).
Notation krec := (krec S K).

(** Parameters and models seen by shot [k]. *)
Definition sshot_par (k : Z) : spar S K :=
  mkspar (sp_acc P0) (sp_shape P0) (sp_rd P0) (sp_a P0) (sp_b P0)
         (fun c => row (srcs c) (nsrc c) k) (fun c => row (recs c) (nrec c) k).
Definition sshot_md (md : kM N -> arr K) (k : Z) : kM N -> arr K :=
  fun q => if bt q then bsh n k (md q) else md q.

(** Global memory: arrays ([VG]: the memory [grad_?_thread] points at), rows of amplitudes being
    written, and model gradients when they are not [grad_?_thread]. *)
Record gmem := mkgmem { G_m : kmem; G_r : Z -> sC S -> arr K; G_g : kM N -> arr K }.

(** Block of an array used by shot [k]; [blk]: block of the gradient buffers. *)
Definition vblk (blk : kM N -> Z -> Z) (k : Z) (v : kvar) : Z := match v with VG q => blk q k | _ => k end.
Definition gview (cnt : sC S -> Z) (blk : kM N -> Z -> Z) (k : Z) (G : gmem) : kmem * krec :=
  (fun v => bsh n (vblk blk k v) (G_m G v), fun t c => row (G_r G t c) (cnt c) k).
Definition gput (cnt : sC S -> Z) (blk : kM N -> Z -> Z) (k : Z) (mr : kmem * krec) (G : gmem) : gmem :=
  mkgmem (fun v => bunsh n (vblk blk k v) (fst mr v)) (fun t c => put_row K (snd mr t c) (cnt c) k (G_r G t c)) (G_g G).

(** ** Forward *)

(** One action on the memory of one shot (acoustic.c:402-610, elastic.c:797-1230). *)
Definition sfact (P : spar S K) (U : knum S N K) (fq : kQ N -> bool) (sr : Z) (f : krec)
    (mr : kmem * krec) (a : sact cell) : kmem * krec :=
  match a with
  | SRec _ t => (fst mr, kput S K (snd mr) t (fun _ => true) (fun c old => k_rec S N K (fst mr) (sp_rec P c) old c))
  | SCell _ t c => (f_cell S N K P U (fun q => fq q && (t mod sr =? 0)%Z) (t / sr)%Z (fst mr) c, snd mr)
  | SInj A t => (fold_left (k_add S N K (sp_src P) (f t)) (halfC S A) (fst mr), snd mr)
  end.

(** The actions of one shot in one call, in program order. *)
Definition sfprog (visA visB : list cell) (nt s0 : Z) : list (sact cell) :=
  flat_map (fun t => [SRec true t] ++ map (SCell true t) visA ++ [SInj true t] ++ map (SCell false t) visB ++ [SInj false t])
           (zrange s0 (s0 + nt)).

Definition own (q : kM N) (k : Z) : Z := k.
Definition sfexec (md : kM N -> arr K) (fq : kQ N -> bool) (sr : Z) (f : Z -> sC S -> arr K) (G : gmem)
    (x : Z * sact cell) : gmem :=
  let k := fst x in
  gput nrec own k (sfact (sshot_par k) (num (sshot_md md k)) fq sr (fun t c => row (f t c) (nsrc c) k)
                         (gview nrec own k G) (snd x)) G.

(** The schedule is an interleaving of the shots' programs in every call. *)
Definition sfsched_ok (visA visB : list cell) (sr nt : Z) (cb : option Z) (sched : Z -> list (Z * sact cell)) : Prop :=
  let n := (nt / sr)%Z in
  forall s, interleaves NS (fun _ => sfprog visA visB (Z.min (n - s) (k_cf nt sr cb) * sr) (s * sr)) (sched s).

Definition sbatch_init (pw : nat -> Z * Z) (store : kQ N -> Z -> arr K) (u : Z -> sst S K) : gmem :=
  mkgmem (fun v => match v with
                   | VQ q si => store q si
                   | _ => bstack n (fun k => k_init S N K (sshot_par k) pw (fun q si => bsh n k (store q si)) (u k) v)
                   end) (fun _ _ _ => 0) (fun _ _ => 0).
Definition sbatch_out (G : gmem) (k : Z) : sst S K := k_out S N K P0 (fun v => bsh n k (G_m G v)).

(** [AcousticForwardFunc.forward], [ElasticForwardFunc.forward] on a batch (acoustic.py:738-1007,
    elastic.py:1181-1567); [sched s]: the interleaving of the call at step [s]. *)
Definition sbatch_forward (pw : nat -> Z * Z) (md : kM N -> arr K) (fq : kQ N -> bool) (sr : Z)
    (f : Z -> sC S -> arr K) (nt : Z) (cb : option Z) (sched : Z -> list (Z * sact cell))
    (store : kQ N -> Z -> arr K) (u : Z -> sst S K)
    : option ((Z -> sst S K) * (Z -> sC S -> arr K) * (kQ N -> Z -> arr K)) :=
  let out G := (sbatch_out G, G_r G, fun q si => G_m G (VQ q si)) in
  let G0 := sbatch_init pw store u in
  if (nt <=? 0)%Z then Some (out G0)
  else if (k_cf nt sr cb =? 0)%Z then None
  else Some (out (fold_left (fun G s => fold_left (sfexec md fq sr f) (sched s) G)
                            (range_up (nt / sr) (k_cf nt sr cb)) G0)).

(** ** Backward *)

(** One action on the memory of one shot; the parity of the step selects the buffers
    (acoustic.c:967-1208, elastic.c:1670-2180). *)
Definition sbact (P : spar S K) (U : knum S N K) (fm : kM N -> bool) (sr : Z) (gr : krec) (s0 : Z)
    (mr : kmem * krec) (a : sact cell) : kmem * krec :=
  let t := match a with SRec _ t => t | SCell _ t _ => t | SInj _ t => t end in
  let fmt := fun q => fm q && (t mod sr =? 0)%Z in
  let body mr := match a with
    | SRec A t => (fst mr, kput S K (snd mr) t (fun c => Bool.eqb (cA S c) A) (fun c old => k_rec S N K (fst mr) (sp_src P c) old c))
    | SCell A t c => ((if A then bA_cell S N K P U fmt sr (t / sr)%Z (fst mr) c
                       else bB_cell S N K P U fmt sr (t / sr)%Z (fst mr) c), snd mr)
    | SInj _ t => (fold_left (k_add S N K (sp_rec P) (gr t)) (allC S) (fst mr), snd mr)
    end in
  if Z.odd (s0 - 1 - t) then mswap S N K (body (mswap S N K mr)) else body mr.

Definition sbprog (visA visB : list cell) (nt s0 : Z) : list (sact cell) :=
  flat_map (fun t => [SRec false t] ++ map (SCell true t) visA ++ [SRec true t] ++ map (SCell false t) visB ++ [SInj true t])
           (rev (zrange (s0 - nt) s0)).

(** Block of [grad_?_thread] that shot [k] accumulates in: [batched ? si : threadi] (acoustic.c:908-919,
    elastic.c:1563-1618); [th k] = omp_get_thread_num() while shot [k] is processed. *)
Definition sblk (th : Z -> Z) (q : kM N) (k : Z) : Z := if bt q then k else th k.

Definition sbexec (th : Z -> Z) (md : kM N -> arr K) (fm : kM N -> bool) (sr : Z) (gr : Z -> sC S -> arr K) (s0 : Z)
    (G : gmem) (x : Z * sact cell) : gmem :=
  let k := fst x in
  gput nsrc (sblk th) k (sbact (sshot_par k) (num (sshot_md md k)) fm sr (fun t c => row (gr t c) (nrec c) k) s0
                               (gview nsrc (sblk th) k G) (snd x)) G.

Definition sbsched_ok (visA visB : list cell) (sr nt : Z) (cb : option Z) (sched : Z -> list (Z * sact cell)) : Prop :=
  forall s, interleaves NS (fun _ => sbprog visA visB (Z.min s (k_cf nt sr cb) * sr) (s * sr)) (sched s).

(** A separate buffer is used for the threads (acoustic.py:1105-1150, elastic.py:1726-1760). *)
Definition sseparate (fm : kM N -> bool) (nth : Z) (q : kM N) : bool := fm q && negb (bt q) && (1 <? nth)%Z.

(** [combine_grad] (common_cpu.h:28-45), [combine_grad_elastic] (elastic.c:370-410). *)
Definition scombine (nth : Z) (buf g : arr K) : arr K :=
  fun i => if (0 <=? i)%Z && (i <? n)%Z && cmb i
           then fold_left (fun x th => x + buf (th * n + i)%Z) (zrange 0 nth) (g i)
           else g i.

(** One call of the compiled backward function (acoustic.c:1226-1243, elastic.c:2199-2250), and the exchange of
    the Python references (acoustic.py:1182-1231). *)
Definition sbatch_bchunk (nth : Z) (th : Z -> Z -> Z) (md : kM N -> arr K) (fm : kM N -> bool) (sr : Z)
    (gr : Z -> sC S -> arr K) (sched : Z -> list (Z * sact cell)) (cf : Z) (G : gmem) (s : Z) : gmem :=
  let G1 := fold_left (sbexec (th s) md fm sr gr (s * sr)) (sched s) G in
  let G2 := mkgmem (G_m G1) (G_r G1)
              (fun q => if sseparate fm nth q then scombine nth (G_m G1 (VG q)) (G_g G1 q) else G_g G1 q) in
  if ((Z.min s cf * sr) mod 2 =? 0)%Z then G2
  else mkgmem (kswap S N K (G_m G2)) (G_r G2) (G_g G2).

(** [backward] of the autograd functions on a batch (acoustic.py:1010-1258, elastic.py:1571-1949): gradients of
    the wavefields of every shot, of the source amplitudes, of the models ([n_shots] blocks if batched, otherwise
    one).  All gradient buffers start as zeros. *)
Definition sbatch_backward (pw : nat -> Z * Z) (nth : Z) (th : Z -> Z -> Z) (md : kM N -> arr K) (fm : kM N -> bool)
    (sr : Z) (gr : Z -> sC S -> arr K) (nt : Z) (cb : option Z) (sched : Z -> list (Z * sact cell))
    (store : kQ N -> Z -> arr K) (g : Z -> sst S K)
    : option ((Z -> sst S K) * (Z -> sC S -> arr K) * (kM N -> arr K)) :=
  let out G := (sbatch_out G, G_r G, fun q => if sseparate fm nth q then G_g G q else G_m G (VG q)) in
  let G0 := sbatch_init pw store g in
  if (nt <=? 0)%Z then Some (out G0)
  else if (k_cf nt sr cb =? 0)%Z then None
  else Some (out (fold_left (sbatch_bchunk nth th md fm sr gr sched (k_cf nt sr cb))
                            (range_down (nt / sr) (k_cf nt sr cb)) G0)).

End SShots.

(** Acoustic propagator: [combine_grad] visits every cell. *)
Definition acoustic_batch_forward (nd : nat) (K : ops) (P0 : spar (ac_sys nd) K) (nsrc nrec : aX -> Z) (srcs recs : aX -> Z -> Z)
    (kbat bbat : bool) (pw : nat -> Z * Z) (dt : K) (kb : aM -> arr K) (kg bg : bool) :=
  sbatch_forward (ac_sys nd) (ac_kern nd) K P0 (ac_num nd K dt) nsrc nrec srcs recs (ac_flag kbat bbat) pw kb (ac_flag kg bg).
Definition acoustic_batch_backward (nd : nat) (K : ops) (P0 : spar (ac_sys nd) K) (nsrc nrec : aX -> Z) (srcs recs : aX -> Z -> Z)
    (kbat bbat : bool) (pw : nat -> Z * Z) (nth : Z) (th : Z -> Z -> Z) (dt : K) (kb : aM -> arr K) (kg bg : bool) :=
  sbatch_backward (ac_sys nd) (ac_kern nd) K P0 (ac_num nd K dt) nsrc nrec srcs recs (ac_flag kbat bbat) (fun _ => true)
    pw nth th kb (ac_flag kg bg).

(** Elastic propagator: [combine_grad_elastic] visits [FD_PAD <= y < ny - FD_PAD + 1] in every dimension. *)
Definition el_cmb (nd : nat) (K : ops) (P0 : spar (el_sys nd) K) (i : Z) : bool :=
  inb (map (fun m => (fd_pad (sp_acc P0), m - fd_pad (sp_acc P0) + 1)%Z) (sp_shape P0)) (unidx (sp_shape P0) i).
Definition elastic_batch_forward (nd : nat) (K : ops) (P0 : spar (el_sys nd) K) (nsrc nrec : eC -> Z) (srcs recs : eC -> Z -> Z)
    (lbat mbat bbat : bool) (pw : nat -> Z * Z) (dt : K) (md : eM -> arr K) (lg mg bg : bool) :=
  sbatch_forward (el_sys nd) (el_kern nd) K P0 (el_num nd K dt) nsrc nrec srcs recs (el_fm lbat mbat bbat) pw md (el_fq lg mg bg).
Definition elastic_batch_backward (nd : nat) (K : ops) (P0 : spar (el_sys nd) K) (nsrc nrec : eC -> Z) (srcs recs : eC -> Z -> Z)
    (lbat mbat bbat : bool) (pw : nat -> Z * Z) (nth : Z) (th : Z -> Z -> Z) (dt : K) (md : eM -> arr K) (lg mg bg : bool) :=
  sbatch_backward (el_sys nd) (el_kern nd) K P0 (el_num nd K dt) nsrc nrec srcs recs (el_fm lbat mbat bbat) (el_cmb nd K P0)
    pw nth th md (el_fm lg mg bg).
