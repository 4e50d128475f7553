(** * Compiled kernels and drivers of the staggered-grid propagators (one shot).

    [acoustic.c] and [elastic.c] share their structure: loop nests ("groups") over the cells of one
    staggered position, grouped in two phases (velocities, then pressure or stresses), each run over
    the 3^ndim PML regions; in every cell derivative terms with memory variables, optional snapshots,
    updates.  This file models that common structure on flat memory, together with the Python drivers
    ([AcousticForwardFunc], [ElasticForwardFunc]); the expressions written in the cells are
    parameters ([knum]) given in [AcousticModel.v] and [ElasticModel.v].

    Simplifications: exact arithmetic; one shot and one thread; snapshots are arrays indexed by the
    step index (see [StorageModel.v] for how they are stored); gradients of all sources are requested. *)
From Coq Require Import List ZArith QArith Lia Bool.
From Verif Require Import Ops Sums Grid Stencil ScalarModel Stag.
Import ListNotations.
Local Open Scope K_scope.

(** A loop nest: staggered position, terms computed, variables updated, snapshots saved and model
    gradients accumulated in it. *)
Record grp (S : sys) (Q M : Type) := mkgrp {
  g_h : nat -> bool;
  g_E : list (sE S);
  g_X : list (sX S);
  g_Q : list Q;
  g_M : list M
}.
Arguments mkgrp {S Q M}. Arguments g_h {S Q M}. Arguments g_E {S Q M}. Arguments g_X {S Q M}.
Arguments g_Q {S Q M}. Arguments g_M {S Q M}.

(** Structure of a kernel: names of snapshots and models, loop nests of the two phases, terms whose
    memory variable is left alone in region 1 by the backward kernel. *)
Record kern (S : sys) := mkkern {
  kQ : Type; kM : Type;
  kX_dec : forall a b : sX S, {a = b} + {a <> b};
  kE_dec : forall a b : sE S, {a = b} + {a <> b};
  kQ_dec : forall a b : kQ, {a = b} + {a <> b};
  kM_dec : forall a b : kM, {a = b} + {a <> b};
  kgrp : bool -> list (grp S kQ kM);
  kguard : sE S -> bool
}.
Arguments mkkern {S}. Arguments kQ {S}. Arguments kM {S}. Arguments kX_dec {S}. Arguments kE_dec {S}.
Arguments kQ_dec {S}. Arguments kM_dec {S}. Arguments kgrp {S}. Arguments kguard {S}.

(** Expressions of a kernel: increment of a variable given the terms, at a flat index; snapshot given the
    terms; adjoint of a term outside ([n_tb]) and inside ([n_tbp], with profile [b] and memory
    variable) PML regions; new memory variable in the backward kernel (with profile [a]); increment of a
    model gradient given variables, snapshots and step ratio. *)
Record knum (S : sys) (N : kern S) (K : ops) := mkknum {
  n_inc : sX S -> (sE S -> K) -> Z -> K;
  n_sto : kQ N -> (sE S -> K) -> K;
  n_tb : sE S -> (sX S -> K) -> Z -> K;
  n_tbp : sE S -> K -> K -> (sX S -> K) -> Z -> K;
  n_mem : sE S -> K -> K -> (sX S -> K) -> Z -> K;
  n_gm : kM N -> (sX S -> K) -> (kQ N -> K) -> K -> K
}.
Arguments mkknum {S N K}. Arguments n_inc {S N K}. Arguments n_sto {S N K}. Arguments n_tb {S N K}.
Arguments n_tbp {S N K}. Arguments n_mem {S N K}. Arguments n_gm {S N K}.

(** Arrays of a shot: variables, memory variables and their second buffer, snapshots, gradients. *)
Inductive svar (X E Q M : Type) : Type :=
| VX (x : X) | VM (e : E) | VN (e : E) | VQ (q : Q) (si : Z) | VG (m : M).
Arguments VX {X E Q M}. Arguments VM {X E Q M}. Arguments VN {X E Q M}. Arguments VQ {X E Q M}.
Arguments VG {X E Q M}.

Section Kernel.
Variable S : sys.
Variable N : kern S.
Variable K : ops.
Variable P : spar S K.
Variable U : knum S N K.
Notation shape := (sp_shape P).
Notation fd := (fd_pad (sp_acc P)).
Notation nd := (length shape).
Notation kvar := (svar (sX S) (sE S) (kQ N) (kM N)).
Notation kgp := (grp S (kQ N) (kM N)).

Definition kmem := kvar -> arr K.

Definition kvar_dec (a b : kvar) : {a = b} + {a <> b}.
Proof.
  decide equality; try apply (kX_dec N); try apply (kE_dec N); try apply (kQ_dec N);
    try apply (kM_dec N); apply Z.eq_dec.
Defined.

Definition setm (m : kmem) (v : kvar) (i : Z) (y : K) : kmem :=
  fun w j => if kvar_dec w v then (if (j =? i)%Z then y else m w j) else m w j.
Definition seta (m : kmem) (v : kvar) (a : arr K) : kmem :=
  fun w => if kvar_dec w v then a else m w.

(** Bounds of the regions of dimension [d]: [pml_bounds_?h] (half positions) and [pml_bounds_?]
    (acoustic.c:259-272, 824-837; elastic.c:612-626, 1516-1530). *)
Definition sreg_bounds (h : bool) (b e : Z) (n : Z) (r : Z) : Z * Z :=
  if h
  then (if (r =? 0)%Z then (fd, b) else if (r =? 1)%Z then (b, Z.max b (e - 1)) else (Z.max b (e - 1), n - fd))%Z
  else (if (r =? 0)%Z then (fd, b) else if (r =? 1)%Z then (b, e) else (e, n - fd + 1))%Z.
Definition sreg_box (h : nat -> bool) (b e : nat -> Z) (r : list Z) : box :=
  map (fun d => sreg_bounds (h d) (b d) (e d) (nth d shape 0%Z) (nth d r 0%Z)) (seq 0 nd).
Definition sregions : list (list Z) := box_pts (repeat (0%Z, 3%Z) nd).

(** Cells of a phase in program order: for every region, for every loop nest, its cells
    (acoustic.c:433-519, 544-602; elastic.c:825-997, 1020-1220). *)
Definition svisits (b e : nat -> Z) (A : bool) : list (kgp * (list Z * pt)) :=
  flat_map (fun r => flat_map (fun g => map (fun p => (g, (r, p))) (box_pts (sreg_box (g_h g) b e r))) (kgrp N A))
           sregions.

Definition reg_at (r : list Z) (d : nat) : Z := nth d r 0%Z.

(** [DIFF?1] / [DIFF?H1] applied to values given by offset. *)
Definition kdiff (h : bool) (d : nat) (f : Z -> K) : K :=
  if h then SDIFFH1 (sp_acc P) (sp_rd P d) f else SDIFF1 (sp_acc P) (sp_rd P d) f.

(** ** Forward kernel *)

(** One term of a cell (acoustic.c:460-465, 575-579; elastic.c:857-886, 1040-1090): derivative; in PML
    regions the memory variable is updated and added. *)
Definition f_term (reg : list Z) (p : pt) (acc : (sE S -> K) * kmem) (e : sE S) : (sE S -> K) * kmem :=
  let '(T, m) := acc in
  let d := edim S e in
  let h := eh S e d in
  let i := idx shape p in
  let s := stride shape d in
  let y := coord d p in
  let d0 := kdiff h d (fun k => m (VX (esrc S e)) (i + k * s)%Z) in
  if (reg_at reg d =? 1)%Z then (fun e' => if kE_dec N e' e then d0 else T e', m)
  else
    let mem := sp_b P h d y * d0 + sp_a P h d y * m (VM e) i in
    (fun e' => if kE_dec N e' e then d0 + mem else T e', setm m (VM e) i mem).

(** One cell (acoustic.c:459-471, 571-601; elastic.c:850-895, 1036-1105); [fq q]: snapshot [q] is saved in
    this step. *)
Definition f_cell (fq : kQ N -> bool) (si : Z) (m : kmem) (c : kgp * (list Z * pt)) : kmem :=
  let '(g, (reg, p)) := c in
  let i := idx shape p in
  let '(T, m1) := fold_left (f_term reg p) (g_E g) (fun _ => 0, m) in
  let m2 := fold_left (fun m q => if fq q then setm m (VQ q si) i (n_sto U q T) else m) (g_Q g) m1 in
  fold_left (fun m x => setm m (VX x) i (m (VX x) i + n_inc U x T i)) (g_X g) m2.

(** Injection of amplitudes of kind [c] into each of its variables; recording of (the sum of) its
    variables (common_cpu.h:5-26, elastic.c:321-367). *)
Definition k_add (locs : sC S -> list Z) (amps : sC S -> list K) (m : kmem) (c : sC S) : kmem :=
  fold_left (fun m x => seta m (VX x) (add_to_wavefield K (m (VX x)) (locs c) (amps c))) (cinX S c) m.
Definition k_rec (m : kmem) (locs : list Z) (old : list K) (c : sC S) : list K :=
  record_from_wavefield K (fun i => sumf (cinX S c) (fun x => m (VX x) i)) locs old.

Definition halfC (A : bool) : list (sC S) := filter (fun c => Bool.eqb (cA S c) A) (allC S).

Definition krec := Z -> sC S -> list K.
Definition kput (r : krec) (t : Z) (cs : sC S -> bool) (f : sC S -> list K -> list K) : krec :=
  fun u c => if (u =? t)%Z && cs c then f c (r u c) else r u c.

(** One time step: record, phase 1, its sources, phase 2, its sources
    (acoustic.c:402-610, elastic.c:797-1230). *)
Definition f_body (visA visB : list (kgp * (list Z * pt))) (fq : kQ N -> bool) (sr : Z)
    (f : krec) (mr : kmem * krec) (t : Z) : kmem * krec :=
  let '(m, r) := mr in
  let sto := fun q => fq q && (t mod sr =? 0)%Z in
  let r1 := kput r t (fun _ => true) (fun c old => k_rec m (sp_rec P c) old c) in
  let m1 := fold_left (f_cell sto (t / sr)%Z) visA m in
  let m2 := fold_left (k_add (sp_src P) (f t)) (halfC true) m1 in
  let m3 := fold_left (f_cell sto (t / sr)%Z) visB m2 in
  let m4 := fold_left (k_add (sp_src P) (f t)) (halfC false) m3 in
  (m4, r1).

(** [FUNC(forward)]: [for (t = start_t; t < start_t + nt; ++t)]. *)
Definition k_forward visA visB fq sr f (nt start_t : Z) (mr : kmem * krec) : kmem * krec :=
  fold_left (f_body visA visB fq sr f) (zrange start_t (start_t + nt)) mr.

(** ** Backward kernel *)

(** Sum of the derivatives of adjoint terms (acoustic.c:1032-1033, 1165-1178 with the macros 73-104;
    elastic.c:1775-1790, 1995-2040 with the macros 163-293). *)
Definition b_sum (m : kmem) (reg : list Z) (p : pt) (x : sX S) : K :=
  let i := idx shape p in
  sumf (srcE S x) (fun e =>
    let d := edim S e in
    let h := eh S e d in
    let s := stride shape d in
    let y := coord d p in
    - kdiff (negb h) d (fun k =>
        let j := (i + k * s)%Z in
        if (reg_at reg d =? 1)%Z then n_tb U e (fun x' => m (VX x') j) j
        else n_tbp U e (sp_b P h d (y + k)%Z) (m (VM e) j) (fun x' => m (VX x') j) j)).

(** New memory variables of a cell, into the buffer given by [dst]. *)
Definition b_mem (dst : sE S -> kvar) (reg : list Z) (p : pt) (m : kmem) (e : sE S) : kmem :=
  let d := edim S e in
  let i := idx shape p in
  if kguard N e && (reg_at reg d =? 1)%Z then m
  else setm m (dst e) i (n_mem U e (sp_a P (eh S e d) d (coord d p)) (m (VM e) i) (fun x => m (VX x) i) i).

Definition b_grad (fm : kM N -> bool) (sr : K) (si i : Z) (m : kmem) (k : kM N) : kmem :=
  if fm k
  then setm m (VG k) i (m (VG k) i + n_gm U k (fun x => m (VX x) i) (fun q => m (VQ q si) i) sr)
  else m.

(** One cell of phase 1: variables, memory variables (second buffer), gradients
    (acoustic.c:1030-1041, elastic.c:1770-1805). *)
Definition bA_cell (fm : kM N -> bool) (sr si : Z) (m : kmem) (c : kgp * (list Z * pt)) : kmem :=
  let '(g, (reg, p)) := c in
  let i := idx shape p in
  let m1 := fold_left (fun m x => setm m (VX x) i (m (VX x) i + b_sum m reg p x)) (g_X g) m in
  let m2 := fold_left (b_mem VN reg p) (g_E g) m1 in
  fold_left (b_grad fm (ofZ K sr) si i) (g_M g) m2.

(** One cell of phase 2: gradients, memory variables, variables (acoustic.c:1143-1179,
    elastic.c:1955-2045). *)
Definition bB_cell (fm : kM N -> bool) (sr si : Z) (m : kmem) (c : kgp * (list Z * pt)) : kmem :=
  let '(g, (reg, p)) := c in
  let i := idx shape p in
  let m1 := fold_left (b_grad fm (ofZ K sr) si i) (g_M g) m in
  let m2 := fold_left (b_mem VM reg p) (g_E g) m1 in
  fold_left (fun m x => setm m (VX x) i (m (VX x) i + b_sum m reg p x)) (g_X g) m2.

(** One time step (acoustic.c:993-1208, elastic.c:1734-2180): record gradients of the sources of phase 2,
    phase 1, record gradients of the sources of phase 1, phase 2, add the receiver gradients. *)
Definition b_body (visA visB : list (kgp * (list Z * pt))) (fm : kM N -> bool) (sr : Z)
    (gr : krec) (t : Z) (mr : kmem * krec) : kmem * krec :=
  let '(m, r) := mr in
  let fmt := fun k => fm k && (t mod sr =? 0)%Z in
  let r1 := kput r t (fun c => negb (cA S c)) (fun c old => k_rec m (sp_src P c) old c) in
  let m1 := fold_left (bA_cell fmt sr (t / sr)%Z) visA m in
  let r2 := kput r1 t (cA S) (fun c old => k_rec m1 (sp_src P c) old c) in
  let m2 := fold_left (bB_cell fmt sr (t / sr)%Z) visB m1 in
  (fold_left (k_add (sp_rec P) (gr t)) (allC S) m2, r2).

(** Exchange of the two buffers of the memory variables of phase 1. *)
Definition kswap (m : kmem) : kmem := fun v =>
  match v with
  | VM e => if eA S e then m (VN e) else m (VM e)
  | VN e => if eA S e then m (VM e) else m (VN e)
  | _ => m v
  end.
Definition mswap (mr : kmem * krec) : kmem * krec := (kswap (fst mr), snd mr).

(** Buffers selected by the parity of the step (acoustic.c:967-981, elastic.c:1670-1733). *)
Definition b_t visA visB fm sr gr (start_t : Z) (mr : kmem * krec) (t : Z) : kmem * krec :=
  if Z.odd (start_t - 1 - t)
  then mswap (b_body visA visB fm sr gr t (mswap mr))
  else b_body visA visB fm sr gr t mr.
Definition k_backward visA visB fm sr gr (nt start_t : Z) (mr : kmem * krec) : kmem * krec :=
  fold_left (b_t visA visB fm sr gr start_t) (rev (zrange (start_t - nt) start_t)) mr.

(** ** Drivers *)
Variable pw : nat -> Z * Z.
Notation n_ d := (nth d shape 0%Z).

(** Region boundaries (acoustic.py:876-880, 1097-1104; elastic.py:1399-1403, 1711-1718). *)
Definition fpml_b (d : nat) : Z := (fst (pw d) + fd)%Z.
Definition fpml_e (d : nat) : Z := Z.max (fpml_b d) (n_ d - snd (pw d) - (fd - 1)).
Definition bpml_b (d : nat) : Z := Z.min (fst (pw d) + 2 * fd) (n_ d - (fd - 1)).
Definition bpml_e (d : nat) : Z := Z.max (bpml_b d) (n_ d - snd (pw d) - 2 * fd + 1).

(** Part of the arrays visible to the caller: [w[fd_pad : shape - (fd_pad - 1)]]
    (acoustic.py:1003-1007, 1246-1249; elastic.py:1553-1557, 1935-1939). *)
Definition crop (p : pt) : bool := dom S K P (fun _ => false) p.

(** [zero_edge]: last cell of a dimension in which the variable is at half positions
    (acoustic.py:640-643, 703-706; elastic.py:1079-1093, 1117-1168). *)
Definition edge (h : nat -> bool) (p : pt) : bool :=
  existsb (fun d => h d && (coord d p =? n_ d - fd)%Z) (seq 0 nd).
(** [zero_interior] with [fd_pad_shifted] (acoustic.py:709-717, common.py:2594-2628). *)
Definition ezone (e : sE S) (p : pt) : bool :=
  let d := edim S e in
  let y := coord d p in
  (fd + fst (pw d) <=? y)%Z
  && (y <? n_ d - snd (pw d) - (if eh S e d then fd - 1 + 1 else fd - 1))%Z.

(** Arrays at the start: [create_or_pad] (common.py:2557-2591), zeroed edges and interiors, second buffers and
    gradients zero. *)
Definition k_init (store : kQ N -> Z -> arr K) (u : sst S K) : kmem := fun v i =>
  let p := unidx shape i in
  match v with
  | VX x => if crop p then (if edge (xh S x) p then 0 else mn u x p) else 0
  | VM e => if crop p then (if edge (eh S e) p || ezone e p then 0 else me u e p) else 0
  | VN _ => 0
  | VQ q si => store q si i
  | VG _ => 0
  end.
Definition k_rec0 (locs : sC S -> list Z) : krec := fun _ c => map (fun _ => 0) (locs c).

(** Wavefields returned to the caller. *)
Definition k_out (m : kmem) : sst S K :=
  mksst (fun x p => if crop p then m (VX x) (idx shape p) else 0)
        (fun e p => if crop p then m (VM e) (idx shape p) else 0).

(** Number of outer steps and callback frequency; [None]: [range] with step 0 raises
    (acoustic.py:915-916, 957-958; the backward loop likewise). *)
Definition k_cf (nt sr : Z) (callback : option Z) : Z :=
  match callback with Some c => c | None => (nt / sr)%Z end.

(** [forward] of the autograd functions (acoustic.py:738-1007, elastic.py:1181-1567). *)
Definition k_fwd visA visB fq sr (f : krec) (nt : Z) (callback : option Z)
    (store : kQ N -> Z -> arr K) (u : sst S K) : option (sst S K * krec * (kQ N -> Z -> arr K)) :=
  let mr := (k_init store u, k_rec0 (sp_rec P)) in
  let out mr := (k_out (fst mr), snd mr, fun q si => fst mr (VQ q si)) in
  if (nt <=? 0)%Z then Some (out mr) else
  let n := (nt / sr)%Z in
  let cf := k_cf nt sr callback in
  if (cf =? 0)%Z then None else
  Some (out (fold_left (fun mr s => k_forward visA visB fq sr f (Z.min (n - s) cf * sr) (s * sr) mr)
                       (range_up n cf) mr)).

(** One chunk of the backward driver with the exchange of the lists (acoustic.py:1182-1231). *)
Definition b_chunk visA visB fm sr gr (cf : Z) (mr : kmem * krec) (s : Z) : kmem * krec :=
  let step_nt := Z.min s cf in
  let mr' := k_backward visA visB fm sr gr (step_nt * sr) (s * sr) mr in
  if ((step_nt * sr) mod 2 =? 0)%Z then mr' else mswap mr'.

(** [backward] of the autograd functions (acoustic.py:1010-1258, elastic.py:1571-1949). *)
Definition k_bwd visA visB fm sr (gr : krec) (nt : Z) (callback : option Z)
    (store : kQ N -> Z -> arr K) (g : sst S K) : option (sst S K * krec * (kM N -> arr K)) :=
  let mr := (k_init store g, k_rec0 (sp_src P)) in
  let out mr := (k_out (fst mr), snd mr, fun k => fst mr (VG k)) in
  if (nt <=? 0)%Z then Some (out mr) else
  let n := (nt / sr)%Z in
  let cf := k_cf nt sr callback in
  if (cf =? 0)%Z then None else
  Some (out (fold_left (b_chunk visA visB fm sr gr cf) (range_down n cf) mr)).

End Kernel.
