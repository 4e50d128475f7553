(** * Model of the scalar propagator (one shot).

    - flat-memory model of the compiled kernels [scalar.c] (forward, backward);
    - whole-array model of the Python backend ([_forward_step], [scalar_python]);
    - model of the Python drivers around the compiled kernels (chunks, buffer swaps);
    - the small "central" model used as a specification of one time step.

    Simplifications, everywhere: exact arithmetic; one shot at a time (the shot offset
    [shot_i] is added in [Shots.v]); every number of dimensions at once. *)
From Coq Require Import List ZArith QArith Lia Bool.
From Verif Require Import Ops Sums Grid Stencil.
Import ListNotations.
Local Open Scope K_scope.

(** Flat memory of one array. *)
Definition arr (K : ops) := Z -> K.

Definition upd {K : ops} (m : arr K) (i : Z) (x : K) : arr K :=
  fun j => if (j =? i)%Z then x else m j.

(** Update one of a family of arrays (the arrays of dimension [d]). *)
Definition updd {A : Type} (m : nat -> A) (d : nat) (x : A) : nat -> A :=
  fun e => if Nat.eqb e d then x else m e.

(** Inverse of the row-major index. *)
Fixpoint unidx (s : list Z) (i : Z) : pt :=
  match s with
  | [] => []
  | _ :: s' => (i / prodZ s')%Z :: unidx s' (i mod prodZ s')%Z
  end.

(** Parameters shared by forward and backward kernels: accuracy, [model_shape] (with all
    padding), [1/dx], [1/dx^2], PML profiles [a], [b], [db/dx] per dimension, [dt^2],
    source and receiver indices (scalar.c:149-232). *)
Record par (K : ops) := mkpar {
  p_acc : acc;
  p_shape : list Z;
  p_rd : nat -> K;
  p_rd2 : nat -> K;
  p_a : nat -> Z -> K;
  p_b : nat -> Z -> K;
  p_db : nat -> Z -> K;
  p_dt2 : K;
  p_src : list Z;
  p_rec : list Z
}.
Arguments mkpar {K}. Arguments p_acc {K}. Arguments p_shape {K}. Arguments p_rd {K}.
Arguments p_rd2 {K}. Arguments p_a {K}. Arguments p_b {K}. Arguments p_db {K}.
Arguments p_dt2 {K}. Arguments p_src {K}. Arguments p_rec {K}.

Section Model.
Variable K : ops.
Variable P : par K.

Notation shape := (p_shape P).
Notation fd := (fd_pad (p_acc P)).
Definition dims : list nat := seq 0 (length shape).

(** common_cpu.h:17-26 [add_to_wavefield]; [amps] has one entry per location. *)
Definition add_to_wavefield (wf : arr K) (locs : list Z) (amps : list K) : arr K :=
  fold_left (fun m la => if (0 <=? fst la)%Z then upd m (fst la) (m (fst la) + snd la) else m)
            (combine locs amps) wf.

(** common_cpu.h:5-14 [record_from_wavefield]: entries with a negative location keep
    their previous value. *)
Definition record_from_wavefield (wf : arr K) (locs : list Z) (old : list K) : list K :=
  map (fun la => if (0 <=? fst la)%Z then wf (fst la) else snd la) (combine locs old).

(** ** Compiled forward kernel *)

(** Memory of one shot: wavefields, ping-pong partner of psi, snapshots (indexed by
    [step_idx]), recorded amplitudes (indexed by [t]). *)
Record cmem := mkcmem {
  m_wfc : arr K;
  m_wfp : arr K;
  m_psi : nat -> arr K;
  m_psin : nat -> arr K;
  m_zeta : nat -> arr K;
  m_store : Z -> arr K;
  m_r : Z -> list K
}.

(** Bounds of the three regions of dimension [d] (scalar.c:323-348), given [pml_?0],
    [pml_?1]. *)
Definition region_bounds (pml0 pml1 : nat -> Z) (d : nat) (r : Z) : Z * Z :=
  if (r =? 0)%Z then (fd, pml0 d)
  else if (r =? 1)%Z then (pml0 d, pml1 d)
  else (pml1 d, (nth d shape 0%Z - fd)%Z).

(** All combinations of regions ([pml_z], [pml_y], [pml_x] loops, scalar.c:305-314). *)
Definition regions : list (list Z) := box_pts (repeat (0%Z, 3%Z) (length shape)).

Definition region_box (pml0 pml1 : nat -> Z) (r : list Z) : box :=
  map (fun d => region_bounds pml0 pml1 d (nth d r 0%Z)) dims.

(** The visited cells with the region they are visited in, in program order. *)
Definition visits (pml0 pml1 : nat -> Z) : list (list Z * pt) :=
  flat_map (fun r => map (pair r) (box_pts (region_box pml0 pml1 r))) regions.

(** Contribution of one dimension to [w_sum] and its PML updates
    (scalar.c:357-368, 369-380, 381-390). *)
Definition c_fwd_dim (reg : list Z) (p : pt) (acc : K * cmem) (d : nat) : K * cmem :=
  let '(w_sum, m) := acc in
  let i := idx shape p in
  let s := stride shape d in
  let y := coord d p in
  let b := p_b P d y in
  let a := p_a P d y in
  let WFC := fun k => m_wfc m (i + k * s)%Z in
  let A_PSI := fun k => p_a P d (y + k)%Z * m_psi m d (i + k * s)%Z in
  let diff2 := DIFF2 (p_acc P) (p_rd2 P d) WFC in
  if (nth d reg 0%Z =? 1)%Z then (w_sum + diff2, m)
  else
    let dw := DIFF1 (p_acc P) (p_rd P d) WFC in
    let tmp := (1 + b) * diff2 + p_db P d y * dw + DIFF1 (p_acc P) (p_rd P d) A_PSI in
    (w_sum + ((1 + b) * tmp + a * m_zeta m d i),
     mkcmem (m_wfc m) (m_wfp m) (m_psi m)
            (updd (m_psin m) d (upd (m_psin m d) i (b * dw + a * m_psi m d i)))
            (updd (m_zeta m) d (upd (m_zeta m d) i (b * tmp + a * m_zeta m d i)))
            (m_store m) (m_r m)).

(** One cell (scalar.c:349-396).  [sto] = [v_requires_grad_t]; [si] = [step_idx]. *)
Definition c_fwd_cell (v : arr K) (sto : bool) (si : Z) (m : cmem) (rp : list Z * pt) : cmem :=
  let '(reg, p) := rp in
  let i := idx shape p in
  let '(w_sum, m1) := fold_left (c_fwd_dim reg p) dims (0, m) in
  mkcmem (m_wfc m1)
         (upd (m_wfp m1) i (v i * v i * p_dt2 P * w_sum + two * m_wfc m1 i - m_wfp m1 i))
         (m_psi m1) (m_psin m1) (m_zeta m1)
         (if sto
          then (fun j => if (j =? si)%Z
                         then upd (m_store m1 si) i (two * v i * p_dt2 P * w_sum)
                         else m_store m1 j)
          else m_store m1)
         (m_r m1).

(** One time step on the buffers selected for it (scalar.c:296-411).  [vis] is the
    order in which cells are visited. *)
Definition c_fwd_body (v : arr K) (vis : list (list Z * pt)) (vrg : bool) (step_ratio : Z)
    (f : Z -> list K) (t : Z) (m : cmem) : cmem :=
  let sto := vrg && (t mod step_ratio =? 0)%Z in
  let m1 := fold_left (c_fwd_cell v sto (t / step_ratio)%Z) vis m in
  mkcmem (m_wfc m1) (add_to_wavefield (m_wfp m1) (p_src P) (f t))
         (m_psi m1) (m_psin m1) (m_zeta m1) (m_store m1)
         (fun u => if (u =? t)%Z
                   then record_from_wavefield (m_wfc m1) (p_rec P) (m_r m1 t)
                   else m_r m1 u).

(** Exchange of the two buffers (pointer selection by parity, scalar.c:264-283). *)
Definition c_swap (m : cmem) : cmem :=
  mkcmem (m_wfp m) (m_wfc m) (m_psin m) (m_psi m) (m_zeta m) (m_store m) (m_r m).

Definition c_fwd_t (v : arr K) (vis : list (list Z * pt)) (vrg : bool) (step_ratio : Z)
    (f : Z -> list K) (start_t : Z) (m : cmem) (t : Z) : cmem :=
  if Z.odd (t - start_t)
  then c_swap (c_fwd_body v vis vrg step_ratio f t (c_swap m))
  else c_fwd_body v vis vrg step_ratio f t m.

(** [FUNC(forward)] for one shot (scalar.c:237-414): time loop. *)
Definition c_forward (v : arr K) (vis : list (list Z * pt)) (vrg : bool) (step_ratio : Z)
    (f : Z -> list K) (nt start_t : Z) (m : cmem) : cmem :=
  fold_left (c_fwd_t v vis vrg step_ratio f start_t) (zrange start_t (start_t + nt)) m.

(** ** Compiled backward kernel *)

Record bmem := mkbmem {
  g_wfc : arr K;
  g_wfp : arr K;
  g_psi : nat -> arr K;
  g_psin : nat -> arr K;
  g_zeta : nat -> arr K;
  g_zetan : nat -> arr K;
  g_f : Z -> list K;
  g_v : arr K
}.

(** Contribution of one dimension (scalar.c:657-684, macros 93-94, 113-144). *)
Definition c_bwd_dim (v2dt2 : arr K) (reg : list Z) (p : pt) (acc : K * bmem) (d : nat)
    : K * bmem :=
  let '(w_sum, m) := acc in
  let i := idx shape p in
  let s := stride shape d in
  let y := coord d p in
  let a := p_a P d y in
  let B := fun k => p_b P d (y + k)%Z in
  let V2DT2_WFC := fun k => v2dt2 (i + k * s)%Z * g_wfc m (i + k * s)%Z in
  let ZETA := fun k => g_zeta m d (i + k * s)%Z in
  let PSI := fun k => g_psi m d (i + k * s)%Z in
  let PSI_TERM := fun k => (1 + B k) * V2DT2_WFC k + B k * ZETA k in
  let UT_TERM1 := fun k =>
    p_db P d (y + k)%Z * ((1 + B k) * V2DT2_WFC k + B k * ZETA k) + B k * PSI k in
  let UT_TERM2 := fun k => (1 + B k) * ((1 + B k) * V2DT2_WFC k + B k * ZETA k) in
  if (nth d reg 0%Z =? 1)%Z
  then (w_sum + DIFF2 (p_acc P) (p_rd2 P d) V2DT2_WFC, m)
  else
    (w_sum + (- DIFF1 (p_acc P) (p_rd P d) UT_TERM1 + DIFF2 (p_acc P) (p_rd2 P d) UT_TERM2),
     mkbmem (g_wfc m) (g_wfp m) (g_psi m)
            (updd (g_psin m) d (upd (g_psin m d) i
               ((- a) * DIFF1 (p_acc P) (p_rd P d) PSI_TERM + a * g_psi m d i)))
            (g_zeta m)
            (updd (g_zetan m) d (upd (g_zetan m d) i
               (a * V2DT2_WFC 0%Z + a * g_zeta m d i)))
            (g_f m) (g_v m)).

(** Multiplication by the integer [step_ratio] converted to the floating point type. *)
Definition ofZ (z : Z) : K := oq K (inject_Z z).

(** One cell (scalar.c:649-692). *)
Definition c_bwd_cell (v2dt2 : arr K) (store : Z -> arr K) (sto : bool) (step_ratio si : Z)
    (m : bmem) (rp : list Z * pt) : bmem :=
  let '(reg, p) := rp in
  let i := idx shape p in
  let '(w_sum, m1) := fold_left (c_bwd_dim v2dt2 reg p) dims (0, m) in
  mkbmem (g_wfc m1) (upd (g_wfp m1) i (w_sum + two * g_wfc m1 i - g_wfp m1 i))
         (g_psi m1) (g_psin m1) (g_zeta m1) (g_zetan m1) (g_f m1)
         (if sto
          then upd (g_v m1) i (g_v m1 i + g_wfc m1 i * store si i * ofZ step_ratio)
          else g_v m1).

(** One time step (scalar.c:588-700).  [src] is the list of sources for which gradients
    are recorded: empty if not required ([n_sources_per_shot * requires_grad],
    scalar.py:1274). *)
Definition c_bwd_body (v2dt2 : arr K) (vis : list (list Z * pt)) (store : Z -> arr K)
    (vrg : bool) (step_ratio : Z) (grad_r : Z -> list K) (t : Z) (m : bmem) : bmem :=
  let sto := vrg && (t mod step_ratio =? 0)%Z in
  let m1 := fold_left (c_bwd_cell v2dt2 store sto step_ratio (t / step_ratio)%Z) vis m in
  mkbmem (g_wfc m1) (add_to_wavefield (g_wfp m1) (p_rec P) (grad_r t))
         (g_psi m1) (g_psin m1) (g_zeta m1) (g_zetan m1)
         (fun u => if (u =? t)%Z
                   then record_from_wavefield (g_wfc m1) (p_src P) (g_f m1 t)
                   else g_f m1 u)
         (g_v m1).

Definition b_swap (m : bmem) : bmem :=
  mkbmem (g_wfp m) (g_wfc m) (g_psin m) (g_psi m) (g_zetan m) (g_zeta m) (g_f m) (g_v m).

Definition c_bwd_t (v2dt2 : arr K) (vis : list (list Z * pt)) (store : Z -> arr K)
    (vrg : bool) (step_ratio : Z) (grad_r : Z -> list K) (start_t : Z) (m : bmem) (t : Z)
    : bmem :=
  if Z.odd (start_t - 1 - t)
  then b_swap (c_bwd_body v2dt2 vis store vrg step_ratio grad_r t (b_swap m))
  else c_bwd_body v2dt2 vis store vrg step_ratio grad_r t m.

(** [FUNC(backward)] for one shot: [for (t = start_t-1; t >= start_t-nt; --t)]
    (scalar.c:523-703). *)
Definition c_backward (v2dt2 : arr K) (vis : list (list Z * pt)) (store : Z -> arr K)
    (vrg : bool) (step_ratio : Z) (grad_r : Z -> list K) (nt start_t : Z) (m : bmem) : bmem :=
  fold_left (c_bwd_t v2dt2 vis store vrg step_ratio grad_r start_t)
            (rev (zrange (start_t - nt) start_t)) m.

(** ** Drivers *)

(** Region boundaries (scalar.py:786-793 with [w = 2], 1168-1175 with [w = 3]).
    [pw d] = PML widths (begin, end) of dimension [d]. *)
Definition pml_begin (w : Z) (pw : nat -> Z * Z) (d : nat) : Z :=
  Z.min (fst (pw d) + w * fd) (nth d shape 0%Z - fd).
Definition pml_end (w : Z) (pw : nat -> Z * Z) (d : nat) : Z :=
  Z.max (pml_begin w pw d) (nth d shape 0%Z - snd (pw d) - w * fd).

(** Python's [range(0, n, c)] for [c > 0]. *)
Definition range_up (n c : Z) : list Z :=
  map (fun i => i * c)%Z (zrange 0 ((n + c - 1) / c)%Z).

(** Python's [range(n, 0, -c)] for [c > 0]. *)
Definition range_down (n c : Z) : list Z :=
  map (fun i => n - i * c)%Z (zrange 0 ((n + c - 1) / c)%Z).

(** One chunk of the forward driver (scalar.py:873-921).  [s] is the index of the first
    outer step. *)
Definition fwd_chunk (v : arr K) (vis : list (list Z * pt)) (vrg : bool) (step_ratio : Z)
    (f : Z -> list K) (n cf : Z) (m : cmem) (s : Z) : cmem :=
  let step_nt := Z.min (n - s) cf in
  let m' := c_forward v vis vrg step_ratio f (step_nt * step_ratio) (s * step_ratio) m in
  if ((step_nt * step_ratio) mod 2 =? 0)%Z then m' else c_swap m'.

(** The forward driver loop (scalar.py:843-921): [None] models the [ValueError] of
    [range] with step zero. *)
Definition fwd_driver (v : arr K) (vis : list (list Z * pt)) (vrg : bool) (step_ratio : Z)
    (f : Z -> list K) (nt : Z) (callback : option Z) (m : cmem) : option cmem :=
  if (nt <=? 0)%Z then Some m else
  let n := (nt / step_ratio)%Z in
  let cf := match callback with Some c => c | None => n end in
  if (cf =? 0)%Z then None
  else Some (fold_left (fwd_chunk v vis vrg step_ratio f n cf) (range_up n cf) m).

(** What a forward callback is shown: step index and memory (scalar.py:854-872); the trace
    of all calls. *)
Definition fwd_trace (v : arr K) (vis : list (list Z * pt)) (vrg : bool) (step_ratio : Z)
    (f : Z -> list K) (nt c : Z) (m : cmem) : list (Z * cmem) :=
  let n := (nt / step_ratio)%Z in
  snd (fold_left (fun mt s => (fwd_chunk v vis vrg step_ratio f n c (fst mt) s,
                               snd mt ++ [(s, fst mt)]))
                 (range_up n c) (m, [])).

(** One chunk of the backward driver (scalar.py:1250-1297); [s] = number of outer steps
    still to do. *)
Definition bwd_chunk (v2dt2 : arr K) (vis : list (list Z * pt)) (store : Z -> arr K)
    (vrg : bool) (step_ratio : Z) (grad_r : Z -> list K) (cf : Z) (m : bmem) (s : Z) : bmem :=
  let step_nt := Z.min s cf in
  let m' := c_backward v2dt2 vis store vrg step_ratio grad_r (step_nt * step_ratio)
                       (s * step_ratio) m in
  if ((step_nt * step_ratio) mod 2 =? 0)%Z then m' else b_swap m'.

Definition neg_wfp (m : bmem) : bmem :=
  mkbmem (g_wfc m) (fun i => - g_wfp m i) (g_psi m) (g_psin m) (g_zeta m) (g_zetan m)
         (g_f m) (g_v m).

(** The backward driver (scalar.py:1242-1334): negation, loop, negation.  One shot, one
    thread: the gradient is accumulated directly in [grad_v] ([g_v]). *)
Definition bwd_driver (v2dt2 : arr K) (vis : list (list Z * pt)) (store : Z -> arr K)
    (vrg : bool) (step_ratio : Z) (grad_r : Z -> list K) (nt : Z) (callback : option Z)
    (m : bmem) : option bmem :=
  if (nt <=? 0)%Z then Some (neg_wfp (neg_wfp m)) else
  let n := (nt / step_ratio)%Z in
  let cf := match callback with Some c => c | None => n end in
  if (cf =? 0)%Z then None
  else Some (neg_wfp (fold_left (bwd_chunk v2dt2 vis store vrg step_ratio grad_r cf)
                                (range_down n cf) (neg_wfp m))).

(** ** Central model (specification of one step, used by all theorems) *)

Record st := mkst {
  s_wfc : field K;
  s_wfp : field K;
  s_psi : nat -> field K;
  s_zeta : nat -> field K
}.

(** Points updated by the kernels. *)
Definition interior (p : pt) : bool := inb (ibox fd shape) p.
Definition ipts : list pt := box_pts (ibox fd shape).
Definition mask (f : field K) : field K := fun p => if interior p then f p else 0.

(** Source injection: each entry with a non-negative location adds its amplitude. *)
Definition inject (locs : list Z) (amps : list K) (f : field K) : field K :=
  fun p => f p + sumf (combine locs amps)
                      (fun la => if (0 <=? fst la)%Z && (if pt_eq_dec (unidx shape (fst la)) p
                                                         then true else false)
                                 then snd la else 0).

(** Receivers. *)
Definition gather (locs : list Z) (f : field K) : list K :=
  map (fun l => if (0 <=? l)%Z then f (unidx shape l) else 0) locs.

Definition pa (d : nat) (p : pt) : K := p_a P d (coord d p).
Definition pb (d : nat) (p : pt) : K := p_b P d (coord d p).
Definition pdb (d : nat) (p : pt) : K := p_db P d (coord d p).

Definition d1 (d : nat) (f : field K) : field K := D1 (p_acc P) (p_rd P d) d f.
Definition d2 (d : nat) (f : field K) : field K := D2 (p_acc P) (p_rd2 P d) d f.

(** [tmp], [w_sum] as in scalar.py:1905-1919. *)
Definition tmpf (w psi : field K) (d : nat) : field K :=
  fun p => (1 + pb d p) * d2 d w p + pdb d p * d1 d w p
           + d1 d (fun q => pa d q * psi q) p.

Definition wsum (s : st) : field K :=
  fun p => sumf dims (fun d => (1 + pb d p) * tmpf (s_wfc s) (s_psi s d) d p
                               + pa d p * s_zeta s d p).

(** One time step with the PML formulas everywhere in the interior. *)
Definition step (v : field K) (ft : list K) (s : st) : st :=
  mkst (inject (p_src P) ft
          (mask (fun p => v p * v p * p_dt2 P * wsum s p + two * s_wfc s p - s_wfp s p)))
       (s_wfc s)
       (fun d => mask (fun p => pb d p * d1 d (s_wfc s) p + pa d p * s_psi s d p))
       (fun d => mask (fun p => pb d p * tmpf (s_wfc s) (s_psi s d) d p + pa d p * s_zeta s d p)).

(** State after [n] steps from time [t].  The wavespeed may depend on the step (only used
    to isolate the contribution of one step; the code always uses a constant one). *)
Fixpoint state (v : Z -> field K) (f : Z -> list K) (n : nat) (t : Z) (s : st) : st :=
  match n with
  | O => s
  | S n' => state v f n' (t + 1)%Z (step (v t) (f t) s)
  end.

(** Amplitudes recorded at a step: those of the state before the step. *)
Definition rec_amps (s : st) : list K := gather (p_rec P) (s_wfc s).

(** Central backward step, with the sign convention of the kernels ([s_wfp] holds minus the
    gradient of the previous wavefield). *)
Definition psiterm (v2dt2 w zeta : field K) (d : nat) : field K :=
  fun p => (1 + pb d p) * (v2dt2 p * w p) + pb d p * zeta p.
Definition ut1 (v2dt2 w psi zeta : field K) (d : nat) : field K :=
  fun p => pdb d p * psiterm v2dt2 w zeta d p + pb d p * psi p.
Definition ut2 (v2dt2 w zeta : field K) (d : nat) : field K :=
  fun p => (1 + pb d p) * psiterm v2dt2 w zeta d p.

Definition bstep (v2dt2 : field K) (gr : list K) (s : st) : st :=
  mkst (inject (p_rec P) gr
          (mask (fun p =>
             sumf dims (fun d => - d1 d (ut1 v2dt2 (s_wfc s) (s_psi s d) (s_zeta s d) d) p
                                 + d2 d (ut2 v2dt2 (s_wfc s) (s_zeta s d) d) p)
             + two * s_wfc s p - s_wfp s p)))
       (s_wfc s)
       (fun d => mask (fun p => (- pa d p) * d1 d (psiterm v2dt2 (s_wfc s) (s_zeta s d) d) p
                                + pa d p * s_psi s d p))
       (fun d => mask (fun p => pa d p * (v2dt2 p * s_wfc s p) + pa d p * s_zeta s d p)).

(** Cotangent state after the backward steps of times [t+n-1], ..., [t] (last first). *)
Fixpoint bst (v2dt2 : field K) (gr : Z -> list K) (n : nat) (t : Z) (s : st) : st :=
  match n with
  | O => s
  | S n' => bstep v2dt2 (gr t) (bst v2dt2 gr n' (t + 1)%Z s)
  end.

(** Model gradient: sum over times [u] of the adjoint wavefield before the backward step of
    time [u] multiplied with a weight (the stored snapshot). *)
Fixpoint bgv (v2dt2 : field K) (gr : Z -> list K) (w : Z -> field K) (n : nat) (t : Z)
    (s : st) (p : pt) : K :=
  match n with
  | O => 0
  | S n' => bgv v2dt2 gr w n' (t + 1)%Z s p + s_wfc (bst v2dt2 gr n' (t + 1)%Z s) p * w t p
  end.

(** ** Python backend *)

(** [regular_grid.diff1]/[diff2] (regular_grid.py:82-...): the stencil where it fits along
    the dimension, zero in the [fd_pad] rows padded at each end of that dimension. *)
Definition py_fits (d : nat) (p : pt) : bool :=
  (fd <=? coord d p)%Z && (coord d p <? nth d shape 0%Z - fd)%Z.
Definition py_diff1 (d : nat) (f : field K) : field K :=
  fun p => if py_fits d p then d1 d f p else 0.
Definition py_diff2 (d : nat) (f : field K) : field K :=
  fun p => if py_fits d p then d2 d f p else 0.

(** [_forward_step] (scalar.py:1882-1928) on whole arrays. *)
Definition py_tmp (w psi : field K) (d : nat) : field K :=
  fun p => (1 + pb d p) * py_diff2 d w p + pdb d p * py_diff1 d w p
           + py_diff1 d (fun q => pa d q * psi q) p.
Definition py_wsum (s : st) : field K :=
  fun p => fold_left (fun acc d => acc + (1 + pb d p) * py_tmp (s_wfc s) (s_psi s d) d p
                                   + pa d p * s_zeta s d p) dims 0.
Definition py_forward_step (v : field K) (s : st) : st :=
  mkst (fun p => v p * v p * p_dt2 P * py_wsum s p + two * s_wfc s p - s_wfp s p)
       (s_wfc s)
       (fun d p => pb d p * py_diff1 d (s_wfc s) p + pa d p * s_psi s d p)
       (fun d p => pb d p * py_tmp (s_wfc s) (s_psi s d) d p + pa d p * s_zeta s d p).

(** [wavefields[0].view(-1, flat_shape)] and back. *)
Definition py_flat (f : field K) : arr K := fun i => f (unidx shape i).
Definition py_unflat (m : arr K) (old : field K) : field K :=
  fun p => if inb (abox shape) p then m (idx shape p) else old p.

(** Masked gather/scatter (scalar.py:2029-2041, 2069-2081, 2086-2090): ignored entries use
    index 0 with amplitude zero, and are recorded as zero.  A location is ignored iff it
    equals [IGNORE_LOCATION = -1 << 31] (common.py:409). *)
Definition IGNORE : Z := (- 2 ^ 31)%Z.
Definition py_masked (l : Z) : Z := if (l =? IGNORE)%Z then 0%Z else l.
Definition py_gather (locs : list Z) (f : field K) : list K :=
  map (fun l => if (l =? IGNORE)%Z then 0 else py_flat f (py_masked l)) locs.
Definition py_scatter_add (locs : list Z) (amps : list K) (f : field K) : field K :=
  py_unflat
    (fold_left (fun m la => upd m (fst la) (m (fst la) + snd la))
       (map (fun la => (py_masked (fst la), if (fst la =? IGNORE)%Z then 0 else snd la))
            (combine locs amps))
       (py_flat f)) f.

(** Time loop of [scalar_python] (scalar.py:2045-2081): record, step, add sources. *)
Fixpoint py_run (v : field K) (f : Z -> list K) (n : nat) (t : Z) (s : st)
    : st * list (list K) :=
  match n with
  | O => (s, [])
  | S n' =>
      let r := py_gather (p_rec P) (s_wfc s) in
      let s1 := py_forward_step v s in
      let s2 := mkst (py_scatter_add (p_src P) (f t) (s_wfc s1)) (s_wfp s1) (s_psi s1) (s_zeta s1) in
      let '(s', rs) := py_run v f n' (t + 1)%Z s2 in
      (s', r :: rs)
  end.

End Model.
