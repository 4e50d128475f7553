(** * Model of the CUDA propagators of the staggered-grid wave equations (acoustic.cu, elastic.cu).

    As in [GpuModel.v]: every thread of a launch is a program of single loads and stores on the
    memory of the device and the threads of a launch are interleaved in any way; launches run one
    after the other.  As in [StagKernel.v] both propagators are instances of one structure of
    groups (staggered positions) in two phases, and the expressions written in the cells are
    those of [AcousticModel.v] and [ElasticModel.v].

    Simplifications: exact arithmetic; read-only arguments (models, PML profiles, amplitudes,
    locations) are functions, not memory; the snapshot slot of a step and the row of amplitudes
    of a time step are arrays of their own; snapshots are kept on the device without
    compression; a value that a cell looks at twice without storing to it in between is loaded
    once; the memory variable just stored is not loaded back; gradients of all sources are
    requested; launches are all in one stream; memory is sequentially consistent. *)
From Coq Require Import List ZArith QArith Lia Bool.
From Verif Require Import Ops Sums Grid Stencil ScalarModel ShotsModel Stag StagKernel StagShotsModel AcousticModel ElasticModel Threads GpuModel.
Import ListNotations.
Local Open Scope K_scope.

(** Arrays of the device: those of [svar], rows of amplitudes being written, model gradients
    that are not accumulated by the kernels directly. *)
Inductive sname (V C M : Type) : Type := LV (v : V) | LR (t : Z) (c : C) | LG (m : M).
Arguments LV {V C M}. Arguments LR {V C M}. Arguments LG {V C M}.

Section SGpu.
Variable S : sys.
Variable N : kern S.
Variable K : ops.
Variable C_dec : forall a b : sC S, {a = b} + {a <> b}.
Variable P0 : spar S K.                          (* everything but the locations *)
Variable num : (kM N -> arr K) -> knum S N K.    (* expressions, given the models *)
Variable NS : Z.                                 (* n_shots *)
Variables nsrc nrec : sC S -> Z.                 (* sources, receivers per shot of each kind *)
Variables srcs recs : sC S -> Z -> Z.            (* locations [n_shots, n_per_shot], flat *)
Variable bt : kM N -> bool.                      (* k_batched, b_batched, lamb_batched, ... *)
(** Order of the statements of a cell: snapshots after the update (elastic.cu:621-1050) or before it
    (acoustic.cu:254-396); memory variables of phase 2 of the backward kernels before the gradients
    (acoustic.cu:542-700, [backward_kernel_p]) or after them (elastic.cu:1323-1560, [backward_kernel_v]). *)
Variables oQ oM : bool.
Notation shape := (sp_shape P0).
Notation n := (prodZ shape).
Notation nd := (length shape).
Notation fd := (fd_pad (sp_acc P0)).
Notation kvar := (svar (sX S) (sE S) (kQ N) (kM N)).
Notation kgp := (grp S (kQ N) (kM N)).
Definition sgloc := (sname kvar (sC S) (kM N) * Z)%type.
Notation prog := (prog sgloc K).
Notation mem := (mem sgloc K).

Definition sgloc_eq (a b : sgloc) : {a = b} + {a <> b}.
Proof.
  decide equality; [apply Z.eq_dec|]. decide equality; try apply (kvar_dec S N); try apply C_dec; try apply Z.eq_dec; apply (kM_dec N).
Defined.

(** The buffer that a pointer stands for, exchanged ([sw]) or not: [psi?] and [psi?n] (acoustic.cu:1687-1694),
    [m_sigma??] and [m_sigma??n] (elastic.cu:2986-2999). *)
Definition qv (sw : bool) (v : kvar) : kvar :=
  match v with
  | VM e => if sw && eA S e then VN e else VM e
  | VN e => if sw && eA S e then VM e else VN e
  | _ => v
  end.
(** Element [i] of the block of shot [k] of an array: [a[shot_idx * shot_numel + i]]. *)
Definition at_ (sw : bool) (k : Z) (v : kvar) (i : Z) : sgloc := (LV (qv sw v), k * n + i)%Z.

Fixpoint sloads (ls : list sgloc) (kont : list K -> prog) : prog :=
  match ls with [] => kont [] | l :: ls' => Load l (fun x => sloads ls' (fun xs => kont (x :: xs))) end.

(** *** Launches *)

(** acoustic.cu:857-873, 1366-1382 (elastic.cu likewise): [ceil_div(n? - 2 * FD_PAD + 1, ..)], one cell more in every
    dimension than in scalar.cu. *)
Definition launch_scells : launch := launch_cells fd (map Z.succ shape) NS.
(** [if (y < ny - FD_PAD)] around the variables at half positions (acoustic.cu:254-296, 490-530; elastic.cu:621-1560); the thread
    itself tests [y < ny - FD_PAD + 1]. *)
Definition sinside (g : kgp) (p : pt) : bool :=
  forallb (fun d => negb (g_h g d) || (coord d p <? nth d shape 0 - fd)%Z) (seq 0 nd).
(** The shots, groups and cells a thread works on, in its order: all shots in 3-D, one shot in 2-D and 1-D; in
    a cell, the groups of the phase one after the other. *)
Definition items_scells (A : bool) (th : Z * Z * Z) : list (Z * (kgp * pt)) :=
  flat_map (fun kp => flat_map (fun g => if sinside g (snd kp) then [(fst kp, (g, snd kp))] else []) (kgrp N A))
           (items_cells fd (map Z.succ shape) NS th).
(** One launch: some execution of all its threads. *)
Definition skexec (L : launch) (tp : Z * Z * Z -> prog) (M M' : mem) : Prop :=
  launch_valid L = true /\ exec sgloc_eq (map tp (threads L)) M M'.

(** *** A cell *)
Section Cell.
Variable U : knum S N K.
Variables pml0 pml1 : nat -> Z.
Variable sw : bool.
Variable k : Z.
Notation loc_ := (at_ sw k).

(** [pml_z = z < pml_z0 || z >= pml_z1] at integer positions, [z < pml_z0 || z >= MAX(pml_z0, pml_z1 - 1)] at half
    positions (acoustic.cu:239-289, 363-380; elastic.cu:621-1050). *)
Definition spml (h : bool) (p : pt) (d : nat) : bool :=
  ((coord d p <? pml0 d) || ((if h then Z.max (pml0 d) (pml1 d - 1) else pml1 d) <=? coord d p))%Z.
(** The values a derivative looks at: [DIFF?H1] from [1 - fd] to [fd], [DIFF?1] from [-fd] to [fd - 1]. *)
Definition srd_st (h : bool) (v : kvar) (i s : Z) (kont : (Z -> K) -> prog) : prog :=
  let lo := if h then (1 - fd)%Z else (- fd)%Z in
  sloads (map (fun o => loc_ v (i + o * s)%Z) (zrange lo (lo + 2 * fd)))
         (fun xs => kont (fun o => nth (Z.to_nat (o - lo)) xs 0)).

(** The derivative terms (acoustic.cu:254-300, 360-390; elastic.cu:621-1050): derivative; in PML regions the memory
    variable is updated and added. *)
Fixpoint g_terms (g : kgp) (p : pt) (es : list (sE S)) (T : sE S -> K) (kont : (sE S -> K) -> prog) : prog :=
  match es with
  | [] => kont T
  | e :: es' =>
    let d := edim S e in let h := eh S e d in let i := idx shape p in let s := stride shape d in let y := coord d p in
    srd_st h (VX (esrc S e)) i s (fun W =>
      let d0 := kdiff S K P0 h d W in
      if spml (g_h g d) p d then
        Load (loc_ (VM e) i) (fun m0 =>
          let m := sp_b P0 h d y * d0 + sp_a P0 h d y * m0 in
          Store (loc_ (VM e) i) m (g_terms g p es' (fun e' => if kE_dec N e' e then d0 + m else T e') kont))
      else g_terms g p es' (fun e' => if kE_dec N e' e then d0 else T e') kont)
  end.
(** Snapshots, if requested in this step. *)
Fixpoint g_snaps (fq : kQ N -> bool) (si i : Z) (T : sE S -> K) (qs : list (kQ N)) : prog :=
  match qs with
  | [] => Ret
  | q :: qs' => if fq q then Store (loc_ (VQ q si) i) (n_sto U q T) (g_snaps fq si i T qs') else g_snaps fq si i T qs'
  end.
Fixpoint g_upd (i : Z) (T : sE S -> K) (xs : list (sX S)) : prog :=
  match xs with
  | [] => Ret
  | x :: xs' => Load (loc_ (VX x) i) (fun y => Store (loc_ (VX x) i) (y + n_inc U x T i) (g_upd i T xs'))
  end.
(** One group of one cell of the forward kernels (acoustic.cu:177-396, elastic.cu:621-1050). *)
Definition g_fcell (fq : kQ N -> bool) (si : Z) (gp : kgp * pt) : prog :=
  let '(g, p) := gp in
  let i := idx shape p in
  g_terms g p (g_E g) (fun _ => 0) (fun T =>
    if oQ then bind (g_upd i T (g_X g)) (g_snaps fq si i T (g_Q g))
    else bind (g_snaps fq si i T (g_Q g)) (g_upd i T (g_X g))).

(** Values of several variables: along a derivative, and in one cell. *)
Fixpoint srd_vars (h : bool) (i s : Z) (xs : list (sX S)) (Y : sX S -> Z -> K) (kont : (sX S -> Z -> K) -> prog) : prog :=
  match xs with
  | [] => kont Y
  | x :: xs' => srd_st h (VX x) i s (fun W => srd_vars h i s xs' (fun x' => if kX_dec N x' x then W else Y x') kont)
  end.
Fixpoint rd_cell (i : Z) (xs : list (sX S)) (Y : sX S -> K) (kont : (sX S -> K) -> prog) : prog :=
  match xs with
  | [] => kont Y
  | x :: xs' => Load (loc_ (VX x) i) (fun w => rd_cell i xs' (fun x' => if kX_dec N x' x then w else Y x') kont)
  end.
Fixpoint rd_snaps (si i : Z) (qs : list (kQ N)) (Q : kQ N -> K) (kont : (kQ N -> K) -> prog) : prog :=
  match qs with
  | [] => kont Q
  | q :: qs' => Load (loc_ (VQ q si) i) (fun w => rd_snaps si i qs' (fun q' => if kQ_dec N q' q then w else Q q') kont)
  end.

(** Sum of the derivatives of adjoint terms (macros acoustic.cu:68-105, elastic.cu:150-290; used in acoustic.cu:399-700,
    elastic.cu:1053-1560). *)
Fixpoint g_bsum (g : kgp) (p : pt) (es : list (sE S)) (kont : K -> prog) : prog :=
  match es with
  | [] => kont 0
  | e :: es' =>
    let d := edim S e in let h := eh S e d in let i := idx shape p in let s := stride shape d in let y := coord d p in
    srd_vars (negb h) i s (incX S e) (fun _ _ => 0) (fun Y =>
      if spml (g_h g d) p d then
        srd_st (negb h) (VM e) i s (fun MM =>
          g_bsum g p es' (fun r => kont
            (- kdiff S K P0 (negb h) d (fun o => n_tbp U e (sp_b P0 h d (y + o)%Z) (MM o) (fun x' => Y x' o) (i + o * s)%Z) + r)))
      else
        g_bsum g p es' (fun r => kont (- kdiff S K P0 (negb h) d (fun o => n_tb U e (fun x' => Y x' o) (i + o * s)%Z) + r)))
  end.
Fixpoint g_bX (g : kgp) (p : pt) (xs : list (sX S)) : prog :=
  match xs with
  | [] => Ret
  | x :: xs' =>
    let i := idx shape p in
    g_bsum g p (srcE S x) (fun r => Load (loc_ (VX x) i) (fun y => Store (loc_ (VX x) i) (y + r) (g_bX g p xs')))
  end.
(** New memory variables, into the buffer given by [dst]; [kguard]: in PML regions only. *)
Fixpoint g_bmem (dst : sE S -> kvar) (g : kgp) (p : pt) (es : list (sE S)) : prog :=
  match es with
  | [] => Ret
  | e :: es' =>
    let d := edim S e in let i := idx shape p in
    if kguard N e && negb (spml (g_h g d) p d) then g_bmem dst g p es'
    else Load (loc_ (VM e) i) (fun m0 => rd_cell i (incX S e) (fun _ => 0) (fun Y =>
      Store (loc_ (dst e) i) (n_mem U e (sp_a P0 (eh S e d) d (coord d p)) m0 Y i) (g_bmem dst g p es')))
  end.
(** Gradients, if requested in this step; where [grad_?_shot] points, in the block of the shot. *)
Fixpoint g_bgrad (fm : kM N -> bool) (sr si : Z) (g : kgp) (p : pt) (qs : list (kM N)) : prog :=
  match qs with
  | [] => Ret
  | q :: qs' =>
    let i := idx shape p in
    if fm q then
      Load (loc_ (VG q) i) (fun g0 => rd_cell i (g_X g) (fun _ => 0) (fun Y => rd_snaps si i (g_Q g) (fun _ => 0) (fun Q =>
        Store (loc_ (VG q) i) (g0 + n_gm U q Y Q (ofZ K sr)) (g_bgrad fm sr si g p qs'))))
    else g_bgrad fm sr si g p qs'
  end.
(** One group of one cell of phase 1 of the backward kernels (acoustic.cu:399-540 [backward_kernel_v],
    elastic.cu:1053-1320 [backward_kernel_sigma]). *)
Definition g_bAcell (fm : kM N -> bool) (sr si : Z) (gp : kgp * pt) : prog :=
  let '(g, p) := gp in
  bind (g_bX g p (g_X g)) (bind (g_bmem VN g p (g_E g)) (g_bgrad fm sr si g p (g_M g))).
(** Phase 2 (acoustic.cu:542-700 [backward_kernel_p], elastic.cu:1323-1560 [backward_kernel_v]). *)
Definition g_bBcell (fm : kM N -> bool) (sr si : Z) (gp : kgp * pt) : prog :=
  let '(g, p) := gp in
  bind (if oM then bind (g_bmem VM g p (g_E g)) (g_bgrad fm sr si g p (g_M g))
        else bind (g_bgrad fm sr si g p (g_M g)) (g_bmem VM g p (g_E g))) (g_bX g p (g_X g)).
End Cell.

(** *** Sources and receivers *)

(** [add_sources] (acoustic.cu:125-136); [add_sources_?], [add_adjoint_sources_?], [add_adjoint_pressure_sources] (elastic.cu:330-458): to every variable of kind [c]. *)
Definition g_add (sw : bool) (c : sC S) (m : Z) (locs : Z -> Z) (f : arr K) (kj : Z * Z) : prog :=
  let '(k, j) := kj in
  let q := (k * m + j)%Z in
  if (0 <=? locs q)%Z
  then seqp (map (fun x => Load (at_ sw k (VX x) (locs q)) (fun y => Store (at_ sw k (VX x) (locs q)) (y + f q) Ret)) (cinX S c))
  else Ret.
(** [record_receivers] (acoustic.cu:138-149); [record_receivers_?], [record_pressure_receivers], [record_adjoint_receivers_?],
    [record_adjoint_pressure_receivers] (elastic.cu:460-594). *)
Definition g_rec (sw : bool) (c : sC S) (m : Z) (locs : Z -> Z) (t : Z) (kj : Z * Z) : prog :=
  let '(k, j) := kj in
  let q := (k * m + j)%Z in
  if (0 <=? locs q)%Z
  then rd_cell sw k (locs q) (cinX S c) (fun _ => 0) (fun Y => Store (LR t c, q) (sumf (cinX S c) Y) Ret)
  else Ret.
(** Launches for the locations of one kind, if there are any (acoustic.cu:934-1175). *)
Definition launch_opt (m : Z) (pr : Z * Z -> prog) (M M' : mem) : Prop :=
  if (0 <? m)%Z then skexec (launch_locs m NS) (fun th => seqp (map pr (items_locs m NS th))) M M' else M' = M.
Definition launch_phase (A : bool) (pr : Z * (kgp * pt) -> prog) (M M' : mem) : Prop :=
  skexec launch_scells (fun th => seqp (map pr (items_scells A th))) M M'.
(** Launches one after the other. *)
Fixpoint in_turn (l : list (mem -> mem -> Prop)) (M M' : mem) : Prop :=
  match l with [] => M' = M | s :: l' => exists M1, s M M1 /\ in_turn l' M1 M' end.

(** *** Forward *)

(** One time step (acoustic.cu:934-1175, elastic.cu:2034-2310). *)
Definition sgf_step (pml0 pml1 : nat -> Z) (md : kM N -> arr K) (fq : kQ N -> bool) (sr : Z) (f : Z -> sC S -> arr K) (t : Z)
    : list (mem -> mem -> Prop) :=
  let sto := fun q => fq q && (t mod sr =? 0)%Z in
  let cells A := launch_phase A (fun it => g_fcell (num (sshot_md S N K P0 bt md (fst it))) pml0 pml1 false (fst it) sto (t / sr)%Z (snd it)) in
  let adds A := map (fun c => launch_opt (nsrc c) (g_add false c (nsrc c) (srcs c) (f t c))) (halfC S A) in
  map (fun c => launch_opt (nrec c) (g_rec false c (nrec c) (recs c) t)) (allC S)
  ++ [cells true] ++ adds true ++ [cells false] ++ adds false.
(** The calls of the compiled function (acoustic.py:915-990, elastic.py:1440-1540). *)
Definition sgf_calls (pml0 pml1 : nat -> Z) (md : kM N -> arr K) (fq : kQ N -> bool) (sr : Z) (f : Z -> sC S -> arr K) (nt cf : Z)
    : list (mem -> mem -> Prop) :=
  flat_map (fun s => flat_map (sgf_step pml0 pml1 md fq sr f) (zrange (s * sr) (s * sr + Z.min (nt / sr - s) cf * sr)))
           (range_up (nt / sr) cf).

(** Device memory holding given arrays, and the arrays that the references stand for. *)
Definition smem_of (G : gmem S N K) : mem := fun l =>
  match fst l with LV v => G_m S N K G v (snd l) | LR t c => G_r S N K G t c (snd l) | LG q => G_g S N K G q (snd l) end.
Definition sglob_of (sw : bool) (M : mem) : gmem S N K :=
  mkgmem S N K (fun v i => M (LV (qv sw v), i)) (fun t c i => M (LR t c, i)) (fun q i => M (LG q, i)).

(** [AcousticForwardFunc.forward], [ElasticForwardFunc.forward] on a CUDA device (acoustic.py:738-1007,
    elastic.py:1181-1567): the possible results of a batch. *)
Definition sgpu_forward (pw : nat -> Z * Z) (md : kM N -> arr K) (fq : kQ N -> bool) (sr : Z) (f : Z -> sC S -> arr K)
    (nt : Z) (cb : option Z) (store : kQ N -> Z -> arr K) (u : Z -> sst S K)
    (out : (Z -> sst S K) * (Z -> sC S -> arr K) * (kQ N -> Z -> arr K)) : Prop :=
  exists M,
    in_turn (if (nt <=? 0)%Z then []
             else sgf_calls (fpml_b S K P0 pw) (fpml_e S K P0 pw) md fq sr f nt (k_cf nt sr cb))
            (smem_of (sbatch_init S N K P0 nsrc nrec srcs recs pw store u)) M /\
    out = let G := sglob_of false M in (sbatch_out S N K P0 G, G_r S N K G, fun q si => G_m S N K G (VQ q si)).

(** *** Backward *)

(** One time step (acoustic.cu:1442-1694, elastic.cu:2666-2998). *)
Definition sgb_step (pml0 pml1 : nat -> Z) (md : kM N -> arr K) (fm : kM N -> bool) (sr : Z) (gr : Z -> sC S -> arr K) (sw : bool) (t : Z)
    : list (mem -> mem -> Prop) :=
  let fmt := fun q => fm q && (t mod sr =? 0)%Z in
  let U := fun k => num (sshot_md S N K P0 bt md k) in
  let record A := map (fun c => launch_opt (nsrc c) (g_rec sw c (nsrc c) (srcs c) t)) (halfC S A) in
  record false
  ++ [launch_phase true (fun it => g_bAcell (U (fst it)) pml0 pml1 sw (fst it) fmt sr (t / sr)%Z (snd it))]
  ++ record true
  ++ [launch_phase false (fun it => g_bBcell (U (fst it)) pml0 pml1 sw (fst it) fmt sr (t / sr)%Z (snd it))]
  ++ map (fun c => launch_opt (nrec c) (g_add sw c (nrec c) (recs c) (gr t c))) (allC S).
(** The time loop: the pointers are exchanged at the end of every step. *)
Fixpoint sgb_loop (pml0 pml1 : nat -> Z) (md : kM N -> arr K) (fm : kM N -> bool) (sr : Z) (gr : Z -> sC S -> arr K) (sw : bool) (ts : list Z)
    : list (mem -> mem -> Prop) :=
  match ts with
  | [] => []
  | t :: ts' => sgb_step pml0 pml1 md fm sr gr sw t ++ sgb_loop pml0 pml1 md fm sr gr (negb sw) ts'
  end.
(** [combine_grad] (acoustic.cu:151-174, 1696-1738; elastic.cu:595-620, 3019-3053): the blocks of the shots are
    added to the gradient of a model that all shots share; every cell of the array. *)
Fixpoint g_comb (q : kM N) (ks : list Z) (i : Z) : prog :=
  match ks with
  | [] => Ret
  | k :: ks' => Load (LG q, i) (fun g => Load (LV (VG q), k * n + i)%Z (fun x => Store (LG q, i) (g + x) (g_comb q ks' i)))
  end.
Definition launch_comb (q : kM N) : mem -> mem -> Prop :=
  skexec (launch_combine 0 shape) (fun th => seqp (map (fun p => g_comb q (zrange 0 NS) (idx shape p)) (items_combine 0 shape th))).
(** The models whose gradients need a buffer for the shots: [k_requires_grad && !k_batched && n_shots > 1]
    (acoustic.cu:1696-1738, acoustic.py:1105-1150; elastic.cu:3019-3053, elastic.py:1726-1760). *)
Definition sgseparate (fm : kM N -> bool) (q : kM N) : bool := fm q && negb (bt q) && (1 <? NS)%Z.
Definition kmodels : list (kM N) := flat_map g_M (kgrp N true ++ kgrp N false).
(** One call of the compiled function. *)
Definition sgb_call (pml0 pml1 : nat -> Z) (md : kM N -> arr K) (fm : kM N -> bool) (sr : Z) (gr : Z -> sC S -> arr K) (sw : bool) (cf s : Z)
    : list (mem -> mem -> Prop) :=
  sgb_loop pml0 pml1 md fm sr gr sw (rev (zrange (s * sr - Z.min s cf * sr) (s * sr)))
  ++ map launch_comb (filter (sgseparate fm) kmodels).
(** All calls, and whether the references have been exchanged at the end: after a call with an odd number of steps
    (acoustic.py:1182-1231). *)
Fixpoint sgb_calls (pml0 pml1 : nat -> Z) (md : kM N -> arr K) (fm : kM N -> bool) (sr : Z) (gr : Z -> sC S -> arr K) (cf : Z) (sw : bool) (ss : list Z)
    : list (mem -> mem -> Prop) * bool :=
  match ss with
  | [] => ([], sw)
  | s :: ss' =>
    let r := sgb_calls pml0 pml1 md fm sr gr cf (if ((Z.min s cf * sr) mod 2 =? 0)%Z then sw else negb sw) ss' in
    (sgb_call pml0 pml1 md fm sr gr sw cf s ++ fst r, snd r)
  end.

(** [backward] of the autograd functions on a CUDA device (acoustic.py:1010-1258, elastic.py:1571-1949): the possible
    gradients of a batch (wavefields, source amplitudes, models). *)
Definition sgpu_backward (pw : nat -> Z * Z) (md : kM N -> arr K) (fm : kM N -> bool) (sr : Z) (gr : Z -> sC S -> arr K)
    (nt : Z) (cb : option Z) (store : kQ N -> Z -> arr K) (g : Z -> sst S K)
    (out : (Z -> sst S K) * (Z -> sC S -> arr K) * (kM N -> arr K)) : Prop :=
  exists M,
    let calls := sgb_calls (bpml_b S K P0 pw) (bpml_e S K P0 pw) md fm sr gr (k_cf nt sr cb) false
                   (if (nt <=? 0)%Z then [] else range_down (nt / sr) (k_cf nt sr cb)) in
    in_turn (fst calls) (smem_of (sbatch_init S N K P0 nsrc nrec srcs recs pw store g)) M /\
    out = let G := sglob_of (snd calls) M in
          (sbatch_out S N K P0 G, G_r S N K G, fun q => if sgseparate fm q then G_g S N K G q else G_m S N K G (VG q)).
End SGpu.

(** The acoustic and the elastic propagator. *)
Definition eC_dec (a b : eC) : {a = b} + {a <> b}. Proof. decide equality; apply Nat.eq_dec. Defined.
Definition acoustic_gpu_forward (nd : nat) (K : ops) (P0 : spar (ac_sys nd) K) (NS : Z) (nsrc nrec : aX -> Z) (srcs recs : aX -> Z -> Z)
    (kbat bbat : bool) (pw : nat -> Z * Z) (dt : K) (kb : aM -> arr K) (kg bg : bool) :=
  sgpu_forward (ac_sys nd) (ac_kern nd) K aX_dec P0 (ac_num nd K dt) NS nsrc nrec srcs recs (ac_flag kbat bbat) false
    pw kb (ac_flag kg bg).
Definition acoustic_gpu_backward (nd : nat) (K : ops) (P0 : spar (ac_sys nd) K) (NS : Z) (nsrc nrec : aX -> Z) (srcs recs : aX -> Z -> Z)
    (kbat bbat : bool) (pw : nat -> Z * Z) (dt : K) (kb : aM -> arr K) (kg bg : bool) :=
  sgpu_backward (ac_sys nd) (ac_kern nd) K aX_dec P0 (ac_num nd K dt) NS nsrc nrec srcs recs (ac_flag kbat bbat) true
    pw kb (ac_flag kg bg).
Definition elastic_gpu_forward (nd : nat) (K : ops) (P0 : spar (el_sys nd) K) (NS : Z) (nsrc nrec : eC -> Z) (srcs recs : eC -> Z -> Z)
    (lbat mbat bbat : bool) (pw : nat -> Z * Z) (dt : K) (md : eM -> arr K) (lg mg bg : bool) :=
  sgpu_forward (el_sys nd) (el_kern nd) K eC_dec P0 (el_num nd K dt) NS nsrc nrec srcs recs (el_fm lbat mbat bbat) true
    pw md (el_fq lg mg bg).
Definition elastic_gpu_backward (nd : nat) (K : ops) (P0 : spar (el_sys nd) K) (NS : Z) (nsrc nrec : eC -> Z) (srcs recs : eC -> Z -> Z)
    (lbat mbat bbat : bool) (pw : nat -> Z * Z) (dt : K) (md : eM -> arr K) (lg mg bg : bool) :=
  sgpu_backward (el_sys nd) (el_kern nd) K eC_dec P0 (el_num nd K dt) NS nsrc nrec srcs recs (el_fm lbat mbat bbat) false
    pw md (el_fm lg mg bg).
