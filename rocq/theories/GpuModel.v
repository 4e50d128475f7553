(** * Model of the CUDA propagator of the scalar wave equation (scalar.cu).

    Kernels are launched with a grid of blocks of threads; every thread is a program of single
    loads and stores on the memory of the device ([Threads.v]) and the threads of a launch are
    interleaved in any way.  Launches in the compute stream run one after the other.

    Simplifications: exact arithmetic; read-only arguments (wavespeed, PML profiles, source
    amplitudes, locations) are functions, not memory; the snapshot slot of a step and the row
    of amplitudes of a time step are arrays of their own; snapshots are kept on the device
    without compression (for the other modes see [StreamModel.v]); launches are all in one
    stream; memory is sequentially consistent. *)
From Coq Require Import List ZArith QArith Lia Bool.
From Verif Require Import Ops Sums Grid Stencil ScalarModel ScalarFunc ShotsModel Threads.
Import ListNotations.
Local Open Scope K_scope.

(** ** Launches *)

(** unsigned int *)
Definition u32 (x : Z) : Z := (x mod 2 ^ 32)%Z.
(** common_gpu.h:21-23; the arguments are converted to unsigned int. *)
Definition ceil_div (n d : Z) : Z := (u32 (u32 n + d - 1) / d)%Z.

(** Grid and block of a launch, x first. *)
Record launch := mklaunch { l_grid : Z * Z * Z; l_block : Z * Z * Z }.
(** A launch with an empty or too large grid fails and the function returns an error
    (CHECK_KERNEL_ERROR, common_gpu.h:62-80). *)
Definition launch_valid (L : launch) : bool :=
  let '(gx, gy, gz) := l_grid L in
  ((0 <? gx) && (gx <? 2 ^ 31) && (0 <? gy) && (gy <? 2 ^ 16) && (0 <? gz) && (gz <? 2 ^ 16))%Z.
(** [blockIdx.x * blockDim.x + threadIdx.x] for all blocks and threads. *)
Definition axis (g b : Z) : list Z :=
  flat_map (fun B => map (fun t => u32 (B * b + t)) (zrange 0 b)) (zrange 0 g).
Definition threads (L : launch) : list (Z * Z * Z) :=
  let '(gx, gy, gz) := l_grid L in let '(bx, by_, bz) := l_block L in
  flat_map (fun z => flat_map (fun y => map (fun x => (x, y, z)) (axis gx bx)) (axis gy by_)) (axis gz bz).

(** scalar.cu:525-541 (forward), 776-792 (backward); [shape] is [nz, ny, nx], [ny, nx] or [nx]. *)
Definition launch_cells (fd : Z) (shape : list Z) (ns : Z) : launch :=
  match shape with
  | [nz; ny; nx] => mklaunch (ceil_div (nx - 2 * fd) 32, ceil_div (ny - 2 * fd) 4, ceil_div (nz - 2 * fd) 1)%Z (32, 4, 1)%Z
  | [ny; nx] => mklaunch (ceil_div (nx - 2 * fd) 32, ceil_div (ny - 2 * fd) 4, ceil_div ns 1)%Z (32, 4, 1)%Z
  | [nx] => mklaunch (ceil_div (nx - 2 * fd) 128, ceil_div ns 1, 1)%Z (128, 1, 1)%Z
  | _ => mklaunch (0, 0, 0)%Z (1, 1, 1)%Z
  end.
(** scalar.cu:542-556, 793-807: sources and receivers. *)
Definition launch_locs (n ns : Z) : launch := mklaunch (ceil_div n 32, ceil_div ns 1, 1)%Z (32, 1, 1)%Z.
(** scalar.cu:808-831 *)
Definition launch_combine (fd : Z) (shape : list Z) : launch :=
  match shape with
  | [nz; ny; nx] => mklaunch (ceil_div (nx - 2 * fd) 32, ceil_div (ny - 2 * fd) 4, ceil_div (nz - 2 * fd) 1)%Z (32, 4, 1)%Z
  | [ny; nx] => mklaunch (ceil_div (nx - 2 * fd) 32, ceil_div (ny - 2 * fd) 4, 1)%Z (32, 4, 1)%Z
  | [nx] => mklaunch (ceil_div (nx - 2 * fd) 128, 1, 1)%Z (128, 1, 1)%Z
  | _ => mklaunch (0, 0, 0)%Z (1, 1, 1)%Z
  end.

(** The shots and cells a thread works on, in its order (scalar.cu:233-253, 344-364): loop over
    the shots in 3-D, one shot in 2-D and 1-D. *)
Definition items_cells (fd : Z) (shape : list Z) (ns : Z) (th : Z * Z * Z) : list (Z * pt) :=
  let '(tx, ty, tz) := th in
  let x := (tx + fd)%Z in let y := (ty + fd)%Z in let z := (tz + fd)%Z in
  match shape with
  | [nz; ny; nx] => if ((z <? nz - fd) && (y <? ny - fd) && (x <? nx - fd))%Z then map (fun k => (k, [z; y; x])) (zrange 0 ns) else []
  | [ny; nx] => if ((y <? ny - fd) && (x <? nx - fd) && (tz <? ns))%Z then [(tz, [y; x])] else []
  | [nx] => if ((x <? nx - fd) && (ty <? ns))%Z then [(ty, [x])] else []
  | _ => []
  end.
(** scalar.cu:145-171: shot and number of a source or receiver. *)
Definition items_locs (n ns : Z) (th : Z * Z * Z) : list (Z * Z) :=
  let '(tx, ty, _) := th in if ((tx <? n) && (ty <? ns))%Z then [(ty, tx)] else [].
(** scalar.cu:173-215: cells of [combine_grad_v]. *)
Definition items_combine (fd : Z) (shape : list Z) (th : Z * Z * Z) : list pt :=
  let '(tx, ty, tz) := th in
  let x := (tx + fd)%Z in let y := (ty + fd)%Z in let z := (tz + fd)%Z in
  match shape with
  | [nz; ny; nx] => if ((z <? nz - fd) && (y <? ny - fd) && (x <? nx - fd))%Z then [[z; y; x]] else []
  | [ny; nx] => if ((y <? ny - fd) && (x <? nx - fd))%Z then [[y; x]] else []
  | [nx] => if (x <? nx - fd)%Z then [[x]] else []
  | _ => []
  end.

(** ** Memory of the device *)
Inductive aname :=
| NWfc | NWfp | NPsi (d : nat) | NPsin (d : nat) | NZeta (d : nat) | NZetan (d : nat)
| NStore (s : Z) | NAmp (t : Z) | NGrad | NGradShot.
Definition aname_eq (a b : aname) : {a = b} + {a <> b}.
Proof. decide equality; try apply Nat.eq_dec; apply Z.eq_dec. Defined.
Definition loc := (aname * Z)%type.
Definition loc_eq (a b : loc) : {a = b} + {a <> b}.
Proof. decide equality; [apply Z.eq_dec|apply aname_eq]. Defined.

(** The buffers that the pointers [wfc], [wfp], [psi?], [psi?n], [zeta?], [zeta?n] stand for,
    exchanged ([sw]) or not. *)
Definition qwfc (sw : bool) : aname := if sw then NWfp else NWfc.
Definition qwfp (sw : bool) : aname := if sw then NWfc else NWfp.
Definition qpsi (sw : bool) (d : nat) : aname := if sw then NPsin d else NPsi d.
Definition qpsin (sw : bool) (d : nat) : aname := if sw then NPsi d else NPsin d.
Definition qzeta (sw : bool) (d : nat) : aname := if sw then NZetan d else NZeta d.
Definition qzetan (sw : bool) (d : nat) : aname := if sw then NZeta d else NZetan d.

Section Gpu.
Variable K : ops.
Variable P0 : par K.
Variable NS : Z.
Variables nsrc nrec : Z.
Variables srcs recs : Z -> Z.
Variable batched : bool.
Notation shape := (p_shape P0).
Notation fd := (fd_pad (p_acc P0)).
Notation n := (prodZ shape).
Notation prog := (prog loc K).
Notation mem := (mem loc K).
Definition gdims : list nat := seq 0 (length shape).

Fixpoint loads (ls : list loc) (k : list K -> prog) : prog :=
  match ls with [] => k [] | l :: ls' => Load l (fun x => loads ls' (fun xs => k (x :: xs))) end.
(** The cells of an array that a stencil looks at, along one dimension. *)
Definition rd_st (a : aname) (i s : Z) (k : (Z -> K) -> prog) : prog :=
  loads (map (fun o => (a, i + o * s)%Z) (zrange (- fd) (fd + 1))) (fun xs => k (fun o => nth (Z.to_nat (o + fd)) xs 0)).

(** One launch: some execution of all its threads. *)
Definition kexec (L : launch) (tp : Z * Z * Z -> prog) (M M' : mem) : Prop :=
  launch_valid L = true /\ exec loc_eq (map tp (threads L)) M M'.

(** [pml_z], [pml_y], [pml_x] (scalar.cu:258, 272, 286). *)
Definition gpml (pml0 pml1 : nat -> Z) (p : pt) (d : nat) : bool := ((coord d p <? pml0 d) || (pml1 d <=? coord d p))%Z.

(** *** Forward *)
Section Fwd.
Variables pml0 pml1 : nat -> Z.
Variable v : arr K.

(** scalar.cu:257-299 *)
Fixpoint fwd_dims (sw : bool) (k : Z) (p : pt) (ds : list nat) (w_sum : K) (kont : K -> prog) : prog :=
  match ds with
  | [] => kont w_sum
  | d :: ds' =>
    let i := (k * n + idx shape p)%Z in
    let s := stride shape d in
    let y := coord d p in
    let b := p_b P0 d y in
    let a := p_a P0 d y in
    if gpml pml0 pml1 p d then
      rd_st (qwfc sw) i s (fun WFC => rd_st (qpsi sw d) i s (fun PSI =>
        let dw := DIFF1 (p_acc P0) (p_rd P0 d) WFC in
        let tmp := (1 + b) * DIFF2 (p_acc P0) (p_rd2 P0 d) WFC + p_db P0 d y * dw
                   + DIFF1 (p_acc P0) (p_rd P0 d) (fun o => p_a P0 d (y + o)%Z * PSI o) in
        Load (NZeta d, i) (fun z =>
        let w_sum' := w_sum + ((1 + b) * tmp + a * z) in
        Load (qpsi sw d, i) (fun psi => Store (qpsin sw d, i) (b * dw + a * psi)
        (Load (NZeta d, i) (fun z' => Store (NZeta d, i) (b * tmp + a * z') (fwd_dims sw k p ds' w_sum' kont)))))))
    else rd_st (qwfc sw) i s (fun WFC => fwd_dims sw k p ds' (w_sum + DIFF2 (p_acc P0) (p_rd2 P0 d) WFC) kont)
  end.
(** [v_shot] (scalar.cu:255) and the rest of the cell (scalar.cu:300-310); [sto] = [v_requires_grad]. *)
Definition fwd_cell (sw sto : bool) (si : Z) (kp : Z * pt) : prog :=
  let '(k, p) := kp in
  let j := idx shape p in
  let i := (k * n + j)%Z in
  let v_shot := if batched then v i else v j in
  fwd_dims sw k p gdims 0 (fun w_sum =>
    let rest := Load (qwfc sw, i) (fun c => Load (qwfp sw, i) (fun q =>
      Store (qwfp sw, i) (v_shot * v_shot * p_dt2 P0 * w_sum + two * c - q) Ret)) in
    if sto then Store (NStore si, i) (two * v_shot * p_dt2 P0 * w_sum) rest else rest).
Definition fwd_thread (sw sto : bool) (si : Z) (th : Z * Z * Z) : prog :=
  seqp (map (fwd_cell sw sto si) (items_cells fd shape NS th)).
End Fwd.

(** scalar.cu:145-157 [add_sources]: to the array [a], [m] locations per shot. *)
Definition add_loc (a : aname) (m : Z) (locs : Z -> Z) (f : arr K) (kj : Z * Z) : prog :=
  let '(k, j) := kj in
  let q := (k * m + j)%Z in
  if (0 <=? locs q)%Z then Load (a, k * n + locs q)%Z (fun x => Store (a, k * n + locs q)%Z (x + f q) Ret) else Ret.
Definition add_thread (a : aname) (m : Z) (locs : Z -> Z) (f : arr K) (th : Z * Z * Z) : prog :=
  seqp (map (add_loc a m locs f) (items_locs m NS th)).
(** scalar.cu:159-171 [record_receivers]: from the array [a] to row [t]. *)
Definition rec_loc (a : aname) (m : Z) (locs : Z -> Z) (t : Z) (kj : Z * Z) : prog :=
  let '(k, j) := kj in
  let q := (k * m + j)%Z in
  if (0 <=? locs q)%Z then Load (a, k * n + locs q)%Z (fun x => Store (NAmp t, q) x Ret) else Ret.
Definition rec_thread (a : aname) (m : Z) (locs : Z -> Z) (t : Z) (th : Z * Z * Z) : prog :=
  seqp (map (rec_loc a m locs t) (items_locs m NS th)).

(** One time step (scalar.cu:613-688): the launches of the compute stream, in order. *)
Definition gfwd_step (pml0 pml1 : nat -> Z) (v : arr K) (vrg : bool) (sr : Z) (f : Z -> arr K) (sw : bool) (t : Z) (M M' : mem) : Prop :=
  exists M1 M2,
    kexec (launch_cells fd shape NS) (fwd_thread pml0 pml1 v sw (vrg && (t mod sr =? 0)%Z) (t / sr)%Z) M M1 /\
    (if (0 <? nsrc)%Z then kexec (launch_locs nsrc NS) (add_thread (qwfp sw) nsrc srcs (f t)) M1 M2 else M2 = M1) /\
    (if (0 <? nrec)%Z then kexec (launch_locs nrec NS) (rec_thread (qwfc sw) nrec recs t) M2 M' else M' = M2).
(** The time loop with the exchange of the pointers (scalar.cu:681-687). *)
Inductive gfwd_loop (pml0 pml1 : nat -> Z) (v : arr K) (vrg : bool) (sr : Z) (f : Z -> arr K) : bool -> list Z -> mem -> mem -> Prop :=
| gf_nil sw M : gfwd_loop pml0 pml1 v vrg sr f sw [] M M
| gf_cons sw t ts M M1 M' : gfwd_step pml0 pml1 v vrg sr f sw t M M1 -> gfwd_loop pml0 pml1 v vrg sr f (negb sw) ts M1 M' ->
    gfwd_loop pml0 pml1 v vrg sr f sw (t :: ts) M M'.
(** The Python driver (scalar.py:843-921): calls of the compiled function and exchange of the
    references after an odd number of steps. *)
Inductive gfwd_driver (pml0 pml1 : nat -> Z) (v : arr K) (vrg : bool) (sr : Z) (f : Z -> arr K) (N cf : Z) : list Z -> bool -> mem -> bool -> mem -> Prop :=
| gfd_nil sw M : gfwd_driver pml0 pml1 v vrg sr f N cf [] sw M sw M
| gfd_cons s ss sw M M1 sw' M' :
    gfwd_loop pml0 pml1 v vrg sr f sw (zrange (s * sr) (s * sr + Z.min (N - s) cf * sr)) M M1 ->
    gfwd_driver pml0 pml1 v vrg sr f N cf ss (if ((Z.min (N - s) cf * sr) mod 2 =? 0)%Z then sw else negb sw) M1 sw' M' ->
    gfwd_driver pml0 pml1 v vrg sr f N cf (s :: ss) sw M sw' M'.

(** The arrays the references stand for. *)
Definition fglob_of (sw : bool) (M : mem) : fglob K :=
  mkfglob K (fun i => M (qwfc sw, i)) (fun i => M (qwfp sw, i)) (fun d i => M (qpsi sw d, i)) (fun d i => M (qpsin sw d, i))
    (fun d i => M (NZeta d, i)) (fun s i => M (NStore s, i)) (fun t i => M (NAmp t, i)).
(** Device memory holding given arrays. *)
Definition fmem_of (G : fglob K) : mem := fun l =>
  let i := snd l in
  match fst l with
  | NWfc => F_wfc K G i | NWfp => F_wfp K G i | NPsi d => F_psi K G d i | NPsin d => F_psin K G d i
  | NZeta d => F_zeta K G d i | NStore s => F_store K G s i | NAmp t => F_r K G t i | _ => 0
  end.

(** scalar.py:737-934 on a CUDA device: the possible results of a batch (wavefields, receiver
    amplitudes, snapshots). *)
Definition gpu_forward (pw : nat -> Z * Z) (v : arr K) (vrg : bool) (sr : Z) (f : Z -> arr K) (nt : Z) (cb : option Z)
    (store0 : Z -> arr K) (u : Z -> st K) (out : (Z -> st K) * (Z -> arr K) * (Z -> arr K)) : Prop :=
  let N := (nt / sr)%Z in
  let cf := match cb with Some c => c | None => N end in
  let M0 := fmem_of (batch_init K P0 nsrc nrec srcs recs pw store0 u) in
  exists sw M,
    gfwd_driver (pml_begin K P0 2 pw) (pml_end K P0 2 pw) v vrg sr f N cf (if (nt <=? 0)%Z then [] else range_up N cf) false M0 sw M /\
    out = let G := fglob_of sw M in
          (fun k => mkst K (crop K P0 (sh K P0 k (F_wfc K G))) (crop K P0 (sh K P0 k (F_wfp K G)))
                      (fun d => crop K P0 (sh K P0 k (F_psi K G d))) (fun d => crop K P0 (sh K P0 k (F_zeta K G d))),
           F_r K G, F_store K G).

(** *** Backward *)
Section Bwd.
Variables pml0 pml1 : nat -> Z.
Variable v2dt2 : arr K.
(** [v2dt2_shot] (scalar.cu:368-370) *)
Definition v2sh (k : Z) : arr K := fun j => if batched then v2dt2 (k * n + j)%Z else v2dt2 j.

(** [w_sum] (scalar.cu:371-389, macros 76-112) *)
Fixpoint bwd_sum (sw : bool) (k : Z) (p : pt) (ds : list nat) (w_sum : K) (kont : K -> prog) : prog :=
  match ds with
  | [] => kont w_sum
  | d :: ds' =>
    let j := idx shape p in
    let i := (k * n + j)%Z in
    let s := stride shape d in
    let y := coord d p in
    let B := fun o => p_b P0 d (y + o)%Z in
    let V WFC := fun o => v2sh k (j + o * s)%Z * WFC o in
    if gpml pml0 pml1 p d then
      rd_st (qwfc sw) i s (fun WFC => rd_st (qzeta sw d) i s (fun ZETA => rd_st (qpsi sw d) i s (fun PSI =>
        let T := fun o => (1 + B o) * V WFC o + B o * ZETA o in
        bwd_sum sw k p ds' (w_sum + (- DIFF1 (p_acc P0) (p_rd P0 d) (fun o => p_db P0 d (y + o)%Z * T o + B o * PSI o)
                                     + DIFF2 (p_acc P0) (p_rd2 P0 d) (fun o => (1 + B o) * T o))) kont)))
    else rd_st (qwfc sw) i s (fun WFC => bwd_sum sw k p ds' (w_sum + DIFF2 (p_acc P0) (p_rd2 P0 d) (V WFC)) kont)
  end.
(** The PML fields (scalar.cu:392-407) *)
Fixpoint bwd_fields (sw : bool) (k : Z) (p : pt) (ds : list nat) (kont : prog) : prog :=
  match ds with
  | [] => kont
  | d :: ds' =>
    let j := idx shape p in
    let i := (k * n + j)%Z in
    let s := stride shape d in
    let y := coord d p in
    let a := p_a P0 d y in
    let B := fun o => p_b P0 d (y + o)%Z in
    let V WFC := fun o => v2sh k (j + o * s)%Z * WFC o in
    if gpml pml0 pml1 p d then
      rd_st (qwfc sw) i s (fun WFC => rd_st (qzeta sw d) i s (fun ZETA =>
        Load (qpsi sw d, i) (fun psi =>
        Store (qpsin sw d, i) ((- a) * DIFF1 (p_acc P0) (p_rd P0 d) (fun o => (1 + B o) * V WFC o + B o * ZETA o) + a * psi)
        (Load (qwfc sw, i) (fun c => Load (qzeta sw d, i) (fun z =>
        Store (qzetan sw d, i) (a * (v2sh k j * c) + a * z) (bwd_fields sw k p ds' kont)))))))
    else bwd_fields sw k p ds' kont
  end.
(** scalar.cu:365-415; [ga]: where [grad_v_shot] points. *)
Definition bwd_cell (ga : aname) (sw sto : bool) (sr si : Z) (kp : Z * pt) : prog :=
  let '(k, p) := kp in
  let i := (k * n + idx shape p)%Z in
  bwd_sum sw k p gdims 0 (fun w_sum =>
    Load (qwfc sw, i) (fun c => Load (qwfp sw, i) (fun q => Store (qwfp sw, i) (w_sum + two * c - q)
    (bwd_fields sw k p gdims
      (if sto then Load (ga, i) (fun g => Load (qwfc sw, i) (fun c' => Load (NStore si, i) (fun dw =>
         Store (ga, i) (g + c' * dw * ofZ K sr) Ret)))
       else Ret))))).
Definition bwd_thread (ga : aname) (sw sto : bool) (sr si : Z) (th : Z * Z * Z) : prog :=
  seqp (map (bwd_cell ga sw sto sr si) (items_cells fd shape NS th)).
End Bwd.

(** scalar.cu:173-215 *)
Fixpoint combine_shots (ks : list Z) (i : Z) : prog :=
  match ks with
  | [] => Ret
  | k :: ks' => Load (NGrad, i) (fun g => Load (NGradShot, k * n + i)%Z (fun x => Store (NGrad, i) (g + x) (combine_shots ks' i)))
  end.
Definition combine_thread (th : Z * Z * Z) : prog :=
  seqp (map (fun p => combine_shots (zrange 0 NS) (idx shape p)) (items_combine fd shape th)).

(** scalar.cu:879-970; [nf]: sources for which gradients are recorded. *)
Definition gbwd_step (pml0 pml1 : nat -> Z) (v2dt2 : arr K) (ga : aname) (vrg : bool) (sr : Z) (gr : Z -> arr K) (sw : bool) (t : Z) (M M' : mem) : Prop :=
  exists M1 M2,
    (if (0 <? nsrc)%Z then kexec (launch_locs nsrc NS) (rec_thread (qwfc sw) nsrc srcs t) M M1 else M1 = M) /\
    kexec (launch_cells fd shape NS) (bwd_thread pml0 pml1 v2dt2 ga sw (vrg && (t mod sr =? 0)%Z) sr (t / sr)%Z) M1 M2 /\
    (if (0 <? nrec)%Z then kexec (launch_locs nrec NS) (add_thread (qwfp sw) nrec recs (gr t)) M2 M' else M' = M2).
Inductive gbwd_loop (pml0 pml1 : nat -> Z) (v2dt2 : arr K) (ga : aname) (vrg : bool) (sr : Z) (gr : Z -> arr K) : bool -> list Z -> mem -> mem -> Prop :=
| gb_nil sw M : gbwd_loop pml0 pml1 v2dt2 ga vrg sr gr sw [] M M
| gb_cons sw t ts M M1 M' : gbwd_step pml0 pml1 v2dt2 ga vrg sr gr sw t M M1 -> gbwd_loop pml0 pml1 v2dt2 ga vrg sr gr (negb sw) ts M1 M' ->
    gbwd_loop pml0 pml1 v2dt2 ga vrg sr gr sw (t :: ts) M M'.

(** [v_requires_grad && !v_batched && n_shots > 1] (scalar.cu:998, scalar.py:1195-1203): the shots
    accumulate in a buffer of their own, added to the gradient at the end of every call. *)
Definition gseparate (vrg : bool) : bool := vrg && negb batched && (1 <? NS)%Z.
Definition gname (vrg : bool) : aname := if gseparate vrg then NGradShot else NGrad.
Inductive gbwd_driver (pml0 pml1 : nat -> Z) (v2dt2 : arr K) (vrg : bool) (sr : Z) (gr : Z -> arr K) (cf : Z) : list Z -> bool -> mem -> bool -> mem -> Prop :=
| gbd_nil sw M : gbwd_driver pml0 pml1 v2dt2 vrg sr gr cf [] sw M sw M
| gbd_cons s ss sw M M1 M2 sw' M' :
    gbwd_loop pml0 pml1 v2dt2 (gname vrg) vrg sr gr sw (rev (zrange (s * sr - Z.min s cf * sr) (s * sr))) M M1 ->
    (if gseparate vrg then kexec (launch_combine fd shape) combine_thread M1 M2 else M2 = M1) ->
    gbwd_driver pml0 pml1 v2dt2 vrg sr gr cf ss (if ((Z.min s cf * sr) mod 2 =? 0)%Z then sw else negb sw) M2 sw' M' ->
    gbwd_driver pml0 pml1 v2dt2 vrg sr gr cf (s :: ss) sw M sw' M'.

Definition bglob_of (ga : aname) (sw : bool) (M : mem) : bglob K :=
  mkbglob K (fun i => M (qwfc sw, i)) (fun i => M (qwfp sw, i)) (fun d i => M (qpsi sw d, i)) (fun d i => M (qpsin sw d, i))
    (fun d i => M (qzeta sw d, i)) (fun d i => M (qzetan sw d, i)) (fun t i => M (NAmp t, i)) (fun i => M (ga, i)) (fun i => M (NGrad, i)).
(** Device memory holding given arrays and the snapshots. *)
Definition bmem_of (G : bglob K) (store : Z -> arr K) : mem := fun l =>
  let i := snd l in
  match fst l with
  | NWfc => B_wfc K G i | NWfp => B_wfp K G i | NPsi d => B_psi K G d i | NPsin d => B_psin K G d i
  | NZeta d => B_zeta K G d i | NZetan d => B_zetan K G d i | NStore s => store s i | NAmp t => B_f K G t i
  | NGrad => B_gv K G i | NGradShot => B_buf K G i
  end.

(** scalar.py:1026-1342 on a CUDA device: the possible gradients of a batch (wavefields, source
    amplitudes, wavespeed). *)
Definition gpu_backward (pw : nat -> Z * Z) (v : arr K) (store : Z -> arr K) (vrg : bool) (sr : Z) (gr : Z -> arr K) (nt : Z) (cb : option Z)
    (g : Z -> st K) (out : (Z -> st K) * (Z -> arr K) * arr K) : Prop :=
  let N := (nt / sr)%Z in
  let cf := match cb with Some c => c | None => N end in
  let M0 := bmem_of (bneg K (batch_binit K P0 nsrc nrec srcs recs pw g)) store in
  exists sw M,
    gbwd_driver (pml_begin K P0 3 pw) (pml_end K P0 3 pw) (fun i => v i * v i * p_dt2 P0) vrg sr gr cf (if (nt <=? 0)%Z then [] else range_down N cf) false M0 sw M /\
    out = let G := bneg K (bglob_of (gname vrg) sw M) in
          (fun k => mkst K (crop K P0 (sh K P0 k (B_wfc K G))) (crop K P0 (sh K P0 k (B_wfp K G)))
                      (fun d => crop K P0 (sh K P0 k (B_psi K G d))) (fun d => crop K P0 (sh K P0 k (B_zeta K G d))),
           B_f K G, B_gv K G).
End Gpu.
