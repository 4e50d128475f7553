(** * Model of the CUDA propagator of the scalar Born wave equation (scalar_born.cu).

    As in [GpuModel.v]: every thread of a launch is a program of single loads and stores on the
    memory of the device and the threads of a launch are interleaved in any way; launches run one
    after the other.  The grids are those of scalar.cu (scalar_born.cu:960-1000, 1355-1425).  The
    memory holds every array of the scalar propagator twice: for the background ([false]) and for
    the scattered ([true]) wavefield.

    Simplifications: exact arithmetic; read-only arguments (wavespeed, scattering potential, PML
    profiles, amplitudes, locations) are functions, not memory; the snapshot slot of a step and
    the row of amplitudes of a time step are arrays of their own; snapshots are kept on the device
    without compression; a value that a cell looks at twice without storing to it in between may
    be loaded once; gradients of all sources are requested (both of [f] and of [fsc]); launches
    are all in one stream; memory is sequentially consistent. *)
From Coq Require Import List ZArith QArith Lia Bool.
From Verif Require Import Ops Sums Grid Stencil ScalarModel ScalarFunc ShotsModel BornModel Threads GpuModel.
Import ListNotations.
Local Open Scope K_scope.

(** Background or scattered, array, element. *)
Definition nloc := (bool * loc)%type.
Definition nloc_eq (a b : nloc) : {a = b} + {a <> b}.
Proof. decide equality; [apply loc_eq|apply bool_dec]. Defined.

Section BornGpu.
Variable K : ops.
Variable P0 : par K.
Variable NS : Z.
(** [n_sourcessc_per_shot] = [n_sources_per_shot] (both kinds share [sources_i]). *)
Variables nsrc nrec nrecsc : Z.
Variables srcs recs recssc : Z -> Z.
(** [v_batched], [scatter_batched] *)
Variables vbat sbat : bool.
Notation shape := (p_shape P0).
Notation fd := (fd_pad (p_acc P0)).
Notation n := (prodZ shape).
Notation prog := (prog nloc K).
Notation mem := (mem nloc K).

Fixpoint nloads (ls : list nloc) (k : list K -> prog) : prog :=
  match ls with [] => k [] | l :: ls' => Load l (fun x => nloads ls' (fun xs => k (x :: xs))) end.
(** The cells of an array that a stencil looks at, along one dimension. *)
Definition nrd_st (b : bool) (a : aname) (i s : Z) (k : (Z -> K) -> prog) : prog :=
  nloads (map (fun o => (b, (a, i + o * s)%Z)) (zrange (- fd) (fd + 1))) (fun xs => k (fun o => nth (Z.to_nat (o + fd)) xs 0)).
(** A program on the arrays of one wavefield. *)
Fixpoint lift (b : bool) (p : Threads.prog loc K) : prog :=
  match p with Ret => Ret | Load l k => Load (b, l) (fun x => lift b (k x)) | Store l x k => Store (b, l) x (lift b k) end.

(** One launch: some execution of all its threads. *)
Definition nkexec (L : launch) (tp : Z * Z * Z -> prog) (M M' : mem) : Prop :=
  launch_valid L = true /\ exec nloc_eq (map tp (threads L)) M M'.
(** [v_shot], [scatter_shot] (scalar_born.cu:421-425, 572-576) *)
Definition vsh (bat : bool) (v : arr K) (k : Z) : arr K := fun j => if bat then v (k * n + j)%Z else v j.

(** *** Forward *)
Section Fwd.
Variables pml0 pml1 : nat -> Z.
Variables v scatter : arr K.

(** scalar_born.cu:428-485 *)
Fixpoint nfwd_dims (sw : bool) (k : Z) (p : pt) (ds : list nat) (w_sum wsc_sum : K) (kont : K -> K -> prog) : prog :=
  match ds with
  | [] => kont w_sum wsc_sum
  | d :: ds' =>
    let i := (k * n + idx shape p)%Z in
    let s := stride shape d in
    let y := coord d p in
    let b := p_b P0 d y in
    let a := p_a P0 d y in
    if gpml pml0 pml1 p d then
      nrd_st false (qwfc sw) i s (fun WFC => nrd_st false (qpsi sw d) i s (fun PSI =>
      nrd_st true (qwfc sw) i s (fun WFCSC => nrd_st true (qpsi sw d) i s (fun PSISC =>
        let dw := DIFF1 (p_acc P0) (p_rd P0 d) WFC in
        let tmp := (1 + b) * DIFF2 (p_acc P0) (p_rd2 P0 d) WFC + p_db P0 d y * dw
                   + DIFF1 (p_acc P0) (p_rd P0 d) (fun o => p_a P0 d (y + o)%Z * PSI o) in
        let dwsc := DIFF1 (p_acc P0) (p_rd P0 d) WFCSC in
        let tmpsc := (1 + b) * DIFF2 (p_acc P0) (p_rd2 P0 d) WFCSC + p_db P0 d y * dwsc
                     + DIFF1 (p_acc P0) (p_rd P0 d) (fun o => p_a P0 d (y + o)%Z * PSISC o) in
        Load (false, (NZeta d, i)) (fun z => Load (true, (NZeta d, i)) (fun zsc =>
        let w_sum' := w_sum + ((1 + b) * tmp + a * z) in
        let wsc_sum' := wsc_sum + ((1 + b) * tmpsc + a * zsc) in
        Load (false, (qpsi sw d, i)) (fun psi => Store (false, (qpsin sw d, i)) (b * dw + a * psi)
        (Load (false, (NZeta d, i)) (fun z' => Store (false, (NZeta d, i)) (b * tmp + a * z')
        (Load (true, (qpsi sw d, i)) (fun psisc => Store (true, (qpsin sw d, i)) (b * dwsc + a * psisc)
        (Load (true, (NZeta d, i)) (fun zsc' => Store (true, (NZeta d, i)) (b * tmpsc + a * zsc')
        (nfwd_dims sw k p ds' w_sum' wsc_sum' kont))))))))))))))
    else nrd_st false (qwfc sw) i s (fun WFC => nrd_st true (qwfc sw) i s (fun WFCSC =>
           nfwd_dims sw k p ds' (w_sum + DIFF2 (p_acc P0) (p_rd2 P0 d) WFC) (wsc_sum + DIFF2 (p_acc P0) (p_rd2 P0 d) WFCSC) kont))
  end.
(** scalar_born.cu:486-502; [stw] = [store_w], [stv] = [store_wsc]. *)
Definition nfwd_cell (sw stw stv : bool) (si : Z) (kp : Z * pt) : prog :=
  let '(k, p) := kp in
  let j := idx shape p in
  let i := (k * n + j)%Z in
  let v_ := vsh vbat v k j in
  let s_ := vsh sbat scatter k j in
  nfwd_dims sw k p (gdims K P0) 0 0 (fun w_sum wsc_sum =>
    Load (false, (qwfc sw, i)) (fun c => Load (false, (qwfp sw, i)) (fun q =>
    Store (false, (qwfp sw, i)) (v_ * v_ * p_dt2 P0 * w_sum + two * c - q)
    (Load (true, (qwfc sw, i)) (fun csc => Load (true, (qwfp sw, i)) (fun qsc =>
    Store (true, (qwfp sw, i)) (v_ * v_ * p_dt2 P0 * wsc_sum + two * csc - qsc + two * v_ * s_ * p_dt2 P0 * w_sum)
    (bind (if stw then Store (false, (NStore si, i)) w_sum Ret else Ret)
          (if stv then Store (true, (NStore si, i)) wsc_sum Ret else Ret)))))))).
Definition nfwd_thread (sw stw stv : bool) (si : Z) (th : Z * Z * Z) : prog :=
  seqp (map (nfwd_cell sw stw stv si) (items_cells fd shape NS th)).
End Fwd.

(** scalar_born.cu:220-236 [add_sources_both] *)
Definition nadd_loc (a : aname) (f fsc : arr K) (kj : Z * Z) : prog :=
  let '(k, j) := kj in
  let q := (k * nsrc + j)%Z in
  if (0 <=? srcs q)%Z then
    let l := (a, k * n + srcs q)%Z in
    Load (false, l) (fun x => Store (false, l) (x + f q) (Load (true, l) (fun y => Store (true, l) (y + fsc q) Ret)))
  else Ret.
Definition nadd_thread (a : aname) (f fsc : arr K) (th : Z * Z * Z) : prog :=
  seqp (map (nadd_loc a f fsc) (items_locs nsrc NS th)).
(** scalar_born.cu:238-262 [add_adjoint_sources], [add_adjoint_sourcessc] *)
Definition nadd1_thread (b : bool) (a : aname) (m : Z) (locs : Z -> Z) (f : arr K) (th : Z * Z * Z) : prog :=
  lift b (add_thread K P0 NS a m locs f th).
(** scalar_born.cu:264-314 [record_receivers], [record_receiverssc], [record_adjoint_receivers],
    [record_adjoint_receiverssc] *)
Definition nrec_thread (b : bool) (a : aname) (m : Z) (locs : Z -> Z) (t : Z) (th : Z * Z * Z) : prog :=
  lift b (rec_thread K P0 NS a m locs t th).

(** One time step (scalar_born.cu:1043-1180): the launches of the compute stream, in order. *)
Definition nfwd_step (pml0 pml1 : nat -> Z) (v scatter : arr K) (vrg srg : bool) (sr : Z) (f fsc : Z -> arr K) (sw : bool) (t : Z) (M M' : mem) : Prop :=
  let stw := ((t mod sr =? 0)%Z && (vrg || srg)) in
  let stv := ((t mod sr =? 0)%Z && vrg) in
  exists M1 M2 M3,
    nkexec (launch_cells fd shape NS) (nfwd_thread pml0 pml1 v scatter sw stw stv (t / sr)%Z) M M1 /\
    (if (0 <? nsrc)%Z then nkexec (launch_locs nsrc NS) (nadd_thread (qwfp sw) (f t) (fsc t)) M1 M2 else M2 = M1) /\
    (if (0 <? nrec)%Z then nkexec (launch_locs nrec NS) (nrec_thread false (qwfc sw) nrec recs t) M2 M3 else M3 = M2) /\
    (if (0 <? nrecsc)%Z then nkexec (launch_locs nrecsc NS) (nrec_thread true (qwfc sw) nrecsc recssc t) M3 M' else M' = M3).
(** The time loop with the exchange of the pointers (scalar_born.cu:1181-1192). *)
Inductive nfwd_loop (pml0 pml1 : nat -> Z) (v scatter : arr K) (vrg srg : bool) (sr : Z) (f fsc : Z -> arr K) : bool -> list Z -> mem -> mem -> Prop :=
| nf_nil sw M : nfwd_loop pml0 pml1 v scatter vrg srg sr f fsc sw [] M M
| nf_cons sw t ts M M1 M' : nfwd_step pml0 pml1 v scatter vrg srg sr f fsc sw t M M1 -> nfwd_loop pml0 pml1 v scatter vrg srg sr f fsc (negb sw) ts M1 M' ->
    nfwd_loop pml0 pml1 v scatter vrg srg sr f fsc sw (t :: ts) M M'.
(** The Python driver (scalar_born.py:815-917). *)
Inductive nfwd_driver (pml0 pml1 : nat -> Z) (v scatter : arr K) (vrg srg : bool) (sr : Z) (f fsc : Z -> arr K) (N cf : Z) : list Z -> bool -> mem -> bool -> mem -> Prop :=
| nfd_nil sw M : nfwd_driver pml0 pml1 v scatter vrg srg sr f fsc N cf [] sw M sw M
| nfd_cons s ss sw M M1 sw' M' :
    nfwd_loop pml0 pml1 v scatter vrg srg sr f fsc sw (zrange (s * sr) (s * sr + Z.min (N - s) cf * sr)) M M1 ->
    nfwd_driver pml0 pml1 v scatter vrg srg sr f fsc N cf ss (if ((Z.min (N - s) cf * sr) mod 2 =? 0)%Z then sw else negb sw) M1 sw' M' ->
    nfwd_driver pml0 pml1 v scatter vrg srg sr f fsc N cf (s :: ss) sw M sw' M'.

(** Wavefields, receiver amplitudes and snapshots of all shots. *)
Record gborn_out := mkgborn_out {
  go_u : Z -> st K; go_usc : Z -> st K;
  go_r : Z -> arr K; go_rsc : Z -> arr K;
  go_w : Z -> arr K; go_wsc : Z -> arr K
}.
Definition gcrop (G : fglob K) (k : Z) : st K :=
  mkst K (crop K P0 (sh K P0 k (F_wfc K G))) (crop K P0 (sh K P0 k (F_wfp K G)))
         (fun d => crop K P0 (sh K P0 k (F_psi K G d))) (fun d => crop K P0 (sh K P0 k (F_zeta K G d))).
(** The arrays of one wavefield. *)
Definition half (b : bool) (M : mem) : Threads.mem loc K := fun l => M (b, l).

(** scalar_born.py:598-937 on a CUDA device: the possible results of a batch. *)
Definition gpu_born_forward (pw : nat -> Z * Z) (v scatter : arr K) (vrg srg : bool) (sr : Z) (f fsc : Z -> arr K) (nt : Z) (cb : option Z)
    (w0 wsc0 : Z -> arr K) (u usc : Z -> st K) (out : gborn_out) : Prop :=
  let N := (nt / sr)%Z in
  let cf := match cb with Some c => c | None => N end in
  let M0 : mem := fun l => if fst l then fmem_of K (batch_init K P0 nsrc nrecsc srcs recssc pw wsc0 usc) (snd l)
                           else fmem_of K (batch_init K P0 nsrc nrec srcs recs pw w0 u) (snd l) in
  exists sw M,
    nfwd_driver (pml_begin K P0 2 pw) (pml_end K P0 2 pw) v scatter vrg srg sr f fsc N cf (if (nt <=? 0)%Z then [] else range_up N cf) false M0 sw M /\
    out = let G := fglob_of K sw (half false M) in let Gsc := fglob_of K sw (half true M) in
          mkgborn_out (gcrop G) (gcrop Gsc) (F_r K G) (F_r K Gsc) (F_store K G) (F_store K Gsc).

(** ** Backward *)
Section Bwd.
Variables pml0 pml1 : nat -> Z.
Variables v scatter : arr K.
(** scalar_born.cu:86-101 [V2DT2_WFC] and [V2DT2_WFCSC] at cell [j] of shot [k]. *)
Definition nv2w (k : Z) (WFC WFCSC : Z -> K) (j s : Z) : Z -> K := fun o =>
  let v_ := vsh vbat v k (j + o * s)%Z in
  v_ * v_ * p_dt2 P0 * WFC o + two * (v_ * p_dt2 P0) * vsh sbat scatter k (j + o * s)%Z * WFCSC o.
Definition nv2wsc (k : Z) (WFCSC : Z -> K) (j s : Z) : Z -> K := fun o =>
  let v_ := vsh vbat v k (j + o * s)%Z in v_ * v_ * p_dt2 P0 * WFCSC o.
(** [w_sum] and [wsc_sum] (scalar_born.cu:577-597, macros 108-181) *)
Fixpoint nbwd_sum (sw : bool) (k : Z) (p : pt) (ds : list nat) (w_sum wsc_sum : K) (kont : K -> K -> prog) : prog :=
  match ds with
  | [] => kont w_sum wsc_sum
  | d :: ds' =>
    let j := idx shape p in
    let i := (k * n + j)%Z in
    let s := stride shape d in
    let y := coord d p in
    let B := fun o => p_b P0 d (y + o)%Z in
    let D1 := DIFF1 (p_acc P0) (p_rd P0 d) in
    let D2 := DIFF2 (p_acc P0) (p_rd2 P0 d) in
    if gpml pml0 pml1 p d then
      nrd_st false (qwfc sw) i s (fun WFC => nrd_st true (qwfc sw) i s (fun WFCSC =>
      nrd_st false (qzeta sw d) i s (fun ZETA => nrd_st false (qpsi sw d) i s (fun PSI =>
      nrd_st true (qzeta sw d) i s (fun ZETASC => nrd_st true (qpsi sw d) i s (fun PSISC =>
        let T := fun o => (1 + B o) * nv2w k WFC WFCSC j s o + B o * ZETA o in
        let TSC := fun o => (1 + B o) * nv2wsc k WFCSC j s o + B o * ZETASC o in
        nbwd_sum sw k p ds'
          (w_sum + (- D1 (fun o => p_db P0 d (y + o)%Z * T o + B o * PSI o) + D2 (fun o => (1 + B o) * T o)))
          (wsc_sum + (- D1 (fun o => p_db P0 d (y + o)%Z * TSC o + B o * PSISC o) + D2 (fun o => (1 + B o) * TSC o))) kont))))))
    else nrd_st false (qwfc sw) i s (fun WFC => nrd_st true (qwfc sw) i s (fun WFCSC =>
           nbwd_sum sw k p ds' (w_sum + D2 (nv2w k WFC WFCSC j s)) (wsc_sum + D2 (nv2wsc k WFCSC j s)) kont))
  end.
(** The PML fields (scalar_born.cu:602-632) *)
Fixpoint nbwd_fields (sw : bool) (k : Z) (p : pt) (ds : list nat) (kont : prog) : prog :=
  match ds with
  | [] => kont
  | d :: ds' =>
    let j := idx shape p in
    let i := (k * n + j)%Z in
    let s := stride shape d in
    let y := coord d p in
    let a := p_a P0 d y in
    let B := fun o => p_b P0 d (y + o)%Z in
    let D1 := DIFF1 (p_acc P0) (p_rd P0 d) in
    let v_ := vsh vbat v k j in
    let s_ := vsh sbat scatter k j in
    if gpml pml0 pml1 p d then
      nrd_st true (qwfc sw) i s (fun WFCSC => nrd_st true (qzeta sw d) i s (fun ZETASC =>
      Load (true, (qpsi sw d, i)) (fun psisc =>
      Store (true, (qpsin sw d, i)) ((- a) * D1 (fun o => (1 + B o) * nv2wsc k WFCSC j s o + B o * ZETASC o) + a * psisc)
      (Load (true, (qwfc sw, i)) (fun csc => Load (true, (qzeta sw d, i)) (fun zsc =>
      Store (true, (qzetan sw d, i)) (a * (v_ * v_ * p_dt2 P0) * csc + a * zsc)
      (nrd_st false (qwfc sw) i s (fun WFC => nrd_st true (qwfc sw) i s (fun WFCSC' => nrd_st false (qzeta sw d) i s (fun ZETA =>
      Load (false, (qpsi sw d, i)) (fun psi =>
      Store (false, (qpsin sw d, i)) ((- a) * D1 (fun o => (1 + B o) * nv2w k WFC WFCSC' j s o + B o * ZETA o) + a * psi)
      (Load (false, (qwfc sw, i)) (fun c => Load (true, (qwfc sw, i)) (fun csc' => Load (false, (qzeta sw d, i)) (fun z =>
      Store (false, (qzetan sw d, i)) (a * (v_ * v_ * p_dt2 P0) * c + a * two * (v_ * p_dt2 P0) * s_ * csc' + a * z)
      (nbwd_fields sw k p ds' kont))))))))))))))))
    else nbwd_fields sw k p ds' kont
  end.
(** scalar_born.cu:561-650; [gav], [gas]: where [grad_v_shot] and [grad_scatter_shot] point; [stv],
    [sts]: [load_w && v_requires_grad], [load_w && scatter_requires_grad]. *)
Definition nbwd_cell (gav gas : aname) (sw stv sts : bool) (sr si : Z) (kp : Z * pt) : prog :=
  let '(k, p) := kp in
  let j := idx shape p in
  let i := (k * n + j)%Z in
  let v_ := vsh vbat v k j in
  let s_ := vsh sbat scatter k j in
  nbwd_sum sw k p (gdims K P0) 0 0 (fun w_sum wsc_sum =>
    Load (false, (qwfc sw, i)) (fun c => Load (false, (qwfp sw, i)) (fun q => Store (false, (qwfp sw, i)) (w_sum + two * c - q)
    (Load (true, (qwfc sw, i)) (fun csc => Load (true, (qwfp sw, i)) (fun qsc => Store (true, (qwfp sw, i)) (wsc_sum + two * csc - qsc)
    (nbwd_fields sw k p (gdims K P0)
      (bind (if stv then Load (false, (gav, i)) (fun g => Load (false, (qwfc sw, i)) (fun c' => Load (false, (NStore si, i)) (fun w =>
               Load (true, (qwfc sw, i)) (fun csc' => Load (true, (NStore si, i)) (fun wsc =>
               Store (false, (gav, i)) (g + (c' * two * v_ * p_dt2 P0 * w * ofZ K sr + csc' * (two * p_dt2 P0 * s_ * w + two * v_ * p_dt2 P0 * wsc) * ofZ K sr)) Ret)))))
             else Ret)
            (if sts then Load (true, (gas, i)) (fun g => Load (true, (qwfc sw, i)) (fun csc' => Load (false, (NStore si, i)) (fun w =>
               Store (true, (gas, i)) (g + csc' * two * v_ * p_dt2 P0 * w * ofZ K sr) Ret)))
             else Ret))))))))).
Definition nbwd_thread (gav gas : aname) (sw stv sts : bool) (sr si : Z) (th : Z * Z * Z) : prog :=
  seqp (map (nbwd_cell gav gas sw stv sts sr si) (items_cells fd shape NS th)).
End Bwd.

(** One time step (scalar_born.cu:1548-1610): source gradients from [wfc] and [wfcsc], cells,
    receiver gradients into [wfp] and [wfpsc].  As in [GpuModel.gbwd_step] the gradients of all the
    sources are recorded. *)
Definition nbwd_step (pml0 pml1 : nat -> Z) (v scatter : arr K) (gav gas : aname) (vrg srg : bool) (sr : Z) (gr grsc : Z -> arr K) (sw : bool) (t : Z) (M M' : mem) : Prop :=
  let lw := ((t mod sr =? 0)%Z && (vrg || srg)) in
  exists M1 M2 M3 M4,
    (if (0 <? nsrc)%Z then nkexec (launch_locs nsrc NS) (nrec_thread false (qwfc sw) nsrc srcs t) M M1 else M1 = M) /\
    (if (0 <? nsrc)%Z then nkexec (launch_locs nsrc NS) (nrec_thread true (qwfc sw) nsrc srcs t) M1 M2 else M2 = M1) /\
    nkexec (launch_cells fd shape NS) (nbwd_thread pml0 pml1 v scatter gav gas sw (lw && vrg) (lw && srg) sr (t / sr)%Z) M2 M3 /\
    (if (0 <? nrec)%Z then nkexec (launch_locs nrec NS) (nadd1_thread false (qwfp sw) nrec recs (gr t)) M3 M4 else M4 = M3) /\
    (if (0 <? nrecsc)%Z then nkexec (launch_locs nrecsc NS) (nadd1_thread true (qwfp sw) nrecsc recssc (grsc t)) M4 M' else M' = M4).
(** The time loop with the exchange of the pointers (scalar_born.cu:1466-1630). *)
Inductive nbwd_loop (pml0 pml1 : nat -> Z) (v scatter : arr K) (gav gas : aname) (vrg srg : bool) (sr : Z) (gr grsc : Z -> arr K) : bool -> list Z -> mem -> mem -> Prop :=
| nb_nil sw M : nbwd_loop pml0 pml1 v scatter gav gas vrg srg sr gr grsc sw [] M M
| nb_cons sw t ts M M1 M' : nbwd_step pml0 pml1 v scatter gav gas vrg srg sr gr grsc sw t M M1 -> nbwd_loop pml0 pml1 v scatter gav gas vrg srg sr gr grsc (negb sw) ts M1 M' ->
    nbwd_loop pml0 pml1 v scatter gav gas vrg srg sr gr grsc sw (t :: ts) M M'.
(** [combine_grad] (scalar_born.cu:316-361) of one of the two gradients, if it has a buffer for each
    shot (1631-1642). *)
Definition ncombine (b : bool) (sep : bool) (M M' : mem) : Prop :=
  if sep then nkexec (launch_combine fd shape) (fun th => lift b (combine_thread K P0 NS th)) M M' else M' = M.
(** The Python driver (scalar_born.py:1156-1265). *)
Inductive nbwd_driver (pml0 pml1 : nat -> Z) (v scatter : arr K) (vrg srg : bool) (sr : Z) (gr grsc : Z -> arr K) (cf : Z) : list Z -> bool -> mem -> bool -> mem -> Prop :=
| nbd_nil sw M : nbwd_driver pml0 pml1 v scatter vrg srg sr gr grsc cf [] sw M sw M
| nbd_cons s ss sw M M1 M2 M3 sw' M' :
    nbwd_loop pml0 pml1 v scatter (gname NS vbat vrg) (gname NS sbat srg) vrg srg sr gr grsc sw (rev (zrange (s * sr - Z.min s cf * sr) (s * sr))) M M1 ->
    ncombine false (gseparate NS vbat vrg) M1 M2 ->
    ncombine true (gseparate NS sbat srg) M2 M3 ->
    nbwd_driver pml0 pml1 v scatter vrg srg sr gr grsc cf ss (if ((Z.min s cf * sr) mod 2 =? 0)%Z then sw else negb sw) M3 sw' M' ->
    nbwd_driver pml0 pml1 v scatter vrg srg sr gr grsc cf (s :: ss) sw M sw' M'.

(** Gradients of all shots: wavefields, source amplitudes, models. *)
Record gborn_grad := mkgborn_grad {
  gg_u : Z -> st K; gg_usc : Z -> st K;
  gg_f : Z -> arr K; gg_fsc : Z -> arr K;
  gg_v : arr K; gg_scatter : arr K
}.
Definition gbcrop (G : bglob K) (k : Z) : st K :=
  mkst K (crop K P0 (sh K P0 k (B_wfc K G))) (crop K P0 (sh K P0 k (B_wfp K G)))
         (fun d => crop K P0 (sh K P0 k (B_psi K G d))) (fun d => crop K P0 (sh K P0 k (B_zeta K G d))).
(** scalar_born.py:941-1404 with [non_sc] on a CUDA device: the possible gradients of a batch. *)
Definition gpu_born_backward (pw : nat -> Z * Z) (v scatter : arr K) (w wsc : Z -> arr K) (vrg srg : bool) (sr : Z) (gr grsc : Z -> arr K) (nt : Z) (cb : option Z)
    (g gsc : Z -> st K) (out : gborn_grad) : Prop :=
  let N := (nt / sr)%Z in
  let cf := match cb with Some c => c | None => N end in
  let M0 : mem := fun l => if fst l then bmem_of K (bneg K (batch_binit K P0 nsrc nrecsc srcs recssc pw gsc)) wsc (snd l)
                           else bmem_of K (bneg K (batch_binit K P0 nsrc nrec srcs recs pw g)) w (snd l) in
  exists sw M,
    nbwd_driver (pml_begin K P0 3 pw) (pml_end K P0 3 pw) v scatter vrg srg sr gr grsc cf (if (nt <=? 0)%Z then [] else range_down N cf) false M0 sw M /\
    out = let G := bneg K (bglob_of K (gname NS vbat vrg) sw (half false M)) in let Gsc := bneg K (bglob_of K (gname NS sbat srg) sw (half true M)) in
          mkgborn_grad (gbcrop G) (gbcrop Gsc) (B_f K G) (B_f K Gsc) (B_gv K G) (B_gv K Gsc).
End BornGpu.
