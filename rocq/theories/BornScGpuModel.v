(** * Model of the reduced backward pass of scalar_born on CUDA devices ([backward_sc]).

    Used when nothing of the background needs a gradient (scalar_born.py:744-756, 1296-1380): only
    the scattered wavefield is propagated.  As in [GpuModel.v] every thread of a launch is a program
    of single loads and stores on the memory of the device and the threads of a launch are
    interleaved in any way; launches run one after the other.  The simplifications are those of
    [BornGpuModel.v].  The grids are those of scalar.cu (scalar_born.cu:1758-1813). *)
From Coq Require Import List ZArith QArith Lia Bool.
From Verif Require Import Ops Sums Grid Stencil ScalarModel ScalarFunc ShotsModel BornModel Threads GpuModel.
Import ListNotations.
Local Open Scope K_scope.

Section BornScGpu.
Variable K : ops.
Variable P0 : par K.
Variable NS : Z.
(** [n_sourcessc_per_shot], [n_receiverssc_per_shot] *)
Variables nsrc nrecsc : Z.
Variables srcs recssc : Z -> Z.
(** [v_batched], [scatter_batched] *)
Variables vbat sbat : bool.
Notation shape := (p_shape P0).
Notation fd := (fd_pad (p_acc P0)).
Notation n := (prodZ shape).
Notation prog := (prog loc K).
Notation mem := (mem loc K).

Section Kernel.
Variables pml0 pml1 : nat -> Z.
Variable v : arr K.
(** [v_shot] (scalar_born.cu:706-707) *)
Definition xv (k : Z) : arr K := fun j => if vbat then v (k * n + j)%Z else v j.
(** scalar_born.cu:86-101 [V2DT2] and [V2DT2_WFCSC] at cell [j] of shot [k]. *)
Definition xv2 (k j : Z) : K := xv k j * xv k j * p_dt2 P0.
Definition xv2w (k : Z) (WFCSC : Z -> K) (j s : Z) : Z -> K := fun o => xv2 k (j + o * s)%Z * WFCSC o.
(** [wsc_sum] (scalar_born.cu:716-728, macros 108-181) *)
Fixpoint xbwd_sum (sw : bool) (k : Z) (p : pt) (ds : list nat) (wsc_sum : K) (kont : K -> prog) : prog :=
  match ds with
  | [] => kont wsc_sum
  | d :: ds' =>
    let j := idx shape p in
    let i := (k * n + j)%Z in
    let s := stride shape d in
    let y := coord d p in
    let B := fun o => p_b P0 d (y + o)%Z in
    let D1 := DIFF1 (p_acc P0) (p_rd P0 d) in
    let D2 := DIFF2 (p_acc P0) (p_rd2 P0 d) in
    if gpml pml0 pml1 p d then
      rd_st K P0 (qwfc sw) i s (fun WFCSC => rd_st K P0 (qzeta sw d) i s (fun ZETASC => rd_st K P0 (qpsi sw d) i s (fun PSISC =>
        let TSC := fun o => (1 + B o) * xv2w k WFCSC j s o + B o * ZETASC o in
        xbwd_sum sw k p ds' (wsc_sum + (- D1 (fun o => p_db P0 d (y + o)%Z * TSC o + B o * PSISC o) + D2 (fun o => (1 + B o) * TSC o))) kont)))
    else rd_st K P0 (qwfc sw) i s (fun WFCSC => xbwd_sum sw k p ds' (wsc_sum + D2 (xv2w k WFCSC j s)) kont)
  end.
(** The PML fields (scalar_born.cu:731-746) *)
Fixpoint xbwd_fields (sw : bool) (k : Z) (p : pt) (ds : list nat) (kont : prog) : prog :=
  match ds with
  | [] => kont
  | d :: ds' =>
    let j := idx shape p in
    let i := (k * n + j)%Z in
    let s := stride shape d in
    let y := coord d p in
    let a := p_a P0 d y in
    let B := fun o => p_b P0 d (y + o)%Z in
    if gpml pml0 pml1 p d then
      rd_st K P0 (qwfc sw) i s (fun WFCSC => rd_st K P0 (qzeta sw d) i s (fun ZETASC =>
        Load (qpsi sw d, i) (fun psisc =>
        Store (qpsin sw d, i) ((- a) * DIFF1 (p_acc P0) (p_rd P0 d) (fun o => (1 + B o) * xv2w k WFCSC j s o + B o * ZETASC o) + a * psisc)
        (Load (qwfc sw, i) (fun csc => Load (qzeta sw d, i) (fun zsc =>
        Store (qzetan sw d, i) (a * xv2 k j * csc + a * zsc) (xbwd_fields sw k p ds' kont)))))))
    else xbwd_fields sw k p ds' kont
  end.
(** scalar_born.cu:705-751; [gas]: where [grad_scatter_shot] points; [sts]: [load_w]. *)
Definition xbwd_cell (gas : aname) (sw sts : bool) (sr si : Z) (kp : Z * pt) : prog :=
  let '(k, p) := kp in
  let j := idx shape p in
  let i := (k * n + j)%Z in
  xbwd_sum sw k p (gdims K P0) 0 (fun wsc_sum =>
    Load (qwfc sw, i) (fun csc => Load (qwfp sw, i) (fun qsc => Store (qwfp sw, i) (wsc_sum + two * csc - qsc)
    (xbwd_fields sw k p (gdims K P0)
      (if sts then Load (gas, i) (fun g => Load (qwfc sw, i) (fun csc' => Load (NStore si, i) (fun w =>
         Store (gas, i) (g + csc' * two * xv k j * p_dt2 P0 * w * ofZ K sr) Ret)))
       else Ret))))).
(** scalar_born.cu:684-704: the cells of a thread. *)
Definition xbwd_thread (gas : aname) (sw sts : bool) (sr si : Z) (th : Z * Z * Z) : prog :=
  seqp (map (xbwd_cell gas sw sts sr si) (items_cells fd shape NS th)).
End Kernel.

(** One time step (scalar_born.cu:1868-1952): source gradients from [wfcsc], cells, receiver
    gradients into [wfpsc].  The gradients of all the sources are recorded. *)
Definition xbwd_step (pml0 pml1 : nat -> Z) (v : arr K) (gas : aname) (srg : bool) (sr : Z) (grsc : Z -> arr K) (sw : bool) (t : Z) (M M' : mem) : Prop :=
  let load_w := ((t mod sr =? 0)%Z && srg) in
  exists M1 M2,
    (if (0 <? nsrc)%Z then kexec K (launch_locs nsrc NS) (rec_thread K P0 NS (qwfc sw) nsrc srcs t) M M1 else M1 = M) /\
    kexec K (launch_cells fd shape NS) (xbwd_thread pml0 pml1 v gas sw load_w sr (t / sr)%Z) M1 M2 /\
    (if (0 <? nrecsc)%Z then kexec K (launch_locs nrecsc NS) (add_thread K P0 NS (qwfp sw) nrecsc recssc (grsc t)) M2 M' else M' = M2).
(** The time loop with the exchange of the pointers (scalar_born.cu:1866-1964). *)
Inductive xbwd_loop (pml0 pml1 : nat -> Z) (v : arr K) (gas : aname) (srg : bool) (sr : Z) (grsc : Z -> arr K) : bool -> list Z -> mem -> mem -> Prop :=
| xb_nil sw M : xbwd_loop pml0 pml1 v gas srg sr grsc sw [] M M
| xb_cons sw t ts M M1 M' : xbwd_step pml0 pml1 v gas srg sr grsc sw t M M1 -> xbwd_loop pml0 pml1 v gas srg sr grsc (negb sw) ts M1 M' ->
    xbwd_loop pml0 pml1 v gas srg sr grsc sw (t :: ts) M M'.
(** The Python driver (scalar_born.py:1296-1380), with [combine_grad] at the end of every call
    (scalar_born.cu:1965-1970). *)
Inductive xbwd_driver (pml0 pml1 : nat -> Z) (v : arr K) (srg : bool) (sr : Z) (grsc : Z -> arr K) (cf : Z) : list Z -> bool -> mem -> bool -> mem -> Prop :=
| xbd_nil sw M : xbwd_driver pml0 pml1 v srg sr grsc cf [] sw M sw M
| xbd_cons s ss sw M M1 M2 sw' M' :
    xbwd_loop pml0 pml1 v (gname NS sbat srg) srg sr grsc sw (rev (zrange (s * sr - Z.min s cf * sr) (s * sr))) M M1 ->
    (if gseparate NS sbat srg then kexec K (launch_combine fd shape) (combine_thread K P0 NS) M1 M2 else M2 = M1) ->
    xbwd_driver pml0 pml1 v srg sr grsc cf ss (if ((Z.min s cf * sr) mod 2 =? 0)%Z then sw else negb sw) M2 sw' M' ->
    xbwd_driver pml0 pml1 v srg sr grsc cf (s :: ss) sw M sw' M'.

(** scalar_born.py:941-1422 without [non_sc] on a CUDA device: the possible gradients of a batch
    (scattered wavefields, scattered source amplitudes, scattering potential). *)
Definition gpu_born_backward_sc (pw : nat -> Z * Z) (v : arr K) (w : Z -> arr K) (srg : bool) (sr : Z) (grsc : Z -> arr K) (nt : Z) (cb : option Z)
    (gsc : Z -> st K) (out : (Z -> st K) * (Z -> arr K) * arr K) : Prop :=
  let N := (nt / sr)%Z in
  let cf := match cb with Some c => c | None => N end in
  let M0 := bmem_of K (bneg K (batch_binit K P0 nsrc nrecsc srcs recssc pw gsc)) w in
  exists sw M,
    xbwd_driver (pml_begin K P0 3 pw) (pml_end K P0 3 pw) v srg sr grsc cf (if (nt <=? 0)%Z then [] else range_down N cf) false M0 sw M /\
    out = let G := bneg K (bglob_of K (gname NS sbat srg) sw M) in
          (fun k => mkst K (crop K P0 (sh K P0 k (B_wfc K G))) (crop K P0 (sh K P0 k (B_wfp K G)))
                      (fun d => crop K P0 (sh K P0 k (B_psi K G d))) (fun d => crop K P0 (sh K P0 k (B_zeta K G d))),
           B_f K G, B_gv K G).
End BornScGpu.
