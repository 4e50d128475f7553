(** * Model of the scalar Born propagator (one shot).

    Flat-memory model of the compiled kernels [scalar_born.c] ([forward], [backward],
    [backward_sc]), of the drivers around them ([ScalarBornForwardFunc]), of the scaling of
    the source amplitudes, and whole-array model of the Python backend.

    Simplifications as in [ScalarModel.v]: exact arithmetic, one shot, every number of
    dimensions at once. *)
From Coq Require Import List ZArith QArith Lia Bool.
From Verif Require Import Ops Sums Grid Stencil ScalarModel ScalarFunc.
Import ListNotations.
Local Open Scope K_scope.

(** The same parameters with other receivers. *)
Definition withrec {K : ops} (P : par K) (l : list Z) : par K :=
  mkpar (p_acc P) (p_shape P) (p_rd P) (p_rd2 P) (p_a P) (p_b P) (p_db P) (p_dt2 P) (p_src P) l.

Section Born.
Variable K : ops.
(** [p_rec P] = [receivers_i] (background), [recsc] = [receiverssc_i]. *)
Variable P : par K.
Variable recsc : list Z.
Notation shape := (p_shape P).
Notation fd := (fd_pad (p_acc P)).

(** ** Compiled forward kernel *)

(** Memory of one shot: background fields, [w_store], [r] and scattered fields, [wsc_store],
    [rsc]. *)
Record nmem := mknmem { n_bg : cmem K; n_sc : cmem K }.

(** Contribution of one dimension (scalar_born.c:458-477, 479-498, 500-517). *)
Definition n_fwd_dim (reg : list Z) (p : pt) (acc : K * K * nmem) (d : nat) : K * K * nmem :=
  let '(w_sum, wsc_sum, m) := acc in
  let i := idx shape p in
  let s := stride shape d in
  let y := coord d p in
  let b := p_b P d y in
  let a := p_a P d y in
  let WFC := fun k => m_wfc K (n_bg m) (i + k * s)%Z in
  let WFCSC := fun k => m_wfc K (n_sc m) (i + k * s)%Z in
  let A_PSI := fun k => p_a P d (y + k)%Z * m_psi K (n_bg m) d (i + k * s)%Z in
  let A_PSISC := fun k => p_a P d (y + k)%Z * m_psi K (n_sc m) d (i + k * s)%Z in
  if (nth d reg 0%Z =? 1)%Z
  then (w_sum + DIFF2 (p_acc P) (p_rd2 P d) WFC, wsc_sum + DIFF2 (p_acc P) (p_rd2 P d) WFCSC, m)
  else
    let dw := DIFF1 (p_acc P) (p_rd P d) WFC in
    let tmp := (1 + b) * DIFF2 (p_acc P) (p_rd2 P d) WFC + p_db P d y * dw
               + DIFF1 (p_acc P) (p_rd P d) A_PSI in
    let dwsc := DIFF1 (p_acc P) (p_rd P d) WFCSC in
    let tmpsc := (1 + b) * DIFF2 (p_acc P) (p_rd2 P d) WFCSC + p_db P d y * dwsc
                 + DIFF1 (p_acc P) (p_rd P d) A_PSISC in
    let zeta := m_zeta K (n_bg m) d i in
    let zetasc := m_zeta K (n_sc m) d i in
    (w_sum + ((1 + b) * tmp + a * zeta), wsc_sum + ((1 + b) * tmpsc + a * zetasc),
     mknmem
       (mkcmem K (m_wfc K (n_bg m)) (m_wfp K (n_bg m)) (m_psi K (n_bg m))
          (updd (m_psin K (n_bg m)) d
             (upd (m_psin K (n_bg m) d) i (b * dw + a * m_psi K (n_bg m) d i)))
          (updd (m_zeta K (n_bg m)) d (upd (m_zeta K (n_bg m) d) i (b * tmp + a * zeta)))
          (m_store K (n_bg m)) (m_r K (n_bg m)))
       (mkcmem K (m_wfc K (n_sc m)) (m_wfp K (n_sc m)) (m_psi K (n_sc m))
          (updd (m_psin K (n_sc m)) d
             (upd (m_psin K (n_sc m) d) i (b * dwsc + a * m_psi K (n_sc m) d i)))
          (updd (m_zeta K (n_sc m)) d (upd (m_zeta K (n_sc m) d) i (b * tmpsc + a * zetasc)))
          (m_store K (n_sc m)) (m_r K (n_sc m)))).

(** Write [x] at element [i] of snapshot [si]. *)
Definition store_at (st : Z -> arr K) (si i : Z) (x : K) : Z -> arr K :=
  fun j => if (j =? si)%Z then upd (st si) i x else st j.

(** One cell (scalar_born.c:449-529).  [stw] = [v_or_scatter_requires_grad_t], [stv] =
    [v_requires_grad_t]; the raw sums are stored. *)
Definition n_fwd_cell (v scatter : arr K) (stw stv : bool) (si : Z) (m : nmem)
    (rp : list Z * pt) : nmem :=
  let '(reg, p) := rp in
  let i := idx shape p in
  let '(w_sum, wsc_sum, m1) := fold_left (n_fwd_dim reg p) (dims K P) (0, 0, m) in
  let bg := n_bg m1 in
  let sc := n_sc m1 in
  mknmem
    (mkcmem K (m_wfc K bg)
       (upd (m_wfp K bg) i (v i * v i * p_dt2 P * w_sum + two * m_wfc K bg i - m_wfp K bg i))
       (m_psi K bg) (m_psin K bg) (m_zeta K bg)
       (if stw then store_at (m_store K bg) si i w_sum else m_store K bg) (m_r K bg))
    (mkcmem K (m_wfc K sc)
       (upd (m_wfp K sc) i
          (v i * v i * p_dt2 P * wsc_sum + two * m_wfc K sc i - m_wfp K sc i
           + two * v i * scatter i * p_dt2 P * w_sum))
       (m_psi K sc) (m_psin K sc) (m_zeta K sc)
       (if stv then store_at (m_store K sc) si i wsc_sum else m_store K sc) (m_r K sc)).

(** One time step (scalar_born.c:396-547): cells, then sources into [wfp] and [wfpsc] at the
    same locations, then receivers from [wfc] and [wfcsc]. *)
Definition n_fwd_body (v scatter : arr K) (vis : list (list Z * pt)) (vrg srg : bool) (step_ratio : Z)
    (f fsc : Z -> list K) (t : Z) (m : nmem) : nmem :=
  let stv := vrg && (t mod step_ratio =? 0)%Z in
  let sts := srg && (t mod step_ratio =? 0)%Z in
  let m1 := fold_left (n_fwd_cell v scatter (stv || sts) stv (t / step_ratio)%Z) vis m in
  let bg := n_bg m1 in
  let sc := n_sc m1 in
  mknmem
    (mkcmem K (m_wfc K bg) (add_to_wavefield K (m_wfp K bg) (p_src P) (f t))
       (m_psi K bg) (m_psin K bg) (m_zeta K bg) (m_store K bg)
       (fun u => if (u =? t)%Z then record_from_wavefield K (m_wfc K bg) (p_rec P) (m_r K bg t)
                 else m_r K bg u))
    (mkcmem K (m_wfc K sc) (add_to_wavefield K (m_wfp K sc) (p_src P) (fsc t))
       (m_psi K sc) (m_psin K sc) (m_zeta K sc) (m_store K sc)
       (fun u => if (u =? t)%Z then record_from_wavefield K (m_wfc K sc) recsc (m_r K sc t)
                 else m_r K sc u)).

(** Exchange of the buffers of both fields (scalar_born.c:322-361, scalar_born.py:905-917). *)
Definition n_swap (m : nmem) : nmem := mknmem (c_swap K (n_bg m)) (c_swap K (n_sc m)).

Definition n_fwd_t (v scatter : arr K) (vis : list (list Z * pt)) (vrg srg : bool) (step_ratio : Z)
    (f fsc : Z -> list K) (start_t : Z) (m : nmem) (t : Z) : nmem :=
  if Z.odd (t - start_t)
  then n_swap (n_fwd_body v scatter vis vrg srg step_ratio f fsc t (n_swap m))
  else n_fwd_body v scatter vis vrg srg step_ratio f fsc t m.

(** [FUNC(forward)] for one shot (scalar_born.c:321-548). *)
Definition n_forward (v scatter : arr K) (vis : list (list Z * pt)) (vrg srg : bool) (step_ratio : Z)
    (f fsc : Z -> list K) (nt start_t : Z) (m : nmem) : nmem :=
  fold_left (n_fwd_t v scatter vis vrg srg step_ratio f fsc start_t) (zrange start_t (start_t + nt)) m.

(** One chunk of the driver (scalar_born.py:824-917). *)
Definition n_fwd_chunk (v scatter : arr K) (vis : list (list Z * pt)) (vrg srg : bool) (step_ratio : Z)
    (f fsc : Z -> list K) (n cf : Z) (m : nmem) (s : Z) : nmem :=
  let step_nt := Z.min (n - s) cf in
  let m' := n_forward v scatter vis vrg srg step_ratio f fsc (step_nt * step_ratio) (s * step_ratio) m in
  if ((step_nt * step_ratio) mod 2 =? 0)%Z then m' else n_swap m'.

(** The loop over chunks (scalar_born.py:815-917). *)
Definition n_fwd_driver (v scatter : arr K) (vis : list (list Z * pt)) (vrg srg : bool) (step_ratio : Z)
    (f fsc : Z -> list K) (nt : Z) (callback : option Z) (m : nmem) : option nmem :=
  if (nt <=? 0)%Z then Some m else
  let n := (nt / step_ratio)%Z in
  let cf := match callback with Some c => c | None => n end in
  if (cf =? 0)%Z then None
  else Some (fold_left (n_fwd_chunk v scatter vis vrg srg step_ratio f fsc n cf) (range_up n cf) m).

(** PML widths. *)
Variable pw : nat -> Z * Z.

(** Initial memory (scalar_born.py:745-796); [receiver_amplitudes] are zeros. *)
Definition n_fwd_init (w0 wsc0 : Z -> arr K) (u usc : st K) : nmem :=
  mknmem (fwd_init K P pw w0 u) (fwd_init K (withrec P recsc) pw wsc0 usc).

Definition crop_st (m : cmem K) : st K :=
  mkst K (crop K P (m_wfc K m)) (crop K P (m_wfp K m))
       (fun d => crop K P (m_psi K m d)) (fun d => crop K P (m_zeta K m d)).

(** What [ScalarBornForwardFunc.forward] returns, and the snapshots it keeps. *)
Record born_out := mkborn_out {
  bo_u : st K; bo_usc : st K;
  bo_r : Z -> list K; bo_rsc : Z -> list K;
  bo_w : Z -> arr K; bo_wsc : Z -> arr K
}.

(** [ScalarBornForwardFunc.forward] (scalar_born.py:598-937). *)
Definition born_forward (v scatter : arr K) (vis : list (list Z * pt)) (vrg srg : bool) (sr : Z)
    (f fsc : Z -> list K) (nt : Z) (cb : option Z) (w0 wsc0 : Z -> arr K) (u usc : st K)
    : option born_out :=
  match n_fwd_driver v scatter vis vrg srg sr f fsc nt cb (n_fwd_init w0 wsc0 u usc) with
  | None => None
  | Some m => Some (mkborn_out (crop_st (n_bg m)) (crop_st (n_sc m))
                       (m_r K (n_bg m)) (m_r K (n_sc m)) (m_store K (n_bg m)) (m_store K (n_sc m)))
  end.

(** ** Compiled backward kernel *)

(** [h_bg]: background gradients, [grad_f], [grad_v]; [h_sc]: scattered gradients,
    [grad_fsc], [grad_scatter]. *)
Record hmem := mkhmem { h_bg : bmem K; h_sc : bmem K }.

(** Contribution of one dimension (scalar_born.c:886-954, macros 92-168). *)
Definition h_bwd_dim (v scatter : arr K) (reg : list Z) (p : pt) (acc : K * K * hmem) (d : nat)
    : K * K * hmem :=
  let '(w_sum, wsc_sum, m) := acc in
  let i := idx shape p in
  let s := stride shape d in
  let y := coord d p in
  let a := p_a P d y in
  let B := fun k => p_b P d (y + k)%Z in
  let WFC := fun k => g_wfc K (h_bg m) (i + k * s)%Z in
  let WFCSC := fun k => g_wfc K (h_sc m) (i + k * s)%Z in
  let V := fun k => v (i + k * s)%Z in
  let SCATTER := fun k => scatter (i + k * s)%Z in
  let VDT2 := fun k => V k * p_dt2 P in
  let V2DT2 := fun k => V k * V k * p_dt2 P in
  let V2DT2_WFC := fun k => V2DT2 k * WFC k + two * VDT2 k * SCATTER k * WFCSC k in
  let V2DT2_WFCSC := fun k => V2DT2 k * WFCSC k in
  let ZETA := fun k => g_zeta K (h_bg m) d (i + k * s)%Z in
  let ZETASC := fun k => g_zeta K (h_sc m) d (i + k * s)%Z in
  let PSI := fun k => g_psi K (h_bg m) d (i + k * s)%Z in
  let PSISC := fun k => g_psi K (h_sc m) d (i + k * s)%Z in
  let PSI_TERM := fun k => (1 + B k) * V2DT2_WFC k + B k * ZETA k in
  let PSISC_TERM := fun k => (1 + B k) * V2DT2_WFCSC k + B k * ZETASC k in
  let UT_TERM1 := fun k =>
    p_db P d (y + k)%Z * ((1 + B k) * V2DT2_WFC k + B k * ZETA k) + B k * PSI k in
  let UTSC_TERM1 := fun k =>
    p_db P d (y + k)%Z * ((1 + B k) * V2DT2_WFCSC k + B k * ZETASC k) + B k * PSISC k in
  let UT_TERM2 := fun k => (1 + B k) * ((1 + B k) * V2DT2_WFC k + B k * ZETA k) in
  let UTSC_TERM2 := fun k => (1 + B k) * ((1 + B k) * V2DT2_WFCSC k + B k * ZETASC k) in
  let D1 := DIFF1 (p_acc P) (p_rd P d) in
  let D2 := DIFF2 (p_acc P) (p_rd2 P d) in
  if (nth d reg 0%Z =? 1)%Z
  then (w_sum + D2 V2DT2_WFC, wsc_sum + D2 V2DT2_WFCSC, m)
  else
    (w_sum + (- D1 UT_TERM1 + D2 UT_TERM2), wsc_sum + (- D1 UTSC_TERM1 + D2 UTSC_TERM2),
     mkhmem
       (mkbmem K (g_wfc K (h_bg m)) (g_wfp K (h_bg m)) (g_psi K (h_bg m))
          (updd (g_psin K (h_bg m)) d
             (upd (g_psin K (h_bg m) d) i ((- a) * D1 PSI_TERM + a * g_psi K (h_bg m) d i)))
          (g_zeta K (h_bg m))
          (updd (g_zetan K (h_bg m)) d
             (upd (g_zetan K (h_bg m) d) i
                (a * V2DT2 0%Z * g_wfc K (h_bg m) i
                 + a * two * VDT2 0%Z * scatter i * g_wfc K (h_sc m) i
                 + a * g_zeta K (h_bg m) d i)))
          (g_f K (h_bg m)) (g_v K (h_bg m)))
       (mkbmem K (g_wfc K (h_sc m)) (g_wfp K (h_sc m)) (g_psi K (h_sc m))
          (updd (g_psin K (h_sc m)) d
             (upd (g_psin K (h_sc m) d) i ((- a) * D1 PSISC_TERM + a * g_psi K (h_sc m) d i)))
          (g_zeta K (h_sc m))
          (updd (g_zetan K (h_sc m)) d
             (upd (g_zetan K (h_sc m) d) i
                (a * V2DT2 0%Z * g_wfc K (h_sc m) i + a * g_zeta K (h_sc m) d i)))
          (g_f K (h_sc m)) (g_v K (h_sc m)))).

(** One cell (scalar_born.c:877-974).  [stv], [sts] = [v_requires_grad_t],
    [scatter_requires_grad_t]. *)
Definition h_bwd_cell (v scatter : arr K) (w wsc : Z -> arr K) (stv sts : bool) (step_ratio si : Z)
    (m : hmem) (rp : list Z * pt) : hmem :=
  let '(reg, p) := rp in
  let i := idx shape p in
  let '(w_sum, wsc_sum, m1) := fold_left (h_bwd_dim v scatter reg p) (dims K P) (0, 0, m) in
  let bg := h_bg m1 in
  let sc := h_sc m1 in
  mkhmem
    (mkbmem K (g_wfc K bg) (upd (g_wfp K bg) i (w_sum + two * g_wfc K bg i - g_wfp K bg i))
       (g_psi K bg) (g_psin K bg) (g_zeta K bg) (g_zetan K bg) (g_f K bg)
       (if stv
        then upd (g_v K bg) i
               (g_v K bg i
                + (g_wfc K bg i * two * v i * p_dt2 P * w si i * ofZ K step_ratio
                   + g_wfc K sc i * (two * p_dt2 P * scatter i * w si i + two * v i * p_dt2 P * wsc si i)
                     * ofZ K step_ratio))
        else g_v K bg))
    (mkbmem K (g_wfc K sc) (upd (g_wfp K sc) i (wsc_sum + two * g_wfc K sc i - g_wfp K sc i))
       (g_psi K sc) (g_psin K sc) (g_zeta K sc) (g_zetan K sc) (g_f K sc)
       (if sts
        then upd (g_v K sc) i
               (g_v K sc i + g_wfc K sc i * two * v i * p_dt2 P * w si i * ofZ K step_ratio)
        else g_v K sc)).

(** One time step (scalar_born.c:795-975). *)
Definition h_bwd_body (v scatter : arr K) (vis : list (list Z * pt)) (w wsc : Z -> arr K)
    (vrg srg : bool) (step_ratio : Z) (gr grsc : Z -> list K) (t : Z) (m : hmem) : hmem :=
  let stv := vrg && (t mod step_ratio =? 0)%Z in
  let sts := srg && (t mod step_ratio =? 0)%Z in
  let m1 := fold_left (h_bwd_cell v scatter w wsc stv sts step_ratio (t / step_ratio)%Z) vis m in
  let bg := h_bg m1 in
  let sc := h_sc m1 in
  mkhmem
    (mkbmem K (g_wfc K bg) (add_to_wavefield K (g_wfp K bg) (p_rec P) (gr t))
       (g_psi K bg) (g_psin K bg) (g_zeta K bg) (g_zetan K bg)
       (fun u => if (u =? t)%Z then record_from_wavefield K (g_wfc K bg) (p_src P) (g_f K bg t)
                 else g_f K bg u)
       (g_v K bg))
    (mkbmem K (g_wfc K sc) (add_to_wavefield K (g_wfp K sc) recsc (grsc t))
       (g_psi K sc) (g_psin K sc) (g_zeta K sc) (g_zetan K sc)
       (fun u => if (u =? t)%Z then record_from_wavefield K (g_wfc K sc) (p_src P) (g_f K sc t)
                 else g_f K sc u)
       (g_v K sc)).

Definition h_swap (m : hmem) : hmem := mkhmem (b_swap K (h_bg m)) (b_swap K (h_sc m)).

Definition h_bwd_t (v scatter : arr K) (vis : list (list Z * pt)) (w wsc : Z -> arr K)
    (vrg srg : bool) (step_ratio : Z) (gr grsc : Z -> list K) (start_t : Z) (m : hmem) (t : Z) : hmem :=
  if Z.odd (start_t - 1 - t)
  then h_swap (h_bwd_body v scatter vis w wsc vrg srg step_ratio gr grsc t (h_swap m))
  else h_bwd_body v scatter vis w wsc vrg srg step_ratio gr grsc t m.

(** [FUNC(backward)] for one shot (scalar_born.c:723-980). *)
Definition h_backward (v scatter : arr K) (vis : list (list Z * pt)) (w wsc : Z -> arr K)
    (vrg srg : bool) (step_ratio : Z) (gr grsc : Z -> list K) (nt start_t : Z) (m : hmem) : hmem :=
  fold_left (h_bwd_t v scatter vis w wsc vrg srg step_ratio gr grsc start_t)
            (rev (zrange (start_t - nt) start_t)) m.

(** One chunk (scalar_born.py:1167-1265). *)
Definition h_bwd_chunk (v scatter : arr K) (vis : list (list Z * pt)) (w wsc : Z -> arr K)
    (vrg srg : bool) (step_ratio : Z) (gr grsc : Z -> list K) (cf : Z) (m : hmem) (s : Z) : hmem :=
  let step_nt := Z.min s cf in
  let m' := h_backward v scatter vis w wsc vrg srg step_ratio gr grsc (step_nt * step_ratio)
                       (s * step_ratio) m in
  if ((step_nt * step_ratio) mod 2 =? 0)%Z then m' else h_swap m'.

Definition h_neg (m : hmem) : hmem := mkhmem (neg_wfp K (h_bg m)) (neg_wfp K (h_sc m)).

(** The loop, with both [wfp] negated before and after (scalar_born.py:1156-1265, 1375-1381). *)
Definition h_bwd_driver (v scatter : arr K) (vis : list (list Z * pt)) (w wsc : Z -> arr K)
    (vrg srg : bool) (step_ratio : Z) (gr grsc : Z -> list K) (nt : Z) (callback : option Z) (m : hmem)
    : option hmem :=
  if (nt <=? 0)%Z then Some (h_neg (h_neg m)) else
  let n := (nt / step_ratio)%Z in
  let cf := match callback with Some c => c | None => n end in
  if (cf =? 0)%Z then None
  else Some (h_neg (fold_left (h_bwd_chunk v scatter vis w wsc vrg srg step_ratio gr grsc cf)
                              (range_down n cf) (h_neg m))).

Definition crop_bst (m : bmem K) : st K :=
  mkst K (crop K P (g_wfc K m)) (crop K P (g_wfp K m))
       (fun d => crop K P (g_psi K m d)) (fun d => crop K P (g_zeta K m d)).

(** Gradients returned: of the wavefields, the source amplitudes, the models. *)
Record born_grad := mkborn_grad {
  bg_u : st K; bg_usc : st K;
  bg_f : Z -> list K; bg_fsc : Z -> list K;
  bg_v : arr K; bg_scatter : arr K
}.

(** [ScalarBornForwardFunc.backward] with [non_sc] (scalar_born.py:941-1404). *)
Definition born_backward (v scatter : arr K) (vis : list (list Z * pt)) (w wsc : Z -> arr K)
    (vrg srg : bool) (sr : Z) (gr grsc : Z -> list K) (nt : Z) (cb : option Z) (g gsc : st K)
    : option born_grad :=
  match h_bwd_driver v scatter vis w wsc vrg srg sr gr grsc nt cb
          (mkhmem (bwd_init K P pw g) (bwd_init K P pw gsc)) with
  | None => None
  | Some m => Some (mkborn_grad (crop_bst (h_bg m)) (crop_bst (h_sc m))
                       (g_f K (h_bg m)) (g_f K (h_sc m)) (g_v K (h_bg m)) (g_v K (h_sc m)))
  end.

(** ** Compiled backward kernel for scattered quantities only *)

(** scalar_born.c:1200-1255. *)
Definition sc_bwd_dim (v : arr K) (reg : list Z) (p : pt) (acc : K * bmem K) (d : nat) : K * bmem K :=
  let '(wsc_sum, m) := acc in
  let i := idx shape p in
  let s := stride shape d in
  let y := coord d p in
  let a := p_a P d y in
  let B := fun k => p_b P d (y + k)%Z in
  let WFCSC := fun k => g_wfc K m (i + k * s)%Z in
  let V := fun k => v (i + k * s)%Z in
  let V2DT2 := fun k => V k * V k * p_dt2 P in
  let V2DT2_WFCSC := fun k => V2DT2 k * WFCSC k in
  let ZETASC := fun k => g_zeta K m d (i + k * s)%Z in
  let PSISC := fun k => g_psi K m d (i + k * s)%Z in
  let PSISC_TERM := fun k => (1 + B k) * V2DT2_WFCSC k + B k * ZETASC k in
  let UTSC_TERM1 := fun k =>
    p_db P d (y + k)%Z * ((1 + B k) * V2DT2_WFCSC k + B k * ZETASC k) + B k * PSISC k in
  let UTSC_TERM2 := fun k => (1 + B k) * ((1 + B k) * V2DT2_WFCSC k + B k * ZETASC k) in
  let D1 := DIFF1 (p_acc P) (p_rd P d) in
  let D2 := DIFF2 (p_acc P) (p_rd2 P d) in
  if (nth d reg 0%Z =? 1)%Z
  then (wsc_sum + D2 V2DT2_WFCSC, m)
  else
    (wsc_sum + (- D1 UTSC_TERM1 + D2 UTSC_TERM2),
     mkbmem K (g_wfc K m) (g_wfp K m) (g_psi K m)
       (updd (g_psin K m) d (upd (g_psin K m d) i ((- a) * D1 PSISC_TERM + a * g_psi K m d i)))
       (g_zeta K m)
       (updd (g_zetan K m) d
          (upd (g_zetan K m d) i (a * V2DT2 0%Z * g_wfc K m i + a * g_zeta K m d i)))
       (g_f K m) (g_v K m)).

(** scalar_born.c:1190-1264. *)
Definition sc_bwd_cell (v : arr K) (w : Z -> arr K) (sts : bool) (step_ratio si : Z) (m : bmem K)
    (rp : list Z * pt) : bmem K :=
  let '(reg, p) := rp in
  let i := idx shape p in
  let '(wsc_sum, m1) := fold_left (sc_bwd_dim v reg p) (dims K P) (0, m) in
  mkbmem K (g_wfc K m1) (upd (g_wfp K m1) i (wsc_sum + two * g_wfc K m1 i - g_wfp K m1 i))
    (g_psi K m1) (g_psin K m1) (g_zeta K m1) (g_zetan K m1) (g_f K m1)
    (if sts
     then upd (g_v K m1) i (g_v K m1 i + g_wfc K m1 i * two * v i * p_dt2 P * w si i * ofZ K step_ratio)
     else g_v K m1).

(** scalar_born.c:1145-1275. *)
Definition sc_bwd_body (v : arr K) (vis : list (list Z * pt)) (w : Z -> arr K) (srg : bool)
    (step_ratio : Z) (grsc : Z -> list K) (t : Z) (m : bmem K) : bmem K :=
  let sts := srg && (t mod step_ratio =? 0)%Z in
  let m1 := fold_left (sc_bwd_cell v w sts step_ratio (t / step_ratio)%Z) vis m in
  mkbmem K (g_wfc K m1) (add_to_wavefield K (g_wfp K m1) recsc (grsc t))
    (g_psi K m1) (g_psin K m1) (g_zeta K m1) (g_zetan K m1)
    (fun u => if (u =? t)%Z then record_from_wavefield K (g_wfc K m1) (p_src P) (g_f K m1 t)
              else g_f K m1 u)
    (g_v K m1).

Definition sc_bwd_t (v : arr K) (vis : list (list Z * pt)) (w : Z -> arr K) (srg : bool)
    (step_ratio : Z) (grsc : Z -> list K) (start_t : Z) (m : bmem K) (t : Z) : bmem K :=
  if Z.odd (start_t - 1 - t)
  then b_swap K (sc_bwd_body v vis w srg step_ratio grsc t (b_swap K m))
  else sc_bwd_body v vis w srg step_ratio grsc t m.

(** [FUNC(backward_sc)] for one shot (scalar_born.c:1121-1280). *)
Definition sc_backward (v : arr K) (vis : list (list Z * pt)) (w : Z -> arr K) (srg : bool)
    (step_ratio : Z) (grsc : Z -> list K) (nt start_t : Z) (m : bmem K) : bmem K :=
  fold_left (sc_bwd_t v vis w srg step_ratio grsc start_t) (rev (zrange (start_t - nt) start_t)) m.

(** scalar_born.py:1297-1358. *)
Definition sc_bwd_chunk (v : arr K) (vis : list (list Z * pt)) (w : Z -> arr K) (srg : bool)
    (step_ratio : Z) (grsc : Z -> list K) (cf : Z) (m : bmem K) (s : Z) : bmem K :=
  let step_nt := Z.min s cf in
  let m' := sc_backward v vis w srg step_ratio grsc (step_nt * step_ratio) (s * step_ratio) m in
  if ((step_nt * step_ratio) mod 2 =? 0)%Z then m' else b_swap K m'.

Definition sc_bwd_driver (v : arr K) (vis : list (list Z * pt)) (w : Z -> arr K) (srg : bool)
    (step_ratio : Z) (grsc : Z -> list K) (nt : Z) (callback : option Z) (m : bmem K)
    : option (bmem K) :=
  if (nt <=? 0)%Z then Some (neg_wfp K (neg_wfp K m)) else
  let n := (nt / step_ratio)%Z in
  let cf := match callback with Some c => c | None => n end in
  if (cf =? 0)%Z then None
  else Some (neg_wfp K (fold_left (sc_bwd_chunk v vis w srg step_ratio grsc cf)
                                  (range_down n cf) (neg_wfp K m))).

(** [ScalarBornForwardFunc.backward] without [non_sc] (scalar_born.py:941-1422): gradients of
    the scattered wavefields, of [source_amplitudessc] and of [scatter]. *)
Definition born_backward_sc (v : arr K) (vis : list (list Z * pt)) (w : Z -> arr K)
    (srg : bool) (sr : Z) (grsc : Z -> list K) (nt : Z) (cb : option Z) (gsc : st K)
    : option (st K * (Z -> list K) * arr K) :=
  match sc_bwd_driver v vis w srg sr grsc nt cb (bwd_init K P pw gsc) with
  | None => None
  | Some m => Some (crop_bst m, g_f K m, g_v K m)
  end.

(** ** Scaling of the source amplitudes *)

(** scalar.py:508-530 and scalar_born.py:492-505: [-amplitude * v^2 * dt^2], the model being
    gathered at element 0 for ignored sources. *)
Definition scale_amps (v : arr K) (src : list Z) (amps : list K) : list K :=
  map (fun la => - snd la * (v (py_masked (fst la)) * v (py_masked (fst la))) * p_dt2 P)
      (combine src amps).

(** scalar_born.py:506-526: [-2 * amplitude * v * scatter * dt^2]. *)
Definition scale_amps_sc (v scatter : arr K) (src : list Z) (amps : list K) : list K :=
  map (fun la => (- two) * snd la * v (py_masked (fst la)) * scatter (py_masked (fst la)) * p_dt2 P)
      (combine src amps).

(** ** Python backend *)

(** scalar_born.py:1425-1502 [_forward_step] on whole arrays. *)
Definition py_born_step (v scatter : field K) (s ssc : st K) : st K * st K :=
  (mkst K (fun p => v p * v p * p_dt2 P * py_wsum K P s p + two * s_wfc K s p - s_wfp K s p)
     (s_wfc K s)
     (fun d p => pb K P d p * py_diff1 K P d (s_wfc K s) p + pa K P d p * s_psi K s d p)
     (fun d p => pb K P d p * py_tmp K P (s_wfc K s) (s_psi K s d) d p + pa K P d p * s_zeta K s d p),
   mkst K (fun p => v p * v p * p_dt2 P * py_wsum K P ssc p + two * s_wfc K ssc p - s_wfp K ssc p
                    + two * v p * scatter p * p_dt2 P * py_wsum K P s p)
     (s_wfc K ssc)
     (fun d p => pb K P d p * py_diff1 K P d (s_wfc K ssc) p + pa K P d p * s_psi K ssc d p)
     (fun d p => pb K P d p * py_tmp K P (s_wfc K ssc) (s_psi K ssc d) d p + pa K P d p * s_zeta K ssc d p)).

(** Time loop of [scalar_born_python] (scalar_born.py:1662-1711): record, step, add sources. *)
Fixpoint py_born_run (v scatter : field K) (f fsc : Z -> list K) (n : nat) (t : Z) (s ssc : st K)
    : (st K * st K) * list (list K * list K) :=
  match n with
  | O => ((s, ssc), [])
  | S n' =>
      let r := py_gather K P (p_rec P) (s_wfc K s) in
      let rsc := py_gather K P recsc (s_wfc K ssc) in
      let '(s1, ssc1) := py_born_step v scatter s ssc in
      let s2 := mkst K (py_scatter_add K P (p_src P) (f t) (s_wfc K s1)) (s_wfp K s1) (s_psi K s1) (s_zeta K s1) in
      let ssc2 := mkst K (py_scatter_add K P (p_src P) (fsc t) (s_wfc K ssc1)) (s_wfp K ssc1) (s_psi K ssc1) (s_zeta K ssc1) in
      let '(s', rs) := py_born_run v scatter f fsc n' (t + 1)%Z s2 ssc2 in
      (s', (r, rsc) :: rs)
  end.

End Born.
