(** * Model of the double backward pass of the scalar propagator (one shot). *)
From Coq Require Import List ZArith QArith Lia Bool.
From Verif Require Import Ops Sums Grid Stencil ScalarModel ScalarFunc BornModel.
Import ListNotations.
Local Open Scope K_scope.

Section Double.
Variable K : ops.
Variable P : par K.
Variable pw : nat -> Z * Z.

(** The background wavefield is not recorded, the scattered one is recorded at the receivers
    (scalar.py:1443-1456). *)
Definition db_par : par K := withrec P [].

(** Zero wavefields (scalar.py:1645-1680: [create_or_pad] of empty tensors). *)
Definition zero_st : st K := mkst K (fun _ => 0) (fun _ => 0) (fun _ _ => 0) (fun _ _ => 0).

(** Returned second derivatives: with respect to [grad_r], the upstream wavefield gradients, [v],
    the source amplitudes and the initial wavefields; and the two snapshot buffers. *)
Record dbl := mkdbl {
  db_r : Z -> list K; db_g : st K; db_v : arr K; db_f : Z -> list K; db_u : st K;
  db_w : Z -> arr K; db_wsc : Z -> arr K
}.

(** First half (scalar.py:1458-1631): one call of the Born forward kernel for all [nt] steps
    with [scatter = ggv]; buffers exchanged when [nt] is odd (scalar.py:1818-1879). *)
Definition db_forward (v ggv : arr K) (vis : list (list Z * pt)) (vrg : bool) (sr : Z)
    (f ggf : Z -> list K) (nt : Z) (w0 wsc0 : Z -> arr K) (u ggu : st K) : nmem K :=
  let m0 := n_fwd_init K db_par (p_rec P) pw w0 wsc0 u ggu in
  let m1 := if (nt <=? 0)%Z then m0
            else n_forward K db_par (p_rec P) v ggv vis vrg false sr f ggf nt 0 m0 in
  if (nt mod 2 =? 0)%Z then m1 else n_swap K m1.

(** Second half (scalar.py:1633-1816): one call of the Born backward kernel for all [nt] steps,
    zero background gradients, scattered gradients = the upstream gradients of the first
    backward pass.  Simplification: both previous-step gradients are negated, the code negates
    the scattered one only (the background one is zero). *)
Definition db_backward (v ggv : arr K) (vis : list (list Z * pt)) (w wsc : Z -> arr K) (vrg : bool) (sr : Z)
    (gr : Z -> list K) (nt : Z) (g : st K) : hmem K :=
  let m0 := h_neg K (mkhmem K (bwd_init K db_par pw zero_st) (bwd_init K db_par pw g)) in
  let m1 := if (nt <=? 0)%Z || negb vrg then m0
            else h_backward K db_par (p_rec P) v ggv vis w wsc vrg false sr (fun _ => []) gr nt nt m0 in
  h_neg K (if (nt mod 2 =? 0)%Z then m1 else h_swap K m1).

(** [ScalarBackwardFunc.backward] (scalar.py:1346-1879).  [vrg] = [v.requires_grad] (snapshots
    are kept, i.e. [storage_mode] is not "none"). *)
Definition scalar_double_backward (v ggv : arr K) (visF visB : list (list Z * pt)) (vrg : bool) (sr : Z)
    (f ggf : Z -> list K) (nt : Z) (w0 wsc0 : Z -> arr K) (u ggu : st K) (gr : Z -> list K) (g : st K) : dbl :=
  let m := db_forward v ggv visF vrg sr f ggf nt w0 wsc0 u ggu in
  let w := m_store K (n_bg K m) in
  let wsc := m_store K (n_sc K m) in
  let h := db_backward v ggv visB w wsc vrg sr gr nt g in
  mkdbl (m_r K (n_sc K m)) (crop_st K db_par (n_sc K m)) (g_v K (h_bg K h)) (g_f K (h_bg K h))
        (crop_bst K db_par (h_bg K h)) w wsc.

End Double.
