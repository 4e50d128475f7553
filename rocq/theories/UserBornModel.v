(** * The function [scalar_born], from the user's arguments to the kernel and back.

    As [UserModel.v]: exact reals, a raised Python exception is [None]; no initial wavefields and callbacks; device, dtype and
    Python type checks and warnings are not modelled, nor the determination of the number of dimensions ([nd] is given). *)
From Coq Require Import List ZArith QArith Reals Lra Lia Bool.
From Verif Require Import Ops Grid Stencil StencilOrder ScalarModel ScalarFunc ScalarApi ScalarPhys GeomModel SetupModel RealModel Resample BornModel UserModel UserStagModel.
Import ListNotations.
Local Open Scope Z_scope.

(** A call of [setup_propagator] with the [fd_pad] of the regular grid (scalar_born.py:440); [nw]: the number of wavefields. *)
Definition reg_setup (models : list (tens R)) (modes : list pad_mode) (o : opts) (amps : list (option (tens R))) (src rec : list (option loct)) (vmin vmax : R) (nw nd : nat) : option setup :=
  setup_propagator models modes (o_gs o) (o_dt o) amps src rec (o_accuracy o) (repeat (o_accuracy o / 2) (2 * nd)) (o_pw o) (o_freq o) (o_max_vel o)
    vmin vmax (o_sp o) (repeat None nw) None (o_nt o) (o_interval o) (o_ft o) (o_tp o) (o_taper o) nd.

(** The arguments of [scalar_born] (scalar_born.py:146-203). *)
Record ncall := mkncall { n_v : tens R; n_scatter : tens R; n_amps : option (tens R); n_src : option loct; n_bgrec : option loct; n_rec : option loct; n_opts : opts }.
(** scalar_born.py:423-485: the sources are given twice; the receivers of the background come first; [scatter] is padded with zeros. *)
Definition born_setup (c : ncall) (nd : nat) : option setup :=
  let? mv := max_abs (n_v c) in
  reg_setup [n_v c; n_scatter c] [Replicate; Constant] (n_opts c) [n_amps c; n_amps c] [n_src c; n_src c] [n_bgrec c; n_rec c] (min_nonzero (n_v c)) mv (2 * (2 + 2 * nd)) nd.
(** The problem that the kernel is given for shot [b] (scalar_born.py:495-565).  The kernel uses the locations of the first copy of the sources
    for both wavefields (scalar_born.py:605-606). *)
Definition born_par (s : setup) (b : nat) : par R_ops :=
  scalar_par (su_acc s) (su_shape s) (pw_of (su_pw s)) (su_dt s) (su_gs s) (su_vel s) (su_freq s) (kind_row (su_src s) 0 b) (kind_row (su_rec s) 0 b).
Definition born_recsc (s : setup) (b : nat) : list Z := kind_row (su_rec s) 1 b.
(** The amplitudes of the background (scalar_born.py:497-510) and of the scattered wavefield (511-529). *)
Definition born_f (s : setup) (b : nat) (t : Z) : list R := scale_amps R_ops (born_par s b) (kind_model s 0 b) (kind_row (su_src s) 0 b) (kind_amps s 0 b t).
Definition born_fsc (s : setup) (b : nat) (t : Z) : list R :=
  scale_amps_sc R_ops (born_par s b) (kind_model s 0 b) (kind_model s 1 b) (kind_row (su_src s) 1 b) (kind_amps s 1 b t).
(** scalar_born.py:550-576; [nt // 0] raises. *)
Definition born_run (s : setup) (b : nat) (vis : list (list Z * pt)) (vrg srg : bool) (w0 wsc0 : Z -> arr R_ops) :=
  if su_ratio s * su_interval s =? 0 then None else
  born_forward R_ops (born_par s b) (born_recsc s b) (pw_of (su_pw s)) (kind_model s 0 b) (kind_model s 1 b) vis vrg srg (su_ratio s * su_interval s)
    (born_f s b) (born_fsc s b) (su_nt s) None w0 wsc0 (zero_st R_ops) (zero_st R_ops).
(** The receiver data returned to the user (scalar_born.py:578-594). *)
Definition born_bgdata (c : ncall) (s : setup) (b : nat) (B : born_out R_ops) : list (list R) := kind_data (n_opts c) s 0 b (bo_r R_ops B).
Definition born_data (c : ncall) (s : setup) (b : nat) (B : born_out R_ops) : list (list R) := kind_data (n_opts c) s 1 b (bo_rsc R_ops B).
