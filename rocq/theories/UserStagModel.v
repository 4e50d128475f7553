(** * The functions [acoustic] and [elastic], from the user's arguments to the kernels and back.

    As [UserModel.v]: exact reals, a raised Python exception is [None]; no initial wavefields and callbacks; device, dtype and
    Python type checks and warnings are not modelled, nor the determination of the number of dimensions ([nd] is given). *)
From Coq Require Import List ZArith QArith Reals Lra Lia Bool.
From Verif Require Import Ops Grid Stencil StencilOrder ScalarModel GeomModel SetupModel RealModel Resample Stag StagKernel AcousticModel ElasticModel StagEqs StagSetup UserModel.
Import ListNotations.
Local Open Scope Z_scope.

(** The arguments that both functions have (acoustic.py:243-296, elastic.py:332-395). *)
Record opts := mkopts {
  o_gs : per_dim R; o_dt : R; o_accuracy : Z; o_pw : per_dim Z; o_freq : option R; o_max_vel : option R; o_sp : survey_pad; o_nt : option Z;
  o_interval : Z; o_ft : Q; o_tp : Q; o_taper : bool }.
Definition set_osp (o : opts) (sp : survey_pad) : opts :=
  mkopts (o_gs o) (o_dt o) (o_accuracy o) (o_pw o) (o_freq o) (o_max_vel o) sp (o_nt o) (o_interval o) (o_ft o) (o_tp o) (o_taper o).

(** [fd_pad] (acoustic.py:443, elastic.py:826). *)
Definition stag_fdp (accuracy : Z) (nd : nat) : list Z := concat (repeat [accuracy / 2; accuracy / 2 - 1] nd).
(** The call of [setup_propagator] (acoustic.py:496-541, elastic.py:828-873); [nw]: the number of wavefields. *)
Definition stag_setup (models : list (tens R)) (o : opts) (amps : list (option (tens R))) (src rec : list (option loct)) (vmin vmax : R) (nw nd : nat) : option setup :=
  setup_propagator models (repeat Replicate (length models)) (o_gs o) (o_dt o) amps src rec (o_accuracy o) (stag_fdp (o_accuracy o) nd) (o_pw o) (o_freq o) (o_max_vel o)
    vmin vmax (o_sp o) (repeat None nw) None (o_nt o) (o_interval o) (o_ft o) (o_tp o) (o_taper o) nd.
(** Velocities are not in the last cell of their dimension (acoustic.py:470-490, elastic.py:770-790). *)
Definition half_ok (m : tens R) (nd d : nat) (o : option loct) : bool :=
  match o with
  | None => true
  | Some l => match lmax (dim_locs d l) with Some x => x <? nth d (last_n nd (t_shape m)) 0 - 1 | None => true end
  end.

(** What the kernel is given for shot [b]: locations and amplitudes of the sources or receivers of kind [k], model [k] (of batch size one:
    expanded to all shots). *)
Definition kind_row (l : list (list (list Z))) (k b : nat) : list Z := nth b (nth k l []) [].
Definition kind_amps (s : setup) (k b : nat) (t : Z) : list R :=
  map (fun j => t_at (nth k (su_amps s) (mktens [] (fun _ => 0%R))) [t; Z.of_nat b; Z.of_nat j]) (seq 0 (length (kind_row (su_src s) k b))).
Definition kind_model (s : setup) (k b : nat) : arr R_ops := fun i =>
  let m := nth k (su_models s) (mktens [] (fun _ => 0%R)) in
  t_at m ((if hd 0 (t_shape m) =? 1 then 0 else Z.of_nat b) :: unidx (su_shape s) i).
Definition kind_par (S : sys) (pos : sC S -> nat) (s : setup) (b : nat) : spar S R_ops :=
  stag_par S (su_acc s) (su_shape s) (pw_of (su_pw s)) (su_dt s) (su_gs s) (su_vel s) (su_freq s)
    (fun c => kind_row (su_src s) (pos c) b) (fun c => kind_row (su_rec s) (pos c) b).
(** The receiver data of kind [k] returned to the user, one trace per receiver; [r]: what the kernel recorded (acoustic.py:629-636,
    elastic.py:1024-1031, common.py:661-698). *)
Definition kind_data (o : opts) (s : setup) (k b : nat) (r : Z -> list R) : list (list R) :=
  map (fun j => downsample (Z.to_nat (su_ratio s)) (su_ft s) (su_tp s) (o_taper o) 0%R
                  (map (fun t => nth j (r (Z.of_nat t)) 0%R) (seq 0 (Z.to_nat (su_nt s)))))
      (seq 0 (length (kind_row (su_rec s) k b))).
Definition zero_sst (S : sys) : sst S R_ops := @mksst S R_ops (fun _ _ => 0%R) (fun _ _ => 0%R).

(** ** [acoustic] (acoustic.py:243-643) *)
Record acall := mkacall { a_v : tens R; a_rho : tens R; a_amps : aX -> option (tens R); a_src : aX -> option loct; a_rec : aX -> option loct; a_opts : opts }.
(** Sources and receivers in the order pressure, z, y, x (acoustic.py:445-494). *)
Definition ac_pos (c : aX) : nat := match c with XP => O | XV d => Datatypes.S d end.
(** acoustic.py:405-541. *)
Definition acoustic_setup (c : acall) (nd : nat) : option setup :=
  let? mv := max_abs (a_v c) in
  if negb (forallb (fun d => half_ok (a_v c) nd d (a_src c (XV d)) && half_ok (a_v c) nd d (a_rec c (XV d)))%bool (seq 0 nd)) then None else
  stag_setup [a_v c; a_rho c] (a_opts c) (map (a_amps c) (ac_allX nd)) (map (a_src c) (ac_allX nd)) (map (a_rec c) (ac_allX nd)) (min_nonzero (a_v c)) mv (1 + 3 * nd) nd.
Definition acoustic_par (nd : nat) : setup -> nat -> spar (ac_sys nd) R_ops := kind_par (ac_sys nd) ac_pos.
(** acoustic.py:559 ([prepare_models], 37-88). *)
Definition acoustic_models (rfmax : R) (s : setup) (b : nat) : aM -> arr R_ops := prepare_models rfmax (su_shape s) (kind_model s 0 b) (kind_model s 1 b).
(** acoustic.py:561-627; [nt // 0] raises. *)
Definition acoustic_run (rfmax : R) (nd : nat) (s : setup) (b : nat) visA visB (kg bg : bool) (store : aM -> Z -> arr R_ops) :=
  if su_ratio s * su_interval s =? 0 then None else
  acoustic_forward nd R_ops (acoustic_par nd s b) (pw_of (su_pw s)) (su_dt s) (acoustic_models rfmax s b) visA visB kg bg (su_ratio s * su_interval s)
    (fun t => ac_prep (K := R_ops) (su_dt s) (acoustic_models rfmax s b) (fun c => kind_row (su_src s) (ac_pos c) b) (fun c => kind_amps s (ac_pos c) b t))
    (su_nt s) None store (zero_sst (ac_sys nd)).
Definition acoustic_data (c : acall) (s : setup) (b : nat) (R : Z -> aX -> list R) (k : aX) : list (list Rdefinitions.R) :=
  kind_data (a_opts c) s (ac_pos k) b (fun t => R t k).

(** ** [elastic] (elastic.py:332-1076) *)
Record ecall := mkecall { e_lamb : tens R; e_mu : tens R; e_buoy : tens R; e_amps : eC -> option (tens R); e_src : eC -> option loct; e_rec : eC -> option loct; e_opts : opts }.
(** Sources and receivers in the order z, y, x, pressure (elastic.py:716-794). *)
Definition el_pos (nd : nat) (c : eC) : nat := match c with CV d => d | CP => nd end.
(** The wavespeeds of all elements ([lambmubuoyancy_to_vpvsrho], elastic.py:803-808); tensors of batch size one are expanded.  Square roots of
    negative numbers (NaN in the code) are zero here. *)
Definition elastic_speeds (c : ecall) (nd : nat) : list (R * R) :=
  let batch := fun t : tens R => if (length (t_shape t) =? nd)%nat then 1 else hd 0 (t_shape t) in
  let at_ := fun (t : tens R) (p : pt) => if (length (t_shape t) =? nd)%nat then t_at t (tl p) else if hd 0 (t_shape t) =? 1 then t_at t (0 :: tl p) else t_at t p in
  map (fun p => let vs := sqrt (at_ (e_mu c) p * at_ (e_buoy c) p) in (sqrt (at_ (e_lamb c) p * at_ (e_buoy c) p + 2 * vs ^ 2), vs)%R)
      (box_pts (abox (Z.max (batch (e_lamb c)) (Z.max (batch (e_mu c)) (batch (e_buoy c))) :: last_n nd (t_shape (e_lamb c))))).
Definition max_of (l : list R) : option R := match map Rabs l with [] => None | x :: l => Some (fold_left Rmax l x) end.
Definition min_of (l : list R) : R := match map Rabs (filter (fun x => negb (req x 0)) l) with [] => 0%R | x :: l => fold_left Rmin l x end.
(** elastic.py:809-824: the smallest speed other than zero. *)
Definition min_speed (vp vs : R) : R := if req vp 0 then vs else if req vs 0 then vp else Rmin vp vs.
(** elastic.py:716-873; wavefields: [nd] velocities, [nd (nd + 1) / 2] stresses, [2 nd^2] memory variables
    (elastic.py:719-769; one of the [nd^2] of each kind per derivative). *)
Definition elastic_setup (c : ecall) (nd : nat) : option setup :=
  if negb (forallb (fun d => half_ok (e_lamb c) nd d (e_src c (CV d)) && half_ok (e_lamb c) nd d (e_rec c (CV d)))%bool (seq 0 nd)) then None else
  let? vp := max_of (map fst (elastic_speeds c nd)) in
  let? vs := max_of (map snd (elastic_speeds c nd)) in
  stag_setup [e_lamb c; e_mu c; e_buoy c] (e_opts c) (map (e_amps c) (el_allC nd)) (map (e_src c) (el_allC nd)) (map (e_rec c) (el_allC nd))
    (min_speed (min_of (map fst (elastic_speeds c nd))) (min_of (map snd (elastic_speeds c nd)))) (Rmax vp vs) (nd + nd * (nd + 1) / 2 + 2 * nd * nd) nd.
Definition elastic_par (nd : nat) : setup -> nat -> spar (el_sys nd) R_ops := kind_par (el_sys nd) (el_pos nd).
(** elastic.py:921-922 ([prepare_parameters], 23-123). *)
Definition elastic_models (rfmax : R) (s : setup) (b : nat) : eM -> arr R_ops :=
  prepare_parameters rfmax (su_shape s) (kind_model s 0 b) (kind_model s 1 b) (kind_model s 2 b).
(** elastic.py:924-1022. *)
Definition elastic_run (rfmax : R) (nd : nat) (s : setup) (b : nat) visA visB (lg mg bg : bool) (store : eQ -> Z -> arr R_ops) :=
  if su_ratio s * su_interval s =? 0 then None else
  elastic_forward nd R_ops (elastic_par nd s b) (pw_of (su_pw s)) (su_dt s) (elastic_models rfmax s b) visA visB lg mg bg (su_ratio s * su_interval s)
    (fun t => el_prep (K := R_ops) (su_dt s) (elastic_models rfmax s b) (fun c => kind_row (su_src s) (el_pos nd c) b) (fun c => kind_amps s (el_pos nd c) b t))
    (su_nt s) None store (zero_sst (el_sys nd)).
(** elastic.py:1024-1035: pressure is minus the recorded sum of the normal stresses, divided by their number, after the resampling. *)
Definition elastic_data (c : ecall) (nd : nat) (s : setup) (b : nat) (R : Z -> eC -> list R) (k : eC) : list (list Rdefinitions.R) :=
  let d := kind_data (e_opts c) s (el_pos nd k) b (fun t => R t k) in
  match k with CV _ => d | CP => map (map (fun x => - x / INR nd)%R) d end.
