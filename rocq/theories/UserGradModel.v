(** * Gradients through [scalar]: what the backward pass gives the user.

    The kernel's part is [scalar_backward] (ScalarModel.v); the rest is PyTorch differentiating the Python code of [scalar]. *)
From Coq Require Import List ZArith QArith Reals Lia Bool.
From Verif Require Import Ops Sums Grid Stencil StencilOrder ScalarModel ScalarRefine ScalarFunc ScalarApi ScalarPhys GeomModel Geom Geom2 SetupModel RealModel Resample UserModel.
Import ListNotations.
Local Open Scope Z_scope.

(** The same call with another wavespeed and other source amplitudes. *)
Definition with_inputs (c : call) (v a : tens R) : call :=
  mkcall v (c_gs c) (c_dt c) (Some a) (c_src c) (c_rec c) (c_accuracy c) (c_pw c) (c_freq c) (c_max_vel c) (c_sp c) (c_nt c)
    (c_interval c) (c_ft c) (c_tp c) (c_taper c).

(** The gradient of the receiver data with the time moved first (common.py:661-698; a step ratio of one: no resampling). *)
Definition data_back (s : setup) (b : nat) (g : nat -> nat -> R) (t : Z) : list R := map (fun j => g j (Z.to_nat t)) (seq 0 (length (shot_row (su_rec s) b))).
(** [ScalarBackwardFunc] for shot [b] (scalar.py:937-1014, 1026-1343); [S]: the snapshots. *)
Definition shot_back (s : setup) (b : nat) (vis : list (list Z * pt)) (S : Z -> arr R_ops) (g : nat -> nat -> R) :=
  scalar_backward R_ops (shot_par s b) (pw_of (su_pw s)) (shot_model s b) vis S true (su_ratio s * su_interval s) (data_back s b g) (su_nt s) None (zero_st R_ops).
(** The resampled amplitude of source [k] of shot [b] at step [t], before the scaling. *)
Definition raw_amp (s : setup) (b k : nat) (t : Z) : R := t_at (nth 0 (su_amps s) (mktens [] (fun _ => 0%R))) [t; Z.of_nat b; Z.of_nat k].
(** The gradient of the padded wavespeed in cell [i]: the kernel's [gv], and that of the scaling of the amplitudes by the wavespeed at the source
    (scalar.py:508-530), whose gradients [gf] are those of the scaled amplitudes. *)
Definition pad_grad (s : setup) (b : nat) (gf : Z -> list R) (gv : arr R_ops) (i : Z) : R :=
  (gv i + sumf (K := R_ops) (zrange 0 (su_nt s)) (fun t => sumf (K := R_ops) (seq 0 (length (shot_row (su_src s) b))) (fun k =>
     if py_masked (nth k (shot_row (su_src s) b) IGNORE) =? i
     then nth k (gf t) 0 * (- raw_amp s b k t * (2 * shot_model s b i) * su_dt s ^ 2) else 0)))%R.
(** The cell of the user's wavespeed that is copied to cell [i] of the padded one of shot [b] (common.py:2012-2087, scalar.py:519-525). *)
Definition cell_of (c : call) (nd : nat) (s : setup) (b : nat) (i : Z) : pt :=
  let p := nearest (su_ext s) (under (su_ext s) (sum_pad (repeat (c_accuracy c / 2) (2 * nd)) (su_pw s)) (unidx (su_shape s) i)) in
  if (length (t_shape (c_v c)) =? nd)%nat then p else (if hd 0 (t_shape (c_v c)) =? 1 then 0 else Z.of_nat b) :: p.
(** The gradient of the user's wavespeed in cell [x]: those of its copies, added; [gf], [gv]: of all shots. *)
Definition v_grad (c : call) (nd : nat) (s : setup) (gf : nat -> Z -> list R) (gv : nat -> arr R_ops) (x : pt) : R :=
  sumf (K := R_ops) (seq 0 (Z.to_nat (su_nb s))) (fun b => sumf (K := R_ops) (zrange 0 (prodZ (su_shape s))) (fun i =>
    if pt_eq_dec (cell_of c nd s b i) x then pad_grad s b (gf b) (gv b) i else 0%R)).
(** The gradient of the user's amplitude of source [k] of shot [b] at time [t] (scalar.py:508-530). *)
Definition a_grad (s : setup) (gf : nat -> Z -> list R) (b k t : nat) : R :=
  let l := py_masked (nth k (shot_row (su_src s) b) IGNORE) in (nth k (gf b (Z.of_nat t)) 0 * - (shot_model s b l * shot_model s b l) * su_dt s ^ 2)%R.
