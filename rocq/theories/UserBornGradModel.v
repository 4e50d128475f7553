(** * Gradients through [scalar_born] with respect to the scattering potential: what the backward pass gives the user.

    As [UserGradModel.v]; the kernel's part is [born_backward_sc] (BornModel.v).  Only the scattering potential needs a gradient. *)
From Coq Require Import List ZArith QArith Reals Lia Bool.
From Verif Require Import Ops Sums Grid Stencil StencilOrder ScalarModel ScalarRefine ScalarFunc ScalarApi ScalarPhys GeomModel Geom Geom2 SetupModel RealModel Resample BornModel UserModel UserStagModel UserBornModel.
Import ListNotations.
Local Open Scope Z_scope.

(** The same call with another scattering potential. *)
Definition with_scatter (c : ncall) (m : tens R) : ncall := mkncall (n_v c) m (n_amps c) (n_src c) (n_bgrec c) (n_rec c) (n_opts c).
(** The gradient of the receiver data of the scattered wavefield with the time moved first (common.py:661-698; a step ratio of one: no resampling). *)
Definition born_data_back (s : setup) (b : nat) (g : nat -> nat -> R) (t : Z) : list R := map (fun j => g j (Z.to_nat t)) (seq 0 (length (kind_row (su_rec s) 1 b))).
(** The backward pass of shot [b] (scalar_born.py:941-1424) with the snapshots of [B].  As only the scattering potential needs a gradient, and with it the
    scaled amplitudes of the scattered wavefield, [non_sc] is false (scalar_born.py:744-748) and the kernel without the background is called
    (scalar_born.py:1299-1340). *)
Definition born_back (s : setup) (b : nat) (vis : list (list Z * pt)) (B : born_out R_ops) (g : nat -> nat -> R) : option (st R_ops * (Z -> list R) * arr R_ops) :=
  born_backward_sc R_ops (born_par s b) (born_recsc s b) (pw_of (su_pw s)) (kind_model s 0 b) vis (bo_w R_ops B) true
    (su_ratio s * su_interval s) (born_data_back s b g) (su_nt s) None (zero_st R_ops).
(** The gradient of the padded scattering potential in cell [i]: the kernel's [gs], and that of the scaling of the amplitudes by the potential at the
    source (scalar_born.py:511-531), whose gradients [gf] are those of the scaled amplitudes of the scattered wavefield. *)
Definition spad_grad (s : setup) (b : nat) (gf : Z -> list R) (gs : arr R_ops) (i : Z) : R :=
  (gs i + sumf (K := R_ops) (zrange 0 (su_nt s)) (fun t => sumf (K := R_ops) (seq 0 (length (kind_row (su_src s) 1 b))) (fun k =>
     if py_masked (nth k (kind_row (su_src s) 1 b) IGNORE) =? i
     then nth k (gf t) 0 * (- 2 * nth k (kind_amps s 1 b t) 0 * kind_model s 0 b i * su_dt s ^ 2) else 0)))%R.
(** The cell of the user's scattering potential that is copied to cell [i] of the padded one of shot [b] (common.py:2012-2087,
    scalar_born.py:517-529); none: it is padding and zero. *)
Definition scell_of (c : ncall) (nd : nat) (s : setup) (b : nat) (i : Z) : option pt :=
  let p := under (su_ext s) (sum_pad (repeat (o_accuracy (n_opts c) / 2) (2 * nd)) (su_pw s)) (unidx (su_shape s) i) in
  if inb (su_ext s) p then
    Some (if (length (t_shape (n_scatter c)) =? nd)%nat then p else (if hd 0 (t_shape (n_scatter c)) =? 1 then 0 else Z.of_nat b) :: p)
  else None.
(** The gradient of the user's scattering potential in cell [x]: those of its copies, added; [gf], [gs]: of all shots. *)
Definition s_grad (c : ncall) (nd : nat) (s : setup) (gf : nat -> Z -> list R) (gs : nat -> arr R_ops) (x : pt) : R :=
  sumf (K := R_ops) (seq 0 (Z.to_nat (su_nb s))) (fun b => sumf (K := R_ops) (zrange 0 (prodZ (su_shape s))) (fun i =>
    match scell_of c nd s b i with Some y => if pt_eq_dec y x then spad_grad s b (gf b) (gs b) i else 0%R | None => 0%R end)).
