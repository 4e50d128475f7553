(** * The function [scalar] of [UserModel] with the tensors on a CUDA device: all shots in one batch. *)
From Coq Require Import List ZArith QArith Reals Lia Bool.
From Verif Require Import Ops Sums Grid Stencil StencilOrder ScalarModel ScalarRefine ScalarFunc ScalarApi ScalarPhys GeomModel SetupModel RealModel Resample UserModel Threads GpuModel.
Import ListNotations.
Local Open Scope Z_scope.

(** [sources_i], [receivers_i] in memory: the rows of the shots one after the other (common.py:2188-2245). *)
Definition flat_locs (l : list (list (list Z))) (j : Z) : Z := nth (Z.to_nat j) (concat (nth 0 l [])) IGNORE.
(** [n_sources_per_shot], [n_receivers_per_shot] (scalar.py:689-690): [numel // n_shots]. *)
Definition per_shot (l : list (list (list Z))) (nb : Z) : Z := Z.of_nat (length (concat (nth 0 l []))) / nb.
(** The wavespeed in memory: row-major, the batch dimension first (scalar.py:489-506). *)
Definition dev_model (s : setup) : arr R_ops := fun i =>
  let m := nth 0 (su_models s) (mktens [] (fun _ => 0%R)) in t_at m (unidx (t_shape m) i).
(** [v_batched] (scalar.py:797); after the extraction the model always has a batch dimension. *)
Definition v_batched (s : setup) : bool := 1 <? hd 0 (t_shape (nth 0 (su_models s) (mktens [] (fun _ => 0%R)))).
(** The scaled amplitudes in memory at step [t]: those of a shot (scalar.py:508-530) after those of the previous one. *)
Definition dev_amps (s : setup) (t : Z) : arr R_ops := fun i =>
  let n := per_shot (su_src s) (su_nb s) in nth (Z.to_nat (i mod n)) (shot_amps s (Z.to_nat (i / n)) t) 0%R.
(** The scalars and profiles that all shots share (scalar.py:532-566). *)
Definition dev_par (s : setup) : par R_ops :=
  scalar_par (su_acc s) (su_shape s) (pw_of (su_pw s)) (su_dt s) (su_gs s) (su_vel s) (su_freq s) [] [].
(** The possible results of the call of [ScalarForwardFunc] (scalar.py:548-573); [vrg]: the wavespeed requires a gradient, [store]: what is in
    the memory of the snapshots. *)
Definition dev_run (s : setup) (vrg : bool) (store : Z -> arr R_ops) (out : (Z -> st R_ops) * (Z -> arr R_ops) * (Z -> arr R_ops)) : Prop :=
  su_ratio s * su_interval s <> 0 /\
  gpu_forward R_ops (dev_par s) (su_nb s) (per_shot (su_src s) (su_nb s)) (per_shot (su_rec s) (su_nb s)) (flat_locs (su_src s)) (flat_locs (su_rec s))
    (v_batched s) (pw_of (su_pw s)) (dev_model s) vrg (su_ratio s * su_interval s) (dev_amps s) (su_nt s) None store (fun _ => zero_st R_ops) out.
(** The receiver data that the user gets for shot [b] (scalar.py:575-581, common.py:661-698). *)
Definition dev_data (c : call) (s : setup) (b : nat) (R : Z -> arr R_ops) : list (list Rdefinitions.R) :=
  let n := per_shot (su_rec s) (su_nb s) in
  map (fun j => downsample (Z.to_nat (su_ratio s)) (su_ft s) (su_tp s) (c_taper c) 0%R
                  (map (fun t => R (Z.of_nat t) (Z.of_nat b * n + Z.of_nat j)) (seq 0 (Z.to_nat (su_nt s)))))
      (seq 0 (Z.to_nat n)).
