(** * Model of the preparation of parameters for the staggered propagators, with real numbers: PML profiles
    (staggered_grid.py), acoustic models (acoustic.py) and elastic parameters (elastic.py).

    Arrays are flat arrays over the padded shape.  [rfmax] is [1 / sqrt(finfo.max)], the threshold below which a
    number counts as zero; the batch dimension is left out (one shot, or a model shared by all shots). *)
From Coq Require Import List ZArith QArith Reals Lra Lia Bool.
From Verif Require Import Ops Sums Grid Stencil StencilOrder ScalarModel ScalarRefine Stag StagKernel StagRefine AcousticModel ElasticModel
  RealModel RealThm.
Import ListNotations.
Local Open Scope R_scope.

(** Parameters of a staggered propagator from the user's numbers (staggered_grid.py:14-91 with [fd_pad] =
    [[accuracy // 2, accuracy // 2 - 1] * ndim], acoustic.py:443 and elastic.py:829; [rd] = 1/dx): profiles at integer
    positions have [start=0.0] (staggered_grid.py:64-75), at half positions [start=0.5] (76-87). *)
Definition stag_par (S : sys) (ac : acc) (shape : list Z) (pw : nat -> Z * Z) (dt : R) (gs : list R)
    (max_vel pml_freq : R) (src rec : sC S -> list Z) : spar S R_ops :=
  let prof (h : bool) := pml_profile pw (fd_pad ac) (fd_pad ac - 1) dt gs max_vel pml_freq shape (if h then 1 / 2 else 0) in
  @mkspar S R_ops ac shape (fun d => 1 / nth d gs 0)
    (fun h d y => prof_a (prof h d y)) (fun h d y => prof_b (prof h d y)) src rec.

Lemma stag_par_geom S ac shape pw dt gs v freq src rec :
  length gs = length shape -> Forall (fun g => 0 < g) gs ->
  (forall d, (d < length shape)%nat -> (0 <= fst (pw d))%Z /\ (0 <= snd (pw d))%Z /\
     (fst (pw d) + snd (pw d) + 2 * fd_pad ac - 1 < nth d shape 0)%Z) ->
  dt <> 0 -> 0 < v -> 0 < freq ->
  sgeom S R_ops (stag_par S ac shape pw dt gs v freq src rec) pw.
Proof.
  intros Hl F Hw Hdt Hv Hf. split; cbn [stag_par sp_shape sp_acc sp_a sp_b].
  - intros d Hd. destruct (Hw d Hd) as (W0 & W1 & W2). split; [exact W0|]. split; [exact W1|]. lia.
  - intros h d y Hd Hy.
    destruct (pml_profile_spec pw (fd_pad ac) (fd_pad ac - 1) dt gs v freq shape h d y) as (a & b & E & _ & _ & Z & _);
      [rewrite Hl; intros; split; apply Hw; assumption|exact F|exact Hdt|exact Hv|exact Hf|rewrite Hl; exact Hd|].
    cbv zeta in E. rewrite E. cbn [prof_a prof_b]. destruct Z as [-> ->]; [destruct h; lia|]. split; reflexivity.
Qed.

Section Models.
Variable rfmax : R.
Variable shape : list Z.

Definition above_rfmax (x : R) : bool := if Rlt_dec rfmax (Rabs x) then true else false.
Definition at_pt (a : arr R_ops) (p : pt) : R := a (idx shape p).
(** [torch.where(mask, 1 / safe, 0)] with [mask = rfmax < |x|] and [safe = torch.where(mask, x, 1)]. *)
Definition safe_inv (x : R) : R := if above_rfmax x then 1 / (if above_rfmax x then x else 1) else 0.

(** Mean of neighbours along [d], padded with a zero at the end (acoustic.py:63-65, elastic.py:97-99 etc.). *)
Definition mean_next (rho : pt -> R) (d : nat) (p : pt) : R :=
  if (coord d p + 1 <? nth d shape 0)%Z then (rho p + rho (shift d 1 p)) / 2 else 0.

(** [prepare_models] (acoustic.py:37-88): bulk modulus and buoyancies. *)
Definition prepare_models (v rho : arr R_ops) (k : aM) : arr R_ops := fun i =>
  match k with
  | MK => rho i * v i ^ 2
  | MB d => safe_inv (mean_next (at_pt rho) d (unidx shape i))
  end.

(** [prepare_parameters] (elastic.py:23-123) and the removal of the buoyancy (elastic.py:915-916): [lamb] and [mu] as
    given, [mu_ij] the harmonic mean of four cells or zero, buoyancies the inverse mean densities.  The quotient
    [4 / sum] has a zero denominator only for shear moduli of both signs. *)
Definition mu_safe (mu : arr R_ops) (p : pt) : R := if above_rfmax (at_pt mu p) then at_pt mu p else 1.
Definition four (i j : nat) (p : pt) : list pt := [shift j 1 (shift i 1 p); p; shift i 1 p; shift j 1 p].
Definition mu_mean (mu : arr R_ops) (i j : nat) (p : pt) : R :=
  if ((coord i p + 1 <? nth i shape 0) && (coord j p + 1 <? nth j shape 0))%Z%bool
  then if forallb (fun q => above_rfmax (at_pt mu q)) (four i j p)
       then 4 / fold_right (fun q s => 1 / mu_safe mu q + s) 0 (four i j p) else 0
  else 0.
Definition prepare_parameters (lamb mu buoyancy : arr R_ops) (k : eM) : arr R_ops := fun i =>
  match k with
  | ML => lamb i
  | MMU => mu i
  | MS a b => mu_mean mu a b (unidx shape i)
  | EB d => safe_inv (mean_next (fun p => safe_inv (at_pt buoyancy p)) d (unidx shape i))
  end.
End Models.
