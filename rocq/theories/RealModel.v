(** * Model of the setup computations with real numbers: CFL time step, PML profiles, elastic
    parameter conversion.  Floating point is replaced by exact reals; [None] stands for a raised
    exception or an undefined quotient (NaN). *)
From Coq Require Import List ZArith Reals Lra Lia.
From Verif Require Import Ops Grid Stencil StencilOrder ScalarModel.
Import ListNotations.
Local Open Scope R_scope.

(** Division; [None] when the denominator is zero (Python raises, torch gives NaN or inf). *)
Definition rdiv (x y : R) : option R := if Req_EM_T y 0 then None else Some (x / y).

(** [math.ceil]. *)
Definition Rceil (x : R) : Z := (- Int_part (- x))%Z.

(** [sum(1 / dim_spacing**2 for dim_spacing in grid_spacing)] (common.py:2388). *)
Definition sum_inv2 (gs : list R) : R := fold_right (fun g s => 1 / (g ^ 2) + s) 0 gs.

(** [max_dt] (common.py:2386-2390). *)
Definition cfl_max_dt (gs : list R) (max_abs_vel eps c_max : R) : R :=
  c_max / sqrt (sum_inv2 gs) / (max_abs_vel ^ 2 + eps) * max_abs_vel.

(** [cfl_condition_n] (common.py:2329-2401), the warning left out.  The spacings are positive and
    not empty, the velocity is positive, else an exception; [dt / step_ratio] raises when
    [step_ratio] is zero. *)
Definition cfl_condition_n (gs : list R) (dt max_abs_vel eps c_max : R) : option (R * Z) :=
  if (length gs =? 0)%nat then None
  else if existsb (fun g => if Rle_dec g 0 then true else false) gs then None
  else if Rle_dec max_abs_vel 0 then None
  else
    let step_ratio := Rceil (Rabs dt / cfl_max_dt gs max_abs_vel eps c_max) in
    match rdiv dt (IZR step_ratio) with
    | Some inner_dt => Some (inner_dt, step_ratio)
    | None => None
    end.

(** Default arguments (common.py:2333-2334). *)
Definition cfl_eps : R := 1 / 10 ^ 15.
Definition cfl_c_max : R := 6 / 10.

(** [torch.clamp(x, min=0, max=1)]. *)
Definition clamp01 (x : R) : R := Rmin (Rmax x 0) 1.

(** [pml_frac] (common.py:2543-2551) at coordinate [x]. *)
Definition pml_frac (pw0 pw1 : Z) (ps0 ps1 x : R) : R :=
  let f0 := if (pw0 =? 0)%Z then 0 else (ps0 - x) / IZR pw0 in
  let f1 := if (pw1 =? 0)%Z then 0 else (x - ps1) / IZR pw1 in
  clamp01 (Rmax f0 f1).

(** [setup_pml] (common.py:2486-2554) at element [y] of the profile; defaults [r_val = 0.001],
    [n_power = 2]. *)
Definition setup_pml (pw0 pw1 : Z) (ps0 ps1 max_pml dt max_vel pml_freq start : R) (y : Z) : option (R * R) :=
  let alpha0 := PI * pml_freq in
  if Req_EM_T max_pml 0 then Some (0, 0)
  else
    let sigma0 := - (1 + 2) * max_vel * ln (1 / 1000) / (2 * max_pml) in
    let x := start + IZR y in
    let frac := pml_frac pw0 pw1 ps0 ps1 x in
    let sigma := sigma0 * frac ^ 2 in
    let alpha := alpha0 * (1 - frac) in
    let sigmaalpha := sigma + alpha in
    let a := exp (- sigmaalpha * Rabs dt) in
    match rdiv sigma sigmaalpha with
    | None => None
    | Some q => Some (if Req_EM_T frac 0 then 0 else a, q * (a - 1))
    end.

(** [max_pml] (regular_grid.py:56-60, staggered_grid.py:55-59): [max] of the physical widths of all
    sides, nonempty because there is at least one dimension. *)
Definition max_pml (pw : nat -> Z * Z) (gs : list R) : R :=
  let w := flat_map (fun d => [IZR (fst (pw d)) * nth d gs 0; IZR (snd (pw d)) * nth d gs 0]) (seq 0 (length gs)) in
  match w with [] => 0 | x :: l => fold_left Rmax l x end.

(** Profiles of dimension [d] (regular_grid.py:48-79, staggered_grid.py:47-90); [fd0], [fd1]:
    [fd_pad] of the two sides; [start] = 0 or 1/2. *)
Definition pml_profile (pw : nat -> Z * Z) (fd0 fd1 : Z) (dt : R) (gs : list R) (max_vel pml_freq : R)
    (shape : list Z) (start : R) (d : nat) (y : Z) : option (R * R) :=
  setup_pml (fst (pw d)) (snd (pw d))
    (IZR (fd0 + fst (pw d))) (IZR (nth d shape 0%Z - 1 - fd1 - snd (pw d)))
    (max_pml pw gs) dt max_vel pml_freq start y.

Definition prof_a (o : option (R * R)) : R := match o with Some (a, _) => a | None => 0 end.
Definition prof_b (o : option (R * R)) : R := match o with Some (_, b) => b | None => 0 end.

(** The scalar propagator's parameters from the user's numbers: [fd_pad] = [acc / 2] on every
    side, [db] by [diffx1] padded with zeros (regular_grid.py:75, 156-190), [rd] = 1/dx,
    [rd2] = 1/dx^2. *)
Definition scalar_par (ac : acc) (shape : list Z) (pw : nat -> Z * Z) (dt : R) (gs : list R)
    (max_vel pml_freq : R) (src rec : list Z) : par R_ops :=
  let prof := pml_profile pw (fd_pad ac) (fd_pad ac) dt gs max_vel pml_freq shape 0 in
  let b := fun d y => prof_b (prof d y) in
  let rd := fun d => 1 / nth d gs 1 in
  @mkpar R_ops ac shape rd (fun d => 1 / (nth d gs 1) ^ 2)
    (fun d y => prof_a (prof d y)) b
    (fun d y => if ((fd_pad ac <=? y) && (y <? nth d shape 0 - fd_pad ac))%Z%bool
                then DIFF1 (K := R_ops) ac (rd d) (fun k => b d (y + k)%Z) else 0)
    (dt ^ 2) src rec.

(** [vpvsrho_to_lambmubuoyancy] (common.py:2426-2453) and its inverse (2456-2483), per element. *)
Definition to_lamb (vp vs rho eps : R) : R * R * R :=
  ((vp ^ 2 - 2 * vs ^ 2) * rho, vs ^ 2 * rho, 1 / (rho ^ 2 + eps) * rho).
Definition to_vp (lamb mu buoyancy eps : R) : R * R * R :=
  let vs := sqrt (mu * buoyancy) in
  let vp := sqrt (lamb * buoyancy + 2 * vs ^ 2) in
  (vp, vs, 1 / (buoyancy ^ 2 + eps) * buoyancy).
