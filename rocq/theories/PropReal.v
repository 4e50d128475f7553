(** * Properties C25, C29 and C35: setup computations over the real numbers. *)
From Coq Require Import List ZArith Reals Lra Lia.
From Verif Require Import Ops Sums Grid Stencil StencilOrder ScalarModel ScalarFunc RealModel RealThm.
Import ListNotations.
Local Open Scope R_scope.

(** C25: whatever the function returns satisfies the claim; [eps] only makes the chosen step smaller
    than needed by a relative [eps / v^2]. *)
Theorem C25_cfl gs dt v eps c inner ratio :
  0 <= eps -> 0 < c -> cfl_condition_n gs dt v eps c = Some (inner, ratio) ->
  gs <> [] /\ Forall (fun g => 0 < g) gs /\ 0 < v /\ dt <> 0 /\ (1 <= ratio)%Z /\
  inner * IZR ratio = dt /\ 0 < inner * dt /\
  Rabs inner <= c / (sqrt (fold_right (fun g s => 1 / (g ^ 2) + s) 0 gs) * v) /\
  (forall k : Z, (1 <= k < ratio)%Z ->
     Rabs (dt / IZR k) > c / (sqrt (fold_right (fun g s => 1 / (g ^ 2) + s) 0 gs) * v) * (1 - eps / v ^ 2)).
Proof. exact (cfl_thm gs dt v eps c inner ratio). Qed.
Print Assumptions C25_cfl.

(** It returns for every valid input with [dt <> 0] ... *)
Theorem C25_returns gs dt v eps c :
  gs <> [] -> Forall (fun g => 0 < g) gs -> 0 < v -> dt <> 0 -> 0 <= eps -> 0 < c ->
  exists inner ratio, cfl_condition_n gs dt v eps c = Some (inner, ratio).
Proof. exact (cfl_some gs dt v eps c). Qed.
Print Assumptions C25_returns.

(** ... and raises for [dt = 0]. *)
Theorem C25_zero_dt_raises gs v eps c : cfl_condition_n gs 0 v eps c = None.
Proof. exact (cfl_zero_dt gs v eps c). Qed.
Print Assumptions C25_zero_dt_raises.

(** Spacing 5, dt = 0.004, v = 2000 with the default constants: ratio 3. *)
Example C25_example : cfl_condition_n [5] (4 / 1000) 2000 cfl_eps cfl_c_max = Some (4 / 1000 / 3, 3%Z).
Proof.
  assert (He : 0 <= cfl_eps) by (unfold cfl_eps; lra). assert (Hc : 0 < cfl_c_max) by (unfold cfl_c_max; lra).
  destruct (C25_returns [5] (4 / 1000) 2000 cfl_eps cfl_c_max) as (inner & ratio & E); try assumption; try lra; try discriminate.
  { repeat constructor; lra. }
  destruct (C25_cfl _ _ _ _ _ _ _ He Hc E) as (_ & _ & _ & _ & R1 & I1 & I2 & B & M). rewrite E.
  assert (S : sqrt (fold_right (fun g s => 1 / (g ^ 2) + s) 0 [5]) = 1 / 5).
  { cbn [fold_right]. replace (1 / 5 ^ 2 + 0) with ((1 / 5) * (1 / 5)) by lra. apply sqrt_square. lra. }
  rewrite S in B, M. replace (cfl_c_max / (1 / 5 * 2000)) with (15 / 10000) in B, M by (unfold cfl_c_max; lra).
  assert (Hin : 0 < inner) by nra. rewrite Rabs_right in B by lra.
  assert (Hr : (ratio = 3)%Z).
  { assert (L : (2 < ratio)%Z) by (apply lt_IZR; nra).
    assert (U : (ratio < 4)%Z).
    { destruct (Z_lt_ge_dec ratio 4) as [|G]; [assumption|exfalso]. specialize (M 3%Z ltac:(lia)).
      rewrite Rabs_right in M by lra. unfold cfl_eps in M. lra. }
    lia. }
  subst ratio. do 2 f_equal. lra.
Qed.

(** C29: profiles of any dimension at integer ([h = false]) and half-cell ([h = true]) positions, for
    a positive PML frequency: the quotient is defined, the coefficients vanish at the positions
    outside the layers and damp inside. *)
Theorem C29_profiles_partial (pw : nat -> Z * Z) fd0 fd1 dt gs v freq shape (h : bool) d y :
  (forall d, (d < length gs)%nat -> (0 <= fst (pw d))%Z /\ (0 <= snd (pw d))%Z) -> Forall (fun g => 0 < g) gs ->
  dt <> 0 -> 0 < v -> 0 < freq -> (d < length gs)%nat ->
  let start := if h then 1 / 2 else 0 in
  exists a b, pml_profile pw fd0 fd1 dt gs v freq shape start d y = Some (a, b) /\
    0 <= a < 1 /\ -1 < b <= 0 /\
    ((fd0 + fst (pw d) <= y < nth d shape 0 - fd1 - snd (pw d) - (if h then 1 else 0))%Z -> a = 0 /\ b = 0) /\
    ((0 < fst (pw d))%Z -> (y < fd0 + fst (pw d))%Z -> 0 < a /\ b < 0) /\
    ((0 < snd (pw d))%Z -> (nth d shape 0 - fd1 - snd (pw d) - (if h then 1 else 0) <= y)%Z -> 0 < a /\ b < 0).
Proof. exact (pml_profile_spec pw fd0 fd1 dt gs v freq shape h d y). Qed.
Print Assumptions C29_profiles_partial.

(** The scalar propagator's parameters computed from these profiles meet the hypotheses of the
    propagator theorems. *)
Theorem C29_geom_ok ac shape pw dt gs v freq src rec :
  length gs = length shape -> Forall (fun g => 0 < g) gs ->
  (forall d, (d < length shape)%nat -> (0 <= fst (pw d))%Z /\ (0 <= snd (pw d))%Z /\
     (fst (pw d) + snd (pw d) + 2 * fd_pad ac < nth d shape 0)%Z) ->
  dt <> 0 -> 0 < v -> 0 < freq ->
  geom_ok R_ops (scalar_par ac shape pw dt gs v freq src rec) pw.
Proof. exact (scalar_par_geom ac shape pw dt gs v freq src rec). Qed.
Print Assumptions C29_geom_ok.

(** 2-D, accuracy 4, layers of width 3 and none: nonzero at cell 4, zero at cell 5 (half cell 5). *)
Example C29_example :
  let pw := fun d : nat => match d with O => (3, 0)%Z | _ => (2, 2)%Z end in
  let shape := [20; 30]%Z in
  geom_ok R_ops (scalar_par A4 shape pw (1 / 1000) [5; 4] 1500 25 [] []) pw /\
  (exists a b, pml_profile pw 2 2 (1 / 1000) [5; 4] 1500 25 shape 0 0 4 = Some (a, b) /\ 0 < a /\ b < 0) /\
  pml_profile pw 2 1 (1 / 1000) [5; 4] 1500 25 shape (1 / 2) 0 5 = Some (0, 0).
Proof.
  intros pw shape.
  assert (Hpw : forall d, (d < 2)%nat -> (0 <= fst (pw d))%Z /\ (0 <= snd (pw d))%Z) by (intros [|[|d]] H; cbn; lia).
  assert (F : Forall (fun g => 0 < g) [5; 4]) by (repeat constructor; lra).
  split; [|split].
  - apply C29_geom_ok; try assumption; try lra; [reflexivity|].
    intros [|[|d]] H; cbn in *; lia.
  - destruct (C29_profiles_partial pw 2 2 (1 / 1000) [5; 4] 1500 25 shape false 0 4) as (a & b & E & _ & _ & _ & N & _);
      try assumption; try lra; [cbn; lia|]. exists a, b. split; [exact E|]. apply N; cbn; lia.
  - destruct (C29_profiles_partial pw 2 1 (1 / 1000) [5; 4] 1500 25 shape true 0 5) as (a & b & E & _ & _ & Z & _);
      try assumption; try lra; [cbn; lia|]. cbv zeta in E. rewrite E. destruct Z as [-> ->]; [cbn; lia|reflexivity].
Qed.

(** With [pml_freq = 0], which the API accepts, an undefined quotient is evaluated at every cell
    outside the layers (if there is any layer). *)
Theorem C29_zero_freq_refuted :
  exists (pw : nat -> Z * Z) shape dt gs v (y : Z),
    Forall (fun g => 0 < g) gs /\ 0 < dt /\ 0 < v /\ (0 <= y < nth 0 shape 0)%Z /\
    pml_profile pw 1 1 dt gs v 0 shape 0 0 y = None.
Proof.
  exists (fun _ => (2, 2)%Z), [10%Z], 1, [5], 1500, 5%Z.
  split; [repeat constructor; lra|]. split; [lra|]. split; [lra|]. split; [cbn; lia|].
  unfold pml_profile. cbn [fst snd nth].
  assert (Hm : 0 <= max_pml (fun _ => (2, 2)%Z) [5]) by (apply max_pml_nonneg; [intros; cbn; lia|repeat constructor; lra]).
  pose proof (max_pml_ge (fun _ => (2, 2)%Z) [5] 0 ltac:(cbn; lia)) as [G _]. cbn [fst nth] in G.
  apply (setup_pml_spec 2 2 _ _ (max_pml (fun _ => (2, 2)%Z) [5]) 1 1500 0 0 5); try lia; try lra.
  split; right; change (10 - 1 - 1 - 2)%Z with 6%Z; change (1 + 2)%Z with 3%Z; lra.
Qed.
Print Assumptions C29_zero_freq_refuted.

(** C35: round trip of the elastic parameters, relative errors bounded by the code's [eps]. *)
Theorem C35_round_trip vp vs rho eps : 0 <= vp -> 0 <= vs -> 0 < rho -> 0 <= eps ->
  let '(lamb, mu, b) := to_lamb vp vs rho eps in
  let '(vp', vs', rho') := to_vp lamb mu b eps in
  vp * (1 - eps / rho ^ 2) <= vp' <= vp /\ vs * (1 - eps / rho ^ 2) <= vs' <= vs /\
  Rabs (rho' - rho) <= rho * (eps * (1 + (rho ^ 2 + eps) ^ 2) / rho ^ 2).
Proof. exact (round_trip vp vs rho eps). Qed.
Print Assumptions C35_round_trip.

Theorem C35_exact_without_eps vp vs rho : 0 <= vp -> 0 <= vs -> 0 < rho ->
  let '(lamb, mu, b) := to_lamb vp vs rho 0 in to_vp lamb mu b 0 = (vp, vs, rho).
Proof. exact (round_trip_exact vp vs rho). Qed.
Print Assumptions C35_exact_without_eps.

(** vp 3000, vs 1500, rho 2000 and the default eps: the density changes by less than 0.0001. *)
Example C35_example :
  let '(lamb, mu, b) := to_lamb 3000 1500 2000 (1 / 10 ^ 15) in
  let '(vp', vs', rho') := to_vp lamb mu b (1 / 10 ^ 15) in
  lamb = 9000000000 /\ mu = 4500000000 /\ 1499 < vs' <= 1500 /\ Rabs (rho' - 2000) <= 1 / 10000.
Proof.
  pose proof (C35_round_trip 3000 1500 2000 (1 / 10 ^ 15) ltac:(lra) ltac:(lra) ltac:(lra) ltac:(lra)) as H.
  unfold to_lamb in *. destruct (to_vp _ _ _ _) as [[vp' vs'] rho']. destruct H as (_ & H2 & H3).
  split; [lra|]. split; [lra|]. split; [lra|]. lra.
Qed.
