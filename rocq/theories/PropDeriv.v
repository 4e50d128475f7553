(** * Property C61: gradients are derivatives of real functions. *)
From Coq Require Import List ZArith QArith Qcanon Qreals Reals Lia Lra Bool Permutation.
From Verif Require Import Ops Sums Grid Stencil StencilOrder DualNum ScalarModel ScalarRefine ScalarForward ScalarBackward ScalarAdjoint
  ScalarFunc ScalarApi ScalarGrad ScalarEx ScalarEx2 PyBackend BornModel BornEx BornThm Stag StagKernel StagRefine AcousticModel AcousticThm AcousticEx
  ElasticModel ElasticThm ElasticEx Deriv DerivScalar DerivBorn StagDeriv DerivObj DerivEx.
Import ListNotations.

(** Along any differentiable curve of wavespeeds, source amplitudes and initial wavefields, the objective function of the outputs of [scalar]
    is differentiable, and its derivative is what the backward function gives: no dual numbers. *)
Theorem C61_scalar (P : par R_ops) (pw : nat -> Z * Z) :
  geom_ok R_ops P pw -> Forall (loc_ok R_ops P) (p_src P) -> Forall (loc_ok R_ops P) (p_rec P) ->
  forall obj (V : R -> arr R_ops) dV (F : R -> Z -> list R) dF (U : R -> st R_ops) dU G gr nt visF visB cbF cbB store U0 R0 S0,
  (0 <= nt)%Z -> cb_ok nt 1 cbF -> cb_ok nt 1 cbB -> fvis R_ops P pw visF -> bvis R_ops P pw visB ->
  acurve (prodZ (p_shape P)) V dV -> rcurve nt F dF -> scurve P U dU ->
  scalar_forward R_ops P pw (V 0%R) visF true 1 (F 0%R) nt cbF store (U 0%R) = Some (U0, R0, S0) -> obj_gradient P nt obj U0 R0 G gr ->
  exists J G0 gf gv,
    (forall h, exists Uh Rh Sh, scalar_forward R_ops P pw (V h) visF true 1 (F h) nt cbF store (U h) = Some (Uh, Rh, Sh) /\ J h = obj Uh Rh) /\
    scalar_backward R_ops P pw (V 0%R) visB S0 true 1 gr nt cbB G = Some (G0, gf, gv) /\
    derivable_pt_lim J 0 (udot R_ops P G0 dU + tdot (K := R_ops) nt gf dF + adot (K := R_ops) (prodZ (p_shape P)) gv dV)%R.
Proof. exact (scalar_gradient_real P pw). Qed.
Print Assumptions C61_scalar.

(** Least squares: the backward function applied to the residual gives the derivative of half the squared residual. *)
Theorem C61_scalar_misfit (P : par R_ops) (pw : nat -> Z * Z) :
  geom_ok R_ops P pw -> Forall (loc_ok R_ops P) (p_src P) -> Forall (loc_ok R_ops P) (p_rec P) ->
  forall (d : Z -> list R) (V : R -> arr R_ops) dV (F : R -> Z -> list R) dF (U : R -> st R_ops) dU nt visF visB cbF cbB store U0 R0 S0,
  (0 <= nt)%Z -> cb_ok nt 1 cbF -> cb_ok nt 1 cbB -> fvis R_ops P pw visF -> bvis R_ops P pw visB ->
  acurve (prodZ (p_shape P)) V dV -> rcurve nt F dF -> scurve P U dU ->
  scalar_forward R_ops P pw (V 0%R) visF true 1 (F 0%R) nt cbF store (U 0%R) = Some (U0, R0, S0) ->
  exists J G0 gf gv,
    (forall h, exists Uh Rh Sh, scalar_forward R_ops P pw (V h) visF true 1 (F h) nt cbF store (U h) = Some (Uh, Rh, Sh) /\ J h = misfit nt d Rh) /\
    scalar_backward R_ops P pw (V 0%R) visB S0 true 1 (residual d R0) nt cbB zero_st = Some (G0, gf, gv) /\
    derivable_pt_lim J 0 (udot R_ops P G0 dU + tdot (K := R_ops) nt gf dF + adot (K := R_ops) (prodZ (p_shape P)) gv dV)%R.
Proof. exact (scalar_misfit_real P pw). Qed.
Print Assumptions C61_scalar_misfit.

Example scalar_misfit_example : exists J U0 R0 S0 G0 gf gv,
  scalar_forward R_ops rexP expw (lin_arr ex_V 0) ex_visF true 1 (lin_row ex_DF 0) 3 None (fun _ _ => 0%R) (lin_st ex_DU 0) = Some (U0, R0, S0) /\
  (forall h, exists Uh Rh Sh, scalar_forward R_ops rexP expw (lin_arr ex_V h) ex_visF true 1 (lin_row ex_DF h) 3 None (fun _ _ => 0%R) (lin_st ex_DU h) = Some (Uh, Rh, Sh) /\
     J h = misfit 3 (fun t => [IZR t; 1; 2])%R Rh) /\
  scalar_backward R_ops rexP expw (lin_arr ex_V 0) ex_visB S0 true 1 (residual (fun t => [IZR t; 1; 2])%R R0) 3 (Some 1%Z) zero_st = Some (G0, gf, gv) /\
  derivable_pt_lim J 0 (udot R_ops rexP G0 (lin_st' ex_DU) + tdot (K := R_ops) 3 gf (lin_row' ex_DF) + adot (K := R_ops) 8 gv (lin_arr' ex_V))%R.
Proof.
  destruct (scalar_forward_spec R_ops R_is_ring rexP expw rex_geom rex_src rex_rec (lin_arr ex_V 0) ex_visF true 1 (lin_row ex_DF 0) 3 None
     (fun _ _ => 0%R) (lin_st ex_DU 0)) as (U0 & R0 & S0 & E & _); try (cbn; lia); try apply Permutation_refl.
  destruct (C61_scalar_misfit rexP expw rex_geom rex_src rex_rec (fun t => [IZR t; 1; 2])%R (lin_arr ex_V) (lin_arr' ex_V) (lin_row ex_DF) (lin_row' ex_DF)
    (lin_st ex_DU) (lin_st' ex_DU) 3 ex_visF ex_visB None (Some 1%Z) (fun _ _ => 0%R) U0 R0 S0) as (J & G0 & gf & gv & A & B & C);
    try (cbn; lia); try apply Permutation_refl; try exact E; [apply lin_arr_curve|apply lin_row_curve|apply lin_st_curve|].
  exists J, U0, R0, S0, G0, gf, gv. auto.
Qed.

(** An objective function of the final wavefields too. *)
Definition exd_G : st R_ops := mkst R_ops (fun q => IZR (1 - coord 0 q)) (fun q => IZR (coord 0 q)) (fun _ q => IZR (2 + coord 0 q)) (fun _ q => IZR (5 - coord 0 q)).
Definition exd_gr (t : Z) : list R := [IZR (t + 2); 7; IZR (1 - t)]%R.
Example scalar_example : exists J U0 R0 S0 G0 gf gv,
  scalar_forward R_ops rexP expw (lin_arr ex_V 0) ex_visF true 1 (lin_row ex_DF 0) 3 None (fun _ _ => 0%R) (lin_st ex_DU 0) = Some (U0, R0, S0) /\
  (forall h, exists Uh Rh Sh, scalar_forward R_ops rexP expw (lin_arr ex_V h) ex_visF true 1 (lin_row ex_DF h) 3 None (fun _ _ => 0%R) (lin_st ex_DU h) = Some (Uh, Rh, Sh) /\
     J h = udot R_ops rexP exd_G Uh + tdot (K := R_ops) 3 exd_gr Rh)%R /\
  scalar_backward R_ops rexP expw (lin_arr ex_V 0) ex_visB S0 true 1 exd_gr 3 (Some 1%Z) exd_G = Some (G0, gf, gv) /\
  derivable_pt_lim J 0 (udot R_ops rexP G0 (lin_st' ex_DU) + tdot (K := R_ops) 3 gf (lin_row' ex_DF) + adot (K := R_ops) 8 gv (lin_arr' ex_V))%R.
Proof.
  destruct (scalar_forward_spec R_ops R_is_ring rexP expw rex_geom rex_src rex_rec (lin_arr ex_V 0) ex_visF true 1 (lin_row ex_DF 0) 3 None
     (fun _ _ => 0%R) (lin_st ex_DU 0)) as (U0 & R0 & S0 & E & _); try (cbn; lia); try apply Permutation_refl.
  destruct (C61_scalar rexP expw rex_geom rex_src rex_rec (fun u r => udot R_ops rexP exd_G u + tdot (K := R_ops) 3 exd_gr r)%R
    (lin_arr ex_V) (lin_arr' ex_V) (lin_row ex_DF) (lin_row' ex_DF)
    (lin_st ex_DU) (lin_st' ex_DU) exd_G exd_gr 3 ex_visF ex_visB None (Some 1%Z) (fun _ _ => 0%R) U0 R0 S0) as (J & G0 & gf & gv & A & B & C);
    try (cbn; lia); try apply Permutation_refl; try exact E; [apply lin_arr_curve|apply lin_row_curve|apply lin_st_curve|apply linear_obj|].
  exists J, U0, R0, S0, G0, gf, gv. auto.
Qed.

(** The scattered outputs of [scalar_born] are the derivatives at [h = 0] of the outputs of [scalar] run with wavespeed [v + h scatter] and initial
    wavefields [u + h usc] (amplitudes of the user, scaled by each propagator for its own model). *)
Theorem C61_born_data (P : par R_ops) (pw : nat -> Z * Z) (recsc : list Z) :
  geom_ok R_ops P pw -> Forall (loc_ok R_ops P) (p_src P) -> Forall (loc_ok R_ops P) (p_rec P) -> Forall (loc_ok R_ops P) recsc ->
  forall v scatter (amps : Z -> list R) u usc nt sr vis vis1 vrg srg vrg1 cb cb1 w0 wsc0 st1,
  (0 < sr)%Z -> cb_ok nt sr cb -> cb_ok nt sr cb1 -> fvis R_ops P pw vis -> fvis R_ops P pw vis1 ->
  exists B Uh Rh Sh,
    born_forward R_ops P recsc pw v scatter vis vrg srg sr
      (fun t => scale_amps R_ops P v (p_src P) (amps t)) (fun t => scale_amps_sc R_ops P v scatter (p_src P) (amps t)) nt cb w0 wsc0 u usc = Some B /\
    (forall h, scalar_forward R_ops (withrec P recsc) pw (line v scatter h) vis1 vrg1 sr
       (fun t => scale_amps R_ops P (line v scatter h) (p_src P) (amps t)) nt cb1 st1 (line_st u usc h) = Some (Uh h, Rh h, Sh h)) /\
    scurve P Uh (bo_usc R_ops B) /\ rcurve nt Rh (bo_rsc R_ops B).
Proof. exact (born_data_real P pw recsc). Qed.
Print Assumptions C61_born_data.

Example born_data_example : exists B Rh,
  born_forward R_ops rexP exb_recsc expw (lin_arr ex_V 0) (lin_arr exb_S 0) ex_visF true true 2
    (fun t => scale_amps R_ops rexP (lin_arr ex_V 0) (p_src rexP) (lin_row ex_DF 0 t))
    (fun t => scale_amps_sc R_ops rexP (lin_arr ex_V 0) (lin_arr exb_S 0) (p_src rexP) (lin_row ex_DF 0 t)) 5 (Some 1%Z) (fun _ _ => 0%R) (fun _ _ => 0%R)
    (lin_st ex_DU 0) (lin_st exb_DUsc 0) = Some B /\
  (forall h, exists U S, scalar_forward R_ops (withrec rexP exb_recsc) expw (line (lin_arr ex_V 0) (lin_arr exb_S 0) h) ex_visF false 2
     (fun t => scale_amps R_ops rexP (line (lin_arr ex_V 0) (lin_arr exb_S 0) h) (p_src rexP) (lin_row ex_DF 0 t)) 5 None (fun _ _ => 0%R)
     (line_st (lin_st ex_DU 0) (lin_st exb_DUsc 0) h) = Some (U, Rh h, S)) /\
  rcurve 5 Rh (bo_rsc R_ops B).
Proof.
  destruct (C61_born_data rexP expw exb_recsc rex_geom rex_src rex_rec rex_recsc (lin_arr ex_V 0) (lin_arr exb_S 0) (lin_row ex_DF 0) (lin_st ex_DU 0) (lin_st exb_DUsc 0)
    5 2 ex_visF ex_visF true true false (Some 1%Z) None (fun _ _ => 0%R) (fun _ _ => 0%R) (fun _ _ => 0%R)) as (B & Uh & Rh & Sh & E1 & E2 & E3 & E4);
    try (cbn; lia); try apply Permutation_refl.
  exists B, Rh. split; [exact E1|]. split; [|exact E4]. intros h. exists (Uh h), (Sh h). apply E2.
Qed.

(** Gradients of [scalar_born], of both wavefields, both models and both sets of amplitudes. *)
Theorem C61_born (P : par R_ops) (pw : nat -> Z * Z) (recsc : list Z) :
  geom_ok R_ops P pw -> Forall (loc_ok R_ops P) (p_src P) -> Forall (loc_ok R_ops P) (p_rec P) -> Forall (loc_ok R_ops P) recsc ->
  forall obj V dV S dS F dF Fs dFs U dU Us dUs G Gsc gr grsc nt visF visB vrg srg cbF cbB w0 wsc0 B0,
  (0 <= nt)%Z -> cb_ok nt 1 cbF -> cb_ok nt 1 cbB -> fvis R_ops P pw visF -> bvis R_ops P pw visB ->
  (forall h t, length (Fs h t) = length (F h t)) -> (forall t, length (gr t) = length (p_rec P)) ->
  acurve (prodZ (p_shape P)) V dV -> acurve (prodZ (p_shape P)) S dS -> rcurve nt F dF -> rcurve nt Fs dFs -> scurve P U dU -> scurve P Us dUs ->
  (vrg = false -> forall i, dV i = 0%R) -> (srg = false -> forall i, dS i = 0%R) ->
  born_forward R_ops P recsc pw (V 0%R) (S 0%R) visF vrg srg 1 (F 0%R) (Fs 0%R) nt cbF w0 wsc0 (U 0%R) (Us 0%R) = Some B0 ->
  born_obj_gradient P nt obj B0 G gr Gsc grsc ->
  exists J G0,
    (forall h, exists B, born_forward R_ops P recsc pw (V h) (S h) visF vrg srg 1 (F h) (Fs h) nt cbF w0 wsc0 (U h) (Us h) = Some B /\
       J h = obj (bo_u R_ops B) (bo_r R_ops B) (bo_usc R_ops B) (bo_rsc R_ops B)) /\
    born_backward R_ops P recsc pw (V 0%R) (S 0%R) visB (bo_w R_ops B0) (bo_wsc R_ops B0) vrg srg 1 gr grsc nt cbB G Gsc = Some G0 /\
    derivable_pt_lim J 0 (udot R_ops P (bg_u R_ops G0) dU + udot R_ops P (bg_usc R_ops G0) dUs
      + tdot (K := R_ops) nt (bg_f R_ops G0) dF + tdot (K := R_ops) nt (bg_fsc R_ops G0) dFs
      + adot (K := R_ops) (prodZ (p_shape P)) (bg_v R_ops G0) dV + adot (K := R_ops) (prodZ (p_shape P)) (bg_scatter R_ops G0) dS)%R.
Proof. exact (born_gradient_real P pw recsc). Qed.
Print Assumptions C61_born.

Example born_example : exists J B0 G0,
  born_forward R_ops rexP exb_recsc expw (lin_arr ex_V 0) (lin_arr exb_S 0) ex_visF true true 1 (lin_row ex_DF 0) (lin_row exb_DFsc 0) 3 None
    (fun _ _ => 0%R) (fun _ _ => 0%R) (lin_st ex_DU 0) (lin_st exb_DUsc 0) = Some B0 /\
  born_backward R_ops rexP exb_recsc expw (lin_arr ex_V 0) (lin_arr exb_S 0) ex_visB (bo_w R_ops B0) (bo_wsc R_ops B0) true true 1
    exd_gr (fun t => [IZR t; 1]%R) 3 None exd_G zero_st = Some G0 /\
  derivable_pt_lim J 0 (udot R_ops rexP (bg_u R_ops G0) (lin_st' ex_DU) + udot R_ops rexP (bg_usc R_ops G0) (lin_st' exb_DUsc)
    + tdot (K := R_ops) 3 (bg_f R_ops G0) (lin_row' ex_DF) + tdot (K := R_ops) 3 (bg_fsc R_ops G0) (lin_row' exb_DFsc)
    + adot (K := R_ops) 8 (bg_v R_ops G0) (lin_arr' ex_V) + adot (K := R_ops) 8 (bg_scatter R_ops G0) (lin_arr' exb_S))%R.
Proof.
  destruct (born_is_derivative R_ops R_is_ring rexP exb_recsc expw rex_geom rex_src rex_rec rex_recsc (lin_arr ex_V 0) (lin_arr exb_S 0) (lin_row ex_DF 0) (lin_row exb_DFsc 0)
    (lin_st ex_DU 0) (lin_st exb_DUsc 0) 3 1 ex_visF ex_visF ex_visF true true true true None None None (fun _ _ => 0%R) (fun _ _ => 0%R) (fun _ _ => 0%R) (fun _ _ => o0 (dual R_ops)))
    as (B0 & _ & _ & _ & _ & _ & _ & E & _); try (cbn; lia); try apply Permutation_refl; try reflexivity.
  destruct (C61_born rexP expw exb_recsc rex_geom rex_src rex_rec rex_recsc
    (fun u r us rs => udot R_ops rexP exd_G u + udot R_ops rexP zero_st us + tdot (K := R_ops) 3 exd_gr r + tdot (K := R_ops) 3 (fun t => [IZR t; 1]%R) rs)%R
    (lin_arr ex_V) (lin_arr' ex_V) (lin_arr exb_S) (lin_arr' exb_S) (lin_row ex_DF) (lin_row' ex_DF) (lin_row exb_DFsc) (lin_row' exb_DFsc)
    (lin_st ex_DU) (lin_st' ex_DU) (lin_st exb_DUsc) (lin_st' exb_DUsc) exd_G zero_st exd_gr (fun t => [IZR t; 1]%R) 3 ex_visF ex_visB true true None None
    (fun _ _ => 0%R) (fun _ _ => 0%R) B0) as (J & G0 & _ & A & B);
    try (cbn; lia); try apply Permutation_refl; try exact E; try discriminate; try reflexivity;
    try apply lin_arr_curve; try apply lin_row_curve; try apply lin_st_curve; try apply linear_born_obj.
  exists J, B0, G0. auto.
Qed.

(** Linearised inversion: least squares of the scattered data, gradient of the scattering potential. *)
Theorem C61_born_misfit (P : par R_ops) (pw : nat -> Z * Z) (recsc : list Z) :
  geom_ok R_ops P pw -> Forall (loc_ok R_ops P) (p_src P) -> Forall (loc_ok R_ops P) (p_rec P) -> Forall (loc_ok R_ops P) recsc ->
  forall (d : Z -> list R) v (S : R -> arr R_ops) dS f (Fs : R -> Z -> list R) dFs u us nt visF visB cbF cbB w0 wsc0 B0,
  (0 <= nt)%Z -> cb_ok nt 1 cbF -> cb_ok nt 1 cbB -> fvis R_ops P pw visF -> bvis R_ops P pw visB ->
  (forall h t, length (Fs h t) = length (f t)) -> acurve (prodZ (p_shape P)) S dS -> rcurve nt Fs dFs ->
  born_forward R_ops P recsc pw v (S 0%R) visF false true 1 f (Fs 0%R) nt cbF w0 wsc0 u us = Some B0 ->
  exists J G0,
    (forall h, exists B, born_forward R_ops P recsc pw v (S h) visF false true 1 f (Fs h) nt cbF w0 wsc0 u us = Some B /\ J h = misfit nt d (bo_rsc R_ops B)) /\
    born_backward R_ops P recsc pw v (S 0%R) visB (bo_w R_ops B0) (bo_wsc R_ops B0) false true 1 (fun _ => map (fun _ => 0%R) (p_rec P)) (residual d (bo_rsc R_ops B0))
      nt cbB zero_st zero_st = Some G0 /\
    derivable_pt_lim J 0 (tdot (K := R_ops) nt (bg_fsc R_ops G0) dFs + adot (K := R_ops) (prodZ (p_shape P)) (bg_scatter R_ops G0) dS)%R.
Proof. exact (born_misfit_real P pw recsc). Qed.
Print Assumptions C61_born_misfit.

Example born_misfit_example : exists J B0 G0,
  born_forward R_ops rexP exb_recsc expw (lin_arr ex_V 0) (lin_arr exb_S 0) ex_visF false true 1 (lin_row ex_DF 0) (lin_row exb_DFsc 0) 3 None
    (fun _ _ => 0%R) (fun _ _ => 0%R) (lin_st ex_DU 0) (lin_st exb_DUsc 0) = Some B0 /\
  born_backward R_ops rexP exb_recsc expw (lin_arr ex_V 0) (lin_arr exb_S 0) ex_visB (bo_w R_ops B0) (bo_wsc R_ops B0) false true 1
    (fun _ => [0; 0; 0]%R) (residual (fun t => [IZR t; 1]%R) (bo_rsc R_ops B0)) 3 None zero_st zero_st = Some G0 /\
  derivable_pt_lim J 0 (tdot (K := R_ops) 3 (bg_fsc R_ops G0) (lin_row' exb_DFsc) + adot (K := R_ops) 8 (bg_scatter R_ops G0) (lin_arr' exb_S))%R.
Proof.
  destruct (born_is_derivative R_ops R_is_ring rexP exb_recsc expw rex_geom rex_src rex_rec rex_recsc (lin_arr ex_V 0) (lin_arr exb_S 0) (lin_row ex_DF 0) (lin_row exb_DFsc 0)
    (lin_st ex_DU 0) (lin_st exb_DUsc 0) 3 1 ex_visF ex_visF ex_visF false true true true None None None (fun _ _ => 0%R) (fun _ _ => 0%R) (fun _ _ => 0%R) (fun _ _ => o0 (dual R_ops)))
    as (B0 & _ & _ & _ & _ & _ & _ & E & _); try (cbn; lia); try apply Permutation_refl; try reflexivity.
  destruct (C61_born_misfit rexP expw exb_recsc rex_geom rex_src rex_rec rex_recsc (fun t => [IZR t; 1]%R) (lin_arr ex_V 0) (lin_arr exb_S) (lin_arr' exb_S)
    (lin_row ex_DF 0) (lin_row exb_DFsc) (lin_row' exb_DFsc) (lin_st ex_DU 0) (lin_st exb_DUsc 0) 3 ex_visF ex_visB None None (fun _ _ => 0%R) (fun _ _ => 0%R) B0)
    as (J & G0 & _ & A & B); try (cbn; lia); try apply Permutation_refl; try exact E; try reflexivity; try apply lin_arr_curve; try apply lin_row_curve.
  exists J, B0, G0. auto.
Qed.

(** Acoustic: gradients of bulk modulus, buoyancies, amplitudes of all kinds, initial wavefields and memory variables.  As C06, only with
    room for the backward kernel ([sroom]). *)
Theorem C61_acoustic_partial (nd : nat) (P : spar (ac_sys nd) R_ops) (pw : nat -> Z * Z) :
  length (sp_shape P) = nd -> (forall c, Forall (sloc_ok (ac_sys nd) R_ops P c) (sp_src P c)) -> (forall c, Forall (sloc_ok (ac_sys nd) R_ops P c) (sp_rec P c)) ->
  sgeom (ac_sys nd) R_ops P pw -> sroom (ac_sys nd) R_ops P pw ->
  forall obj dt (M : R -> aM -> arr R_ops) dM (F : R -> krec (ac_sys nd) R_ops) dF (U : R -> sst (ac_sys nd) R_ops) dU g gr
    nt visFA visFB visBA visBB cbF cbB kg bg store U0 R0 S0,
  nt_ok nt 1 cbF -> nt_ok nt 1 cbB -> ac_fvis nd R_ops P pw true visFA -> ac_fvis nd R_ops P pw false visFB ->
  ac_bvis nd R_ops P pw true visBA -> ac_bvis nd R_ops P pw false visBB ->
  (kg = false -> forall i, dM MK i = 0%R) -> (bg = false -> forall d i, dM (MB d) i = 0%R) ->
  (forall q, acurve (prodZ (sp_shape P)) (fun h => M h q) (dM q)) -> krcurve nt F dF -> sscurve P U dU ->
  acoustic_forward nd R_ops P pw dt (M 0%R) visFA visFB kg bg 1 (F 0%R) nt cbF store (U 0%R) = Some (U0, R0, S0) ->
  ac_obj_gradient nd P nt obj U0 R0 g gr ->
  exists J g' gf gm,
    (forall h, exists Uh Rh Sh, acoustic_forward nd R_ops P pw dt (M h) visFA visFB kg bg 1 (F h) nt cbF store (U h) = Some (Uh, Rh, Sh) /\ J h = obj Uh Rh) /\
    acoustic_backward nd R_ops P pw dt (M 0%R) visBA visBB kg bg 1 gr nt cbB S0 g = Some (g', gf, gm) /\
    derivable_pt_lim J 0 (ac_udot nd R_ops P g' dU + ac_rdot nd R_ops nt gf dF + ac_mdot nd R_ops P gm dM)%R.
Proof. exact (acoustic_gradient_real nd P pw). Qed.
Print Assumptions C61_acoustic_partial.

Definition raexM (h : R) (k : aM) : arr R_ops := lin_arr (aex_kb k) h.
Example acoustic_example : exists J U0 R0 S0 g' gf gm,
  acoustic_forward 2 R_ops raexP aexpw (/ 2)%R (raexM 0) (aexF true) (aexF false) true true 1 (lin_krec aex_f 0) 2 None (fun _ _ _ => 0%R) (lin_sst aex_u 0) = Some (U0, R0, S0) /\
  acoustic_backward 2 R_ops raexP aexpw (/ 2)%R (raexM 0) (aexB true) (aexB false) true true 1 (fun t _ => [IZR (t + 1)]) 2 None S0 (real_sst aex_g) = Some (g', gf, gm) /\
  derivable_pt_lim J 0 (ac_udot 2 R_ops raexP g' (lin_sst' aex_u) + ac_rdot 2 R_ops 2 gf (lin_krec' aex_f) + ac_mdot 2 R_ops raexP gm (fun k => lin_arr' (aex_kb k)))%R.
Proof.
  destruct (acoustic_gradient_exact 2 R_ops R_is_ring raexP aexpw eq_refl (fun c _ => raex_src c) (fun c _ => raex_rec c) raex_geom raex_room oq1 (/ 2)%R
    (fun q i => dconst (K := R_ops) (raexM 0 q i)) (fun t c => map (dconst (K := R_ops)) (lin_krec aex_f 0 t c))
    (@mksst (ac_sys 2) (dual R_ops) (fun x p => dconst (K := R_ops) (mn (lin_sst aex_u 0) x p)) (fun e p => dconst (K := R_ops) (me (lin_sst aex_u 0) e p)))
    (real_sst aex_g) (fun t _ => [IZR (t + 1)]) 2 (aexF true) (aexF false) (aexF true) (aexF false) (aexB true) (aexB false) None None None true true true true
    (fun _ _ _ => o0 (dual R_ops)) (fun _ _ _ => 0%R)) as (_ & _ & _ & U0 & R0 & S0 & _ & _ & _ & _ & E & _);
    try apply Permutation_refl; try (intros H; discriminate H); try (unfold nt_ok; lia).
  rewrite const_rows in E.
  destruct (C61_acoustic_partial 2 raexP aexpw eq_refl raex_src raex_rec raex_geom raex_room
    (fun u r => ac_udot 2 R_ops raexP (real_sst aex_g) u + ac_rdot 2 R_ops 2 (fun t _ => [IZR (t + 1)]) r)%R (/ 2)%R raexM (fun k => lin_arr' (aex_kb k))
    (lin_krec aex_f) (lin_krec' aex_f) (lin_sst aex_u) (lin_sst' aex_u) (real_sst aex_g) (fun t _ => [IZR (t + 1)]) 2 (aexF true) (aexF false) (aexB true) (aexB false)
    None None true true (fun _ _ _ => 0%R) U0 R0 S0) as (J & g' & gf & gm & _ & A & B);
    try apply Permutation_refl; try (intros H; discriminate H); try (unfold nt_ok; lia); try exact E;
    [intros q; apply lin_arr_curve|apply lin_krec_curve|apply lin_sst_curve|apply ac_linear_obj|].
  exists J, U0, R0, S0, g', gf, gm. auto.
Qed.

(** Elastic: Lamé parameters, averaged shear moduli and buoyancies. *)
Theorem C61_elastic_partial (nd : nat) (P : spar (el_sys nd) R_ops) (pw : nat -> Z * Z) :
  length (sp_shape P) = nd -> (0 < nd)%nat ->
  (forall c, Forall (sloc_ok (el_sys nd) R_ops P c) (sp_src P c)) -> (forall c, Forall (sloc_ok (el_sys nd) R_ops P c) (sp_rec P c)) ->
  sgeom (el_sys nd) R_ops P pw -> sroom (el_sys nd) R_ops P pw ->
  forall obj dt (M : R -> eM -> arr R_ops) dM (F : R -> krec (el_sys nd) R_ops) dF (U : R -> sst (el_sys nd) R_ops) dU g gr
    nt visFA visFB visBA visBB cbF cbB lg mg bg store U0 R0 S0,
  nt_ok nt 1 cbF -> nt_ok nt 1 cbB -> el_fvis nd R_ops P pw true visFA -> el_fvis nd R_ops P pw false visFB ->
  el_bvis nd R_ops P pw true visBA -> el_bvis nd R_ops P pw false visBB ->
  (lg = false -> forall i, dM ML i = 0%R) -> (mg = false -> forall i, dM MMU i = 0%R /\ forall a b, dM (MS a b) i = 0%R) ->
  (bg = false -> forall d i, dM (EB d) i = 0%R) ->
  (forall q, acurve (prodZ (sp_shape P)) (fun h => M h q) (dM q)) -> krcurve nt F dF -> sscurve P U dU ->
  elastic_forward nd R_ops P pw dt (M 0%R) visFA visFB lg mg bg 1 (F 0%R) nt cbF store (U 0%R) = Some (U0, R0, S0) ->
  el_obj_gradient nd P nt obj U0 R0 g gr ->
  exists J g' gf gm,
    (forall h, exists Uh Rh Sh, elastic_forward nd R_ops P pw dt (M h) visFA visFB lg mg bg 1 (F h) nt cbF store (U h) = Some (Uh, Rh, Sh) /\ J h = obj Uh Rh) /\
    elastic_backward nd R_ops P pw dt (M 0%R) visBA visBB lg mg bg 1 gr nt cbB S0 g = Some (g', gf, gm) /\
    derivable_pt_lim J 0 (el_udot nd R_ops P g' dU + el_rdot nd R_ops nt gf dF + el_mdot nd R_ops P gm dM)%R.
Proof. exact (elastic_gradient_real nd P pw). Qed.
Print Assumptions C61_elastic_partial.

Definition reexM (h : R) (k : eM) : arr R_ops := lin_arr (eex_md k) h.
Example elastic_example : exists J U0 R0 S0 g' gf gm,
  elastic_forward 2 R_ops reexP aexpw (/ 2)%R (reexM 0) (eexF true) (eexF false) true true true 1 (lin_krec eex_f 0) 2 None (fun _ _ _ => 0%R) (lin_sst eex_u 0) = Some (U0, R0, S0) /\
  elastic_backward 2 R_ops reexP aexpw (/ 2)%R (reexM 0) (eexB true) (eexB false) true true true 1 (fun t _ => [IZR (t + 1)]) 2 None S0 (real_sst eex_g) = Some (g', gf, gm) /\
  derivable_pt_lim J 0 (el_udot 2 R_ops reexP g' (lin_sst' eex_u) + el_rdot 2 R_ops 2 gf (lin_krec' eex_f) + el_mdot 2 R_ops reexP gm (fun k => lin_arr' (eex_md k)))%R.
Proof.
  destruct (elastic_gradient_exact 2 R_ops R_is_ring reexP aexpw eq_refl ltac:(lia) (fun c _ => reex_src c) (fun c _ => reex_rec c) reex_geom reex_room oq1 (/ 2)%R
    (fun q i => dconst (K := R_ops) (reexM 0 q i)) (fun t c => map (dconst (K := R_ops)) (lin_krec eex_f 0 t c))
    (@mksst (el_sys 2) (dual R_ops) (fun x p => dconst (K := R_ops) (mn (lin_sst eex_u 0) x p)) (fun e p => dconst (K := R_ops) (me (lin_sst eex_u 0) e p)))
    (real_sst eex_g) (fun t _ => [IZR (t + 1)]) 2 (eexF true) (eexF false) (eexF true) (eexF false) (eexB true) (eexB false) None None None true true true true true true
    (fun _ _ _ => o0 (dual R_ops)) (fun _ _ _ => 0%R)) as (_ & _ & _ & U0 & R0 & S0 & _ & _ & _ & _ & E & _);
    try apply Permutation_refl; try (intros H; discriminate H); try (unfold nt_ok; lia).
  rewrite const_rows in E.
  destruct (C61_elastic_partial 2 reexP aexpw eq_refl ltac:(lia) reex_src reex_rec reex_geom reex_room
    (fun u r => el_udot 2 R_ops reexP (real_sst eex_g) u + el_rdot 2 R_ops 2 (fun t _ => [IZR (t + 1)]) r)%R (/ 2)%R reexM (fun k => lin_arr' (eex_md k))
    (lin_krec eex_f) (lin_krec' eex_f) (lin_sst eex_u) (lin_sst' eex_u) (real_sst eex_g) (fun t _ => [IZR (t + 1)]) 2 (eexF true) (eexF false) (eexB true) (eexB false)
    None None true true true (fun _ _ _ => 0%R) U0 R0 S0) as (J & g' & gf & gm & _ & A & B);
    try apply Permutation_refl; try (intros H; discriminate H); try (unfold nt_ok; lia); try exact E;
    [intros q; apply lin_arr_curve|apply lin_krec_curve|apply lin_sst_curve|apply el_linear_obj|].
  exists J, U0, R0, S0, g', gf, gm. auto.
Qed.
