(** * Properties C04, C05, C43: the scalar Born propagator. *)
From Coq Require Import List ZArith QArith Qcanon Lia Permutation.
From Verif Require Import Ops Sums Grid Stencil DualNum ScalarModel ScalarRefine ScalarForward
  ScalarBackward ScalarAdjoint ScalarFunc ScalarApi ScalarGrad ScalarEx ScalarEx2 PyBackend GeomModel
  BornModel BornSim BornBack BornThm BornGrad BornPy BornEx.
Import ListNotations.
Local Open Scope K_scope.

(** C04: the background outputs are those of the scalar propagator; the scattered outputs are
    the eps part of the scalar propagator (sources scaled by its own [-amp v^2 dt^2]) run with
    wavespeed [v + eps scatter] and initial wavefields [u + eps usc]. *)
Theorem C04_born_is_derivative_partial (K : ops) (Kr : is_ring K) (P : par K) (pw : nat -> Z * Z) (recsc : list Z) :
  geom_ok K P pw -> Forall (loc_ok K P) (p_src P) -> Forall (loc_ok K P) (p_rec P) -> Forall (loc_ok K P) recsc ->
  forall (v scatter : arr K) (amps : Z -> list K) (u usc : st K) nt sr vis vis1 vis2 vrg srg vrg1 vrg2 cb cb1 cb2 w0 wsc0 st1 st2,
  (0 < sr)%Z -> cb_ok nt sr cb -> cb_ok nt sr cb1 -> cb_ok nt sr cb2 ->
  fvis K P pw vis -> fvis K P pw vis1 -> fvis K P pw vis2 ->
  exists B U1 R1 S1 U2 R2 S2,
    born_forward K P recsc pw v scatter vis vrg srg sr
      (fun t => scale_amps K P v (p_src P) (amps t)) (fun t => scale_amps_sc K P v scatter (p_src P) (amps t))
      nt cb w0 wsc0 u usc = Some B /\
    scalar_forward K P pw v vis1 vrg1 sr (fun t => scale_amps K P v (p_src P) (amps t)) nt cb1 st1 u = Some (U1, R1, S1) /\
    scalar_forward (dual K) (dpar (withrec P recsc)) pw (perturb v scatter) vis2 vrg2 sr
      (fun t => scale_amps (dual K) (dpar P) (perturb v scatter) (p_src P) (map dconst (amps t)))
      nt cb2 st2 (dstate u usc) = Some (U2, R2, S2) /\
    ueq K P (bo_u K B) U1 /\ (forall t, bo_r K B t = R1 t) /\
    ueq K P (bo_usc K B) (sep U2) /\ (forall t, bo_rsc K B t = lep (R2 t)).
Proof. exact (born_is_derivative_scaled K Kr P pw recsc). Qed.
Print Assumptions C04_born_is_derivative_partial.

Example C04_example : exists B R2 U2 S2,
  born_forward Qc_ops exP exb_recsc expw ex_v exb_scat ex_visF false false 2
    (fun t => scale_amps Qc_ops exP ex_v (p_src exP) (exb_amps t)) (fun t => scale_amps_sc Qc_ops exP ex_v exb_scat (p_src exP) (exb_amps t))
    5 (Some 1%Z) (fun _ _ => o0 Qc_ops) (fun _ _ => o0 Qc_ops) ex_U exb_usc = Some B /\
  scalar_forward (dual Qc_ops) (dpar (withrec exP exb_recsc)) expw (perturb (K := Qc_ops) ex_v exb_scat) ex_visF false 2
    (fun t => scale_amps (dual Qc_ops) (dpar exP) (perturb (K := Qc_ops) ex_v exb_scat) (p_src exP) (map (dconst (K := Qc_ops)) (exb_amps t)))
    5 None (fun _ _ => o0 (dual Qc_ops)) (dstate (K := Qc_ops) ex_U exb_usc) = Some (U2, R2, S2) /\
  bo_rsc Qc_ops B 3 = lep (R2 3%Z) /\ nth 0 (bo_rsc Qc_ops B 3) (qz 0) <> qz 0.
Proof.
  destruct (C04_born_is_derivative_partial Qc_ops Qc_is_ring exP expw exb_recsc ex_geom ex_src ex_rec exb_recsc_ok
    ex_v exb_scat exb_amps ex_U exb_usc 5 2 ex_visF ex_visF ex_visF false false false false (Some 1%Z) None None
    (fun _ _ => o0 Qc_ops) (fun _ _ => o0 Qc_ops) (fun _ _ => o0 Qc_ops) (fun _ _ => o0 (dual Qc_ops)))
    as (B & U1 & R1 & S1 & U2 & R2 & S2 & E1 & E2 & E3 & X1 & X2 & X3 & X4);
    try (cbn; lia); try apply Permutation_refl.
  exists B, R2, U2, S2. split; [exact E1|]. split; [exact E3|]. split; [apply X4|].
  assert (H : match born_forward Qc_ops exP exb_recsc expw ex_v exb_scat ex_visF false false 2
    (fun t => scale_amps Qc_ops exP ex_v (p_src exP) (exb_amps t)) (fun t => scale_amps_sc Qc_ops exP ex_v exb_scat (p_src exP) (exb_amps t))
    5 (Some 1%Z) (fun _ _ => o0 Qc_ops) (fun _ _ => o0 Qc_ops) ex_U exb_usc with Some B => nz (nth 0 (bo_rsc Qc_ops B 3) (qz 0)) | None => false end = true)
    by (vm_compute; reflexivity).
  rewrite E1 in H. apply nz_spec. exact H.
Qed.

(** C04 for already scaled, independent source series of the two wavefields. *)
Theorem C04_born_any_sources_partial (K : ops) (Kr : is_ring K) (P : par K) (recsc : list Z) (pw : nat -> Z * Z) :
  geom_ok K P pw -> Forall (loc_ok K P) (p_src P) -> Forall (loc_ok K P) (p_rec P) -> Forall (loc_ok K P) recsc ->
  forall (v scatter : arr K) (f fsc : Z -> list K) (u usc : st K) nt sr vis vis1 vis2 vrg srg vrg1 vrg2 cb cb1 cb2 w0 wsc0 st1 st2,
  (forall t, length (fsc t) = length (f t)) ->
  (0 < sr)%Z -> cb_ok nt sr cb -> cb_ok nt sr cb1 -> cb_ok nt sr cb2 ->
  fvis K P pw vis -> fvis K P pw vis1 -> fvis K P pw vis2 ->
  exists B U1 R1 S1 U2 R2 S2,
    born_forward K P recsc pw v scatter vis vrg srg sr f fsc nt cb w0 wsc0 u usc = Some B /\
    scalar_forward K P pw v vis1 vrg1 sr f nt cb1 st1 u = Some (U1, R1, S1) /\
    scalar_forward (dual K) (dpar (withrec P recsc)) pw (perturb v scatter) vis2 vrg2 sr
      (fun t => dlist (f t) (fsc t)) nt cb2 st2 (dstate u usc) = Some (U2, R2, S2) /\
    ueq K P (bo_u K B) U1 /\ (forall t, bo_r K B t = R1 t) /\
    ueq K P (bo_usc K B) (sep U2) /\ (forall t, bo_rsc K B t = lep (R2 t)).
Proof. exact (born_is_derivative K Kr P recsc pw). Qed.
Print Assumptions C04_born_any_sources_partial.

Example C04_any_sources_example : exists B R2 U2 S2,
  born_forward Qc_ops exP exb_recsc expw ex_v exb_scat ex_visF true true 1 ex_F exb_Fsc
    3 None (fun _ _ => o0 Qc_ops) (fun _ _ => o0 Qc_ops) ex_U exb_usc = Some B /\
  scalar_forward (dual Qc_ops) (dpar (withrec exP exb_recsc)) expw (perturb (K := Qc_ops) ex_v exb_scat) ex_visF false 1
    (fun t => dlist (K := Qc_ops) (ex_F t) (exb_Fsc t)) 3 None (fun _ _ => o0 (dual Qc_ops)) (dstate (K := Qc_ops) ex_U exb_usc) = Some (U2, R2, S2) /\
  bo_rsc Qc_ops B 2 = lep (R2 2%Z) /\ nth 0 (bo_rsc Qc_ops B 2) (qz 0) <> qz 0.
Proof.
  destruct (C04_born_any_sources_partial Qc_ops Qc_is_ring exP exb_recsc expw ex_geom ex_src ex_rec exb_recsc_ok
    ex_v exb_scat ex_F exb_Fsc ex_U exb_usc 3 1 ex_visF ex_visF ex_visF true true false false None None None
    (fun _ _ => o0 Qc_ops) (fun _ _ => o0 Qc_ops) (fun _ _ => o0 Qc_ops) (fun _ _ => o0 (dual Qc_ops)))
    as (B & U1 & R1 & S1 & U2 & R2 & S2 & E1 & E2 & E3 & X1 & X2 & X3 & X4);
    try (cbn; lia); try apply Permutation_refl; try reflexivity.
  exists B, R2, U2, S2. split; [exact E1|]. split; [exact E3|]. split; [apply X4|].
  assert (H : match born_forward Qc_ops exP exb_recsc expw ex_v exb_scat ex_visF true true 1 ex_F exb_Fsc
    3 None (fun _ _ => o0 Qc_ops) (fun _ _ => o0 Qc_ops) ex_U exb_usc with Some B => nz (nth 0 (bo_rsc Qc_ops B 2) (qz 0)) | None => false end = true)
    by (vm_compute; reflexivity).
  rewrite E1 in H. apply nz_spec. exact H.
Qed.

(** C04 does not hold of the unpadded models: the wavespeed is extended into the PML by
    replication but the scattering potential by zeros (scalar_born.py:454-470), so the result is
    not the derivative of the scalar propagator with respect to the user's model when the
    scattering potential is not zero beside a PML. *)
Theorem C04_padding_refuted : exists (v scatter : tens Qc) vp sp Vp B U2 R2 S2,
  extract_models (qz 0) [v; scatter] [(0, 3)%Z] [3%Z; 2%Z] [Replicate; Constant] 1 = Some [vp; sp] /\
  extract_models (qz 0, qz 0) [mktens [3%Z] (fun p => (t_at v p, t_at scatter p))] [(0, 3)%Z] [3%Z; 2%Z] [Replicate] 1 = Some [Vp] /\
  born_forward Qc_ops exP exb_recsc expw (flat_model vp) (flat_model sp) ex_visF true true 1
    (fun t => scale_amps Qc_ops exP (flat_model vp) (p_src exP) (exb_amps t))
    (fun t => scale_amps_sc Qc_ops exP (flat_model vp) (flat_model sp) (p_src exP) (exb_amps t))
    6 None (fun _ _ => o0 Qc_ops) (fun _ _ => o0 Qc_ops) (exb_zero Qc_ops) (exb_zero Qc_ops) = Some B /\
  scalar_forward (dual Qc_ops) (dpar (withrec exP exb_recsc)) expw (flat_model Vp) ex_visF true 1
    (fun t => scale_amps (dual Qc_ops) (dpar exP) (flat_model Vp) (p_src exP) (map (dconst (K := Qc_ops)) (exb_amps t)))
    6 None (fun _ _ => o0 (dual Qc_ops)) (exb_zero (dual Qc_ops)) = Some (U2, R2, S2) /\
  bo_rsc Qc_ops B 5 <> lep (R2 5%Z).
Proof.
  exists exb_v3, exb_s3.
  destruct (extract_models (qz 0) [exb_v3; exb_s3] [(0, 3)%Z] [3%Z; 2%Z] [Replicate; Constant] 1) as [[|vp [|sp [|]]]|] eqn:E1; try discriminate E1.
  destruct (extract_models (qz 0, qz 0) [mktens [3%Z] (fun p => (t_at exb_v3 p, t_at exb_s3 p))] [(0, 3)%Z] [3%Z; 2%Z] [Replicate] 1) as [[|Vp [|]]|] eqn:E2; try discriminate E2.
  assert (H : match extract_models (qz 0) [exb_v3; exb_s3] [(0, 3)%Z] [3%Z; 2%Z] [Replicate; Constant] 1, extract_models (qz 0, qz 0) [mktens [3%Z] (fun p => (t_at exb_v3 p, t_at exb_s3 p))] [(0, 3)%Z] [3%Z; 2%Z] [Replicate] 1 with
    | Some [vp; sp], Some [Vp] =>
        match born_forward Qc_ops exP exb_recsc expw (flat_model vp) (flat_model sp) ex_visF true true 1
    (fun t => scale_amps Qc_ops exP (flat_model vp) (p_src exP) (exb_amps t))
    (fun t => scale_amps_sc Qc_ops exP (flat_model vp) (flat_model sp) (p_src exP) (exb_amps t))
    6 None (fun _ _ => o0 Qc_ops) (fun _ _ => o0 Qc_ops) (exb_zero Qc_ops) (exb_zero Qc_ops), scalar_forward (dual Qc_ops) (dpar (withrec exP exb_recsc)) expw (flat_model Vp) ex_visF true 1
    (fun t => scale_amps (dual Qc_ops) (dpar exP) (flat_model Vp) (p_src exP) (map (dconst (K := Qc_ops)) (exb_amps t)))
    6 None (fun _ _ => o0 (dual Qc_ops)) (exb_zero (dual Qc_ops)) with
        | Some B, Some (_, R2, _) => nz (nth 0 (bo_rsc Qc_ops B 5) (qz 0) - nth 0 (lep (K := Qc_ops) (R2 5%Z)) (qz 0))%Qc
        | _, _ => false end
    | _, _ => false end = true) by (vm_compute; reflexivity).
  rewrite E1, E2 in H.
  destruct (born_forward Qc_ops exP exb_recsc expw (flat_model vp) (flat_model sp) ex_visF true true 1
    (fun t => scale_amps Qc_ops exP (flat_model vp) (p_src exP) (exb_amps t))
    (fun t => scale_amps_sc Qc_ops exP (flat_model vp) (flat_model sp) (p_src exP) (exb_amps t))
    6 None (fun _ _ => o0 Qc_ops) (fun _ _ => o0 Qc_ops) (exb_zero Qc_ops) (exb_zero Qc_ops)) as [B|] eqn:E3; [|discriminate H].
  destruct (scalar_forward (dual Qc_ops) (dpar (withrec exP exb_recsc)) expw (flat_model Vp) ex_visF true 1
    (fun t => scale_amps (dual Qc_ops) (dpar exP) (flat_model Vp) (p_src exP) (map (dconst (K := Qc_ops)) (exb_amps t)))
    6 None (fun _ _ => o0 (dual Qc_ops)) (exb_zero (dual Qc_ops))) as [[[U2 R2] S2]|] eqn:E4; [|discriminate H].
  exists vp, sp, Vp, B, U2, R2, S2. repeat (split; [reflexivity || assumption|]).
  intros X. apply nz_spec in H. apply H. rewrite X. change (qz 0) with 0%Qc. ring.
Qed.
Print Assumptions C04_padding_refuted.

(** C05, derivative part: the eps parts of all Born outputs (background and scattered), for inputs
    all perturbed, paired with the upstream gradients, equal the returned gradients paired with
    the perturbations.  Every step is stored; a model whose gradient is not requested is not
    perturbed. *)
Theorem C05_born_gradient_exact (K : ops) (Kr : is_ring K) (P : par K) (recsc : list Z) (pw : nat -> Z * Z) :
  geom_ok K P pw -> Forall (loc_ok K P) (p_src P) -> Forall (loc_ok K P) (p_rec P) -> Forall (loc_ok K P) recsc ->
  forall (v scatter : arr (dual K)) (f fsc : Z -> list (dual K)) (u usc : st (dual K))
    (g gsc : st K) gr grsc nt visD visF visB vrgD srgD vrg srg cbD cbF cbB w0D wsc0D w0 wsc0,
  oq K (inject_Z 1) = 1 ->
  (forall t, length (fsc t) = length (f t)) -> (forall t, length (gr t) = length (p_rec P)) ->
  (0 <= nt)%Z -> cb_ok nt 1 cbD -> cb_ok nt 1 cbF -> cb_ok nt 1 cbB ->
  fvis K P pw visD -> fvis K P pw visF -> bvis K P pw visB ->
  (vrg = false -> forall i, snd (v i) = 0) -> (srg = false -> forall i, snd (scatter i) = 0) ->
  exists BD B G,
    born_forward (dual K) (dpar P) recsc pw v scatter visD vrgD srgD 1 f fsc nt cbD w0D wsc0D u usc = Some BD /\
    born_forward K P recsc pw (are v) (are scatter) visF vrg srg 1 (fun t => lre (f t)) (fun t => lre (fsc t))
      nt cbF w0 wsc0 (sre u) (sre usc) = Some B /\
    born_backward K P recsc pw (are v) (are scatter) visB (bo_w K B) (bo_wsc K B) vrg srg 1 gr grsc nt cbB g gsc = Some G /\
    udot K P g (sep (bo_u _ BD)) + udot K P gsc (sep (bo_usc _ BD))
      + tdot nt gr (fun t => lep (bo_r _ BD t)) + tdot nt grsc (fun t => lep (bo_rsc _ BD t))
    = udot K P (bg_u K G) (sep u) + udot K P (bg_usc K G) (sep usc)
      + tdot nt (bg_f K G) (fun t => lep (f t)) + tdot nt (bg_fsc K G) (fun t => lep (fsc t))
      + adot (prodZ (p_shape P)) (bg_v K G) (aep v) + adot (prodZ (p_shape P)) (bg_scatter K G) (aep scatter).
Proof. exact (born_gradient_exact K Kr P recsc pw). Qed.
Print Assumptions C05_born_gradient_exact.

(** The hypotheses hold for the example, and the derivative there is not zero. *)
Example C05_exact_example : exists BD B G (x : Qc),
  born_forward (dual Qc_ops) (dpar exP) exb_recsc expw exb_V exb_S ex_visF false false 1 ex_DF exb_DFsc 3 None
    (fun _ _ => o0 (dual Qc_ops)) (fun _ _ => o0 (dual Qc_ops)) ex_DU exb_DUsc = Some BD /\
  born_forward Qc_ops exP exb_recsc expw (are (K := Qc_ops) exb_V) (are (K := Qc_ops) exb_S) ex_visF true true 1
    (fun t => lre (K := Qc_ops) (ex_DF t)) (fun t => lre (K := Qc_ops) (exb_DFsc t)) 3 (Some 1%Z)
    (fun _ _ => o0 Qc_ops) (fun _ _ => o0 Qc_ops) (sre (K := Qc_ops) ex_DU) (sre (K := Qc_ops) exb_DUsc) = Some B /\
  born_backward Qc_ops exP exb_recsc expw (are (K := Qc_ops) exb_V) (are (K := Qc_ops) exb_S) ex_visB (bo_w Qc_ops B) (bo_wsc Qc_ops B)
    true true 1 ex_gr exb_grsc 3 None ex_G exb_Gsc = Some G /\
  (udot Qc_ops exP ex_G (sep (bo_u _ BD)) + udot Qc_ops exP exb_Gsc (sep (bo_usc _ BD))
      + tdot (K := Qc_ops) 3 ex_gr (fun t => lep (bo_r _ BD t)) + tdot (K := Qc_ops) 3 exb_grsc (fun t => lep (bo_rsc _ BD t)))%Qc = x /\
  x <> qz 0.
Proof.
  destruct (C05_born_gradient_exact Qc_ops Qc_is_ring exP exb_recsc expw ex_geom ex_src ex_rec exb_recsc_ok
    exb_V exb_S ex_DF exb_DFsc ex_DU exb_DUsc ex_G exb_Gsc ex_gr exb_grsc 3 ex_visF ex_visF ex_visB false false true true None (Some 1%Z) None
    (fun _ _ => o0 (dual Qc_ops)) (fun _ _ => o0 (dual Qc_ops)) (fun _ _ => o0 Qc_ops) (fun _ _ => o0 Qc_ops))
    as (BD & B & G & E1 & E2 & E3 & E4);
    try (cbn; lia); try apply Permutation_refl; try reflexivity; try discriminate.
  exists BD, B, G. eexists. split; [exact E1|]. split; [exact E2|]. split; [exact E3|]. split; [reflexivity|].
  assert (H : match born_forward (dual Qc_ops) (dpar exP) exb_recsc expw exb_V exb_S ex_visF false false 1 ex_DF exb_DFsc 3 None
    (fun _ _ => o0 (dual Qc_ops)) (fun _ _ => o0 (dual Qc_ops)) ex_DU exb_DUsc with
    | Some BD => nz (udot Qc_ops exP ex_G (sep (bo_u _ BD)) + udot Qc_ops exP exb_Gsc (sep (bo_usc _ BD))
      + tdot (K := Qc_ops) 3 ex_gr (fun t => lep (bo_r _ BD t)) + tdot (K := Qc_ops) 3 exb_grsc (fun t => lep (bo_rsc _ BD t)))%Qc
    | None => false end = true) by (vm_compute; reflexivity).
  rewrite E1 in H. apply nz_spec. exact H.
Qed.

(** C05, linear part, any snapshot interval and any request flags: sources and initial wavefields. *)
Theorem C05_born_linear_gradient (K : ops) (Kr : is_ring K) (P : par K) (recsc : list Z) (pw : nat -> Z * Z) :
  geom_ok K P pw -> Forall (loc_ok K P) (p_src P) -> Forall (loc_ok K P) (p_rec P) -> Forall (loc_ok K P) recsc ->
  forall (v scatter : arr K) (f fsc : Z -> list K) (u usc g gsc : st K) gr grsc sr nt visF visB vrgF srgF vrgB srgB cbF cbB
    w0 wsc0 w wsc,
  (forall t, length (fsc t) = length (f t)) -> (forall t, length (gr t) = length (p_rec P)) ->
  (0 < sr)%Z -> (0 <= nt)%Z -> cb_ok nt sr cbF -> cb_ok nt sr cbB ->
  fvis K P pw visF -> bvis K P pw visB ->
  exists B G,
    born_forward K P recsc pw v scatter visF vrgF srgF sr f fsc nt cbF w0 wsc0 u usc = Some B /\
    born_backward K P recsc pw v scatter visB w wsc vrgB srgB sr gr grsc nt cbB g gsc = Some G /\
    udot K P g (bo_u K B) + udot K P gsc (bo_usc K B) + tdot nt gr (bo_r K B) + tdot nt grsc (bo_rsc K B)
    = udot K P (bg_u K G) u + udot K P (bg_usc K G) usc + tdot nt (bg_f K G) f + tdot nt (bg_fsc K G) fsc.
Proof. exact (born_linear_gradient K Kr P recsc pw). Qed.
Print Assumptions C05_born_linear_gradient.

Example C05_linear_example : exists B G,
  born_forward Qc_ops exP exb_recsc expw ex_v exb_scat ex_visF false true 2 ex_F exb_Fsc 5 (Some 1%Z)
    (fun _ _ => o0 Qc_ops) (fun _ _ => o0 Qc_ops) ex_U exb_usc = Some B /\
  born_backward Qc_ops exP exb_recsc expw ex_v exb_scat ex_visB (fun _ _ => o0 Qc_ops) (fun _ _ => o0 Qc_ops) true false 2
    ex_gr exb_grsc 5 None ex_G exb_Gsc = Some G /\
  (udot Qc_ops exP ex_G (bo_u _ B) + udot Qc_ops exP exb_Gsc (bo_usc _ B) + tdot (K := Qc_ops) 5 ex_gr (bo_r _ B)
     + tdot (K := Qc_ops) 5 exb_grsc (bo_rsc _ B)
   = udot Qc_ops exP (bg_u _ G) ex_U + udot Qc_ops exP (bg_usc _ G) exb_usc + tdot (K := Qc_ops) 5 (bg_f _ G) ex_F
     + tdot (K := Qc_ops) 5 (bg_fsc _ G) exb_Fsc)%Qc /\
  udot Qc_ops exP exb_Gsc (bo_usc _ B) <> qz 0.
Proof.
  destruct (C05_born_linear_gradient Qc_ops Qc_is_ring exP exb_recsc expw ex_geom ex_src ex_rec exb_recsc_ok
    ex_v exb_scat ex_F exb_Fsc ex_U exb_usc ex_G exb_Gsc ex_gr exb_grsc 2 5 ex_visF ex_visB false true true false (Some 1%Z) None
    (fun _ _ => o0 Qc_ops) (fun _ _ => o0 Qc_ops) (fun _ _ => o0 Qc_ops) (fun _ _ => o0 Qc_ops))
    as (B & G & E1 & E2 & E3); try (cbn; lia); try apply Permutation_refl; try reflexivity.
  exists B, G. split; [exact E1|]. split; [exact E2|]. split; [exact E3|].
  assert (H : match born_forward Qc_ops exP exb_recsc expw ex_v exb_scat ex_visF false true 2 ex_F exb_Fsc 5 (Some 1%Z)
    (fun _ _ => o0 Qc_ops) (fun _ _ => o0 Qc_ops) ex_U exb_usc with
    | Some B => nz (udot Qc_ops exP exb_Gsc (bo_usc _ B)) | None => false end = true) by (vm_compute; reflexivity).
  rewrite E1 in H. apply nz_spec. exact H.
Qed.

(** C05, reduced backward pass: [backward_sc] returns the scattered gradients of [backward], for
    every input (models, snapshots, upstream gradients of the background included). *)
Theorem C05_backward_sc (K : ops) (P : par K) (recsc : list Z) (pw : nat -> Z * Z)
    (v scatter : arr K) (w wsc : Z -> arr K) vrg srg sr vis gr grsc nt cb (g gsc : st K) :
  born_backward_sc K P recsc pw v vis w srg sr grsc nt cb gsc
  = option_map (fun B => (bg_usc K B, bg_fsc K B, bg_scatter K B))
      (born_backward K P recsc pw v scatter vis w wsc vrg srg sr gr grsc nt cb g gsc).
Proof. exact (born_backward_sc_half K P recsc pw v scatter w wsc vrg srg sr vis gr grsc nt cb g gsc). Qed.
Print Assumptions C05_backward_sc.

Example C05_backward_sc_example : exists G g' gf' gs',
  born_backward Qc_ops exP exb_recsc expw ex_v exb_scat ex_visB (fun t i => qz (t + i)) (fun t i => qz (t - i)) true true 2
    ex_gr exb_grsc 5 None ex_G exb_Gsc = Some G /\
  born_backward_sc Qc_ops exP exb_recsc expw ex_v ex_visB (fun t i => qz (t + i)) true 2 exb_grsc 5 None exb_Gsc = Some (g', gf', gs') /\
  gs' = bg_scatter _ G /\ gs' 4%Z <> qz 0.
Proof.
  pose proof (C05_backward_sc Qc_ops exP exb_recsc expw ex_v exb_scat (fun t i => qz (t + i)) (fun t i => qz (t - i)) true true 2
    ex_visB ex_gr exb_grsc 5 None ex_G exb_Gsc) as X.
  assert (H : match born_backward_sc Qc_ops exP exb_recsc expw ex_v ex_visB (fun t i => qz (t + i)) true 2 exb_grsc 5 None exb_Gsc with
    | Some (_, _, gs') => nz (gs' 4%Z) | None => false end = true) by (vm_compute; reflexivity).
  destruct (born_backward_sc _ _ _ _ _ _ _ _ _ _ _ _ _) as [[[g' gf'] gs']|]; [|discriminate H].
  destruct (born_backward _ _ _ _ _ _ _ _ _ _ _ _ _ _ _ _ _ _) as [G|]; [|discriminate X].
  exists G, g', gf', gs'. repeat (split; [reflexivity|]). cbn [option_map] in X. split; [congruence|].
  apply nz_spec. exact H.
Qed.

(** C43: the compiled and Python backends of the Born propagator return the same receiver data and
    wavefields (and the same PML fields when at least one step is made). *)
Theorem C43_born_backends_agree (K : ops) (Kr : is_ring K) (P : par K) (recsc : list Z) (pw : nat -> Z * Z) :
  geom_ok K P pw ->
  Forall (loc_ok_py K P) (p_src P) -> Forall (loc_ok_py K P) (p_rec P) -> Forall (loc_ok_py K P) recsc ->
  forall (v scatter : arr K) (f fsc : Z -> list K) (u usc : st K) nt sr vis vrg srg cb w0 wsc0 B,
  (forall t, length (fsc t) = length (f t)) ->
  fvis K P pw vis -> (0 < sr)%Z -> (0 <= nt)%Z -> cb_ok nt sr cb ->
  born_forward K P recsc pw v scatter vis vrg srg sr f fsc nt cb w0 wsc0 u usc = Some B ->
  let '(U', Usc', R', Rsc') :=
    born_python K P recsc (fun p => v (idx (p_shape P) p)) (fun p => scatter (idx (p_shape P) p)) sr f fsc nt u usc in
  (forall t, bo_r K B t = R' t) /\ (forall t, bo_rsc K B t = Rsc' t) /\
  (forall q, In q (upts K P) -> s_wfc K (bo_u K B) q = s_wfc K U' q /\ s_wfp K (bo_u K B) q = s_wfp K U' q) /\
  (forall q, In q (upts K P) -> s_wfc K (bo_usc K B) q = s_wfc K Usc' q /\ s_wfp K (bo_usc K B) q = s_wfp K Usc' q) /\
  ((sr <= nt)%Z -> ueq K P (bo_u K B) U' /\ ueq K P (bo_usc K B) Usc').
Proof. exact (born_backends_agree K Kr P recsc pw). Qed.
Print Assumptions C43_born_backends_agree.

Example C43_example : exists B,
  born_forward Qc_ops exP exb_recsc expw ex_v exb_scat ex_visF false false 1 ex_F exb_Fsc 3 None
    (fun _ _ => o0 Qc_ops) (fun _ _ => o0 Qc_ops) ex_U exb_usc = Some B /\
  (let '(U', Usc', R', Rsc') := born_python Qc_ops exP exb_recsc (fun p => ex_v (idx [8%Z] p)) (fun p => exb_scat (idx [8%Z] p)) 1 ex_F exb_Fsc 3 ex_U exb_usc in
   ueq Qc_ops exP (bo_usc _ B) Usc' /\ bo_rsc _ B 2 = Rsc' 2%Z) /\
  nth 0 (bo_rsc _ B 2) (qz 0) <> qz 0.
Proof.
  assert (H : match born_forward Qc_ops exP exb_recsc expw ex_v exb_scat ex_visF false false 1 ex_F exb_Fsc 3 None
    (fun _ _ => o0 Qc_ops) (fun _ _ => o0 Qc_ops) ex_U exb_usc with
    | Some B => nz (nth 0 (bo_rsc _ B 2) (qz 0)) | None => false end = true) by (vm_compute; reflexivity).
  destruct (born_forward _ _ _ _ _ _ _ _ _ _ _ _ _ _ _ _ _ _) as [B|] eqn:E; [|discriminate H].
  exists B. split; [reflexivity|]. split; [|apply nz_spec; exact H].
  pose proof (C43_born_backends_agree Qc_ops Qc_is_ring exP exb_recsc expw ex_geom ex_src_py ex_rec_py exb_recsc_py ex_v exb_scat ex_F exb_Fsc
    ex_U exb_usc 3 1 ex_visF false false None _ _ B ltac:(intros; reflexivity) (Permutation_refl _) ltac:(lia) ltac:(lia) ltac:(cbn; lia) E) as X.
  change [8%Z] with (p_shape exP).
  destruct (born_python _ _ _ _ _ _ _ _ _ _ _) as [[[U' Usc'] R'] Rsc'].
  destruct X as (X1 & X2 & X3 & X4 & X5). split; [apply X5; lia|apply X2].
Qed.
