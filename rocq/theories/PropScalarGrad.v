(** * Properties C01, C02, C03: gradients of the scalar propagator. *)
From Coq Require Import List ZArith QArith Qcanon Lia Permutation.
From Verif Require Import Ops Sums Grid Stencil DualNum ScalarModel ScalarRefine ScalarForward
  ScalarBackward ScalarAdjoint ScalarFunc ScalarApi ScalarGrad ScalarEx.
Import ListNotations.
Local Open Scope K_scope.

(** C01: for every commutative ring, number of dimensions, shape, accuracy, PML profile and
    widths, wavespeed, step ratio, number of steps, source and receiver layout (negative
    locations are ignored), order of visiting cells, callback frequencies:
    [<G, wavefields> + <gr, receivers> = <G0, initial wavefields> + <gf, sources>]. *)
Theorem C01_scalar_linear_gradient (K : ops) (Kr : is_ring K) (P : par K) (pw : nat -> Z * Z) :
  geom_ok K P pw -> Forall (loc_ok K P) (p_src P) -> Forall (loc_ok K P) (p_rec P) ->
  forall (v : arr K) F U G gr sr nt visF visB vrgF vrgB cbF cbB store0 store,
  (0 < sr)%Z -> (0 <= nt)%Z -> cb_ok nt sr cbF -> cb_ok nt sr cbB ->
  fvis K P pw visF -> bvis K P pw visB ->
  exists U' R' S' G0 gf gv,
    scalar_forward K P pw v visF vrgF sr F nt cbF store0 U = Some (U', R', S') /\
    scalar_backward K P pw v visB store vrgB sr gr nt cbB G = Some (G0, gf, gv) /\
    udot K P G U' + tdot nt gr R' = udot K P G0 U + tdot nt gf F.
Proof. exact (scalar_linear_gradient K Kr P pw). Qed.
Print Assumptions C01_scalar_linear_gradient.

Example C01_example : exists U' R' S' G0 gf gv,
  scalar_forward Qc_ops exP expw ex_v ex_visF false 2 ex_F 5 (Some 1%Z) (fun _ _ => o0 Qc_ops) ex_U = Some (U', R', S') /\
  scalar_backward Qc_ops exP expw ex_v ex_visB (fun _ _ => o0 Qc_ops) false 2 ex_gr 5 None ex_G = Some (G0, gf, gv) /\
  udot Qc_ops exP ex_G U' + tdot (K := Qc_ops) 5 ex_gr R' = udot Qc_ops exP G0 ex_U + tdot (K := Qc_ops) 5 gf ex_F /\
  udot Qc_ops exP ex_G U' <> qz 0.
Proof.
  destruct (C01_scalar_linear_gradient Qc_ops Qc_is_ring exP expw ex_geom ex_src ex_rec
    ex_v ex_F ex_U ex_G ex_gr 2 5 ex_visF ex_visB false false (Some 1%Z) None (fun _ _ => o0 Qc_ops) (fun _ _ => o0 Qc_ops))
    as (U' & R' & S' & G0 & gf & gv & E1 & E2 & E3); try (cbn; lia); try apply Permutation_refl.
  exists U', R', S', G0, gf, gv. split; [exact E1|]. split; [exact E2|]. split; [exact E3|].
  assert (H : match scalar_forward Qc_ops exP expw ex_v ex_visF false 2 ex_F 5 (Some 1%Z) (fun _ _ => o0 Qc_ops) ex_U
              with Some (U', _, _) => nz (udot Qc_ops exP ex_G U') | None => false end = true)
    by (vm_compute; reflexivity).
  rewrite E1 in H. apply nz_spec. exact H.
Qed.

(** C02: the eps part of the forward function run on [input + eps perturbation] (wavespeed,
    sources and initial wavefields all perturbed) is the pairing of the returned gradients
    with the perturbation, when every step is stored ([sr = 1]). *)
Theorem C02_scalar_gradient_exact (K : ops) (Kr : is_ring K) (P : par K) (pw : nat -> Z * Z) :
  geom_ok K P pw -> Forall (loc_ok K P) (p_src P) -> Forall (loc_ok K P) (p_rec P) ->
  forall (V : arr (dual K)) (F : Z -> list (dual K)) (U : st (dual K)) (G : st K) gr
    nt visD visF visB vrgD cbD cbF cbB store0D store0,
  oq K (inject_Z 1) = 1 ->
  (0 <= nt)%Z -> cb_ok nt 1 cbD -> cb_ok nt 1 cbF -> cb_ok nt 1 cbB ->
  fvis K P pw visD -> fvis K P pw visF -> bvis K P pw visB ->
  exists U' R' SD UK RK S' G0 gf gv,
    scalar_forward (dual K) (dpar P) pw V visD vrgD 1 F nt cbD store0D U = Some (U', R', SD) /\
    scalar_forward K P pw (are V) visF true 1 (fun t => lre (F t)) nt cbF store0 (sre U) = Some (UK, RK, S') /\
    scalar_backward K P pw (are V) visB S' true 1 gr nt cbB G = Some (G0, gf, gv) /\
    udot K P G (sep U') + tdot nt gr (fun t => lep (R' t))
    = udot K P G0 (sep U) + tdot nt gf (fun t => lep (F t)) + adot (prodZ (p_shape P)) gv (aep V).
Proof. exact (scalar_gradient_exact K Kr P pw). Qed.
Print Assumptions C02_scalar_gradient_exact.

(** The hypotheses hold for the example, and the derivative there is not zero. *)
Example C02_example : exists x, ex_sides 1 3 = Some (x, x) /\ x <> qz 0.
Proof.
  destruct (C02_scalar_gradient_exact Qc_ops Qc_is_ring exP expw ex_geom ex_src ex_rec
    ex_V ex_DF ex_DU ex_G ex_gr 3 ex_visF ex_visF ex_visB false None None None
    (fun _ _ => o0 (dual Qc_ops)) (fun _ _ => o0 Qc_ops))
    as (U' & R' & SD & UK & RK & S' & G0 & gf & gv & E1 & E2 & E3 & E4);
    try (cbn; lia); try apply Permutation_refl; [reflexivity|].
  unfold ex_sides. rewrite E1, E2, E3.
  eexists. split.
  - apply (f_equal Some). apply f_equal2; [reflexivity|]. exact (eq_sym E4).
  - apply nz_spec.
    assert (H : match ex_sides 1 3 with Some (x, y) => nz x | None => false end = true)
      by (vm_compute; reflexivity).
    unfold ex_sides in H. rewrite E1, E2, E3 in H. exact H.
Qed.

(** C03: with snapshots every [sr] steps the wavespeed gradient is [sr] times the sum of the
    exact contributions of the steps [0, sr, 2 sr, ...] ([step_contrib]: derivative with the
    wavespeed of that single step perturbed); the factor is written as a sum of [sr] copies,
    given that the conversion of the integer [sr] to the number type is exact. *)
Theorem C03_scalar_gradient_sampled (K : ops) (Kr : is_ring K) (P : par K) (pw : nat -> Z * Z) :
  geom_ok K P pw -> Forall (loc_ok K P) (p_src P) -> Forall (loc_ok K P) (p_rec P) ->
  forall (v : arr K) F U G gr sr nt visF visB cbF cbB store0 U' R' S' G0 gf gv dv (e : nat -> K),
  oq K (inject_Z sr) = sumk K (Z.to_nat sr) (fun _ => 1) ->
  (0 < sr)%Z -> (0 <= nt)%Z -> cb_ok nt sr cbF -> cb_ok nt sr cbB ->
  fvis K P pw visF -> bvis K P pw visB ->
  scalar_forward K P pw v visF true sr F nt cbF store0 U = Some (U', R', S') ->
  scalar_backward K P pw v visB S' true sr gr nt cbB G = Some (G0, gf, gv) ->
  (forall j, (j < Z.to_nat (nt / sr))%nat ->
     step_contrib P pw visF v dv F (nt / sr * sr) U G gr (Z.of_nat j * sr) (e j)) ->
  adot (prodZ (p_shape P)) gv dv = sumk K (Z.to_nat sr) (fun _ => sumk K (Z.to_nat (nt / sr)) e).
Proof. exact (scalar_gradient_sampled K Kr P pw). Qed.
Print Assumptions C03_scalar_gradient_sampled.

(** The contributions always exist. *)
Theorem C03_contribution_exists (K : ops) (Kr : is_ring K) (P : par K) (pw : nat -> Z * Z) :
  geom_ok K P pw -> Forall (loc_ok K P) (p_src P) -> Forall (loc_ok K P) (p_rec P) ->
  forall (v dv : arr K) F nt U G gr u vis,
  fvis K P pw vis -> (0 <= u < nt)%Z -> exists e, step_contrib P pw vis v dv F nt U G gr u e.
Proof. exact (step_contrib_exists K Kr P pw). Qed.
Print Assumptions C03_contribution_exists.

(** The gradients of wavefields and sources do not depend on the interval, the storage, the
    callbacks or the visiting order. *)
Theorem C03_other_gradients_independent (K : ops) (Kr : is_ring K) (P : par K) (pw : nat -> Z * Z) :
  geom_ok K P pw -> Forall (loc_ok K P) (p_src P) -> Forall (loc_ok K P) (p_rec P) ->
  forall (v : arr K) G gr sr1 sr2 nt vis1 vis2 st1 st2 vrg1 vrg2 cb1 cb2 G1 gf1 gv1 G2 gf2 gv2,
  (0 < sr1)%Z -> (0 < sr2)%Z -> (nt / sr1 * sr1 = nt / sr2 * sr2)%Z ->
  cb_ok nt sr1 cb1 -> cb_ok nt sr2 cb2 -> bvis K P pw vis1 -> bvis K P pw vis2 ->
  scalar_backward K P pw v vis1 st1 vrg1 sr1 gr nt cb1 G = Some (G1, gf1, gv1) ->
  scalar_backward K P pw v vis2 st2 vrg2 sr2 gr nt cb2 G = Some (G2, gf2, gv2) ->
  ueq K P G1 G2 /\ forall t, gf1 t = gf2 t.
Proof. exact (scalar_gradient_interval K Kr P pw). Qed.
Print Assumptions C03_other_gradients_independent.

Example C03_example : exists x, 
  (exists U' R' S' G0 gf gv,
    scalar_forward Qc_ops exP expw ex_v ex_visF true 2 ex_F 4 None (fun _ _ => o0 Qc_ops) ex_U = Some (U', R', S') /\
    scalar_backward Qc_ops exP expw ex_v ex_visB S' true 2 ex_gr 4 None ex_G = Some (G0, gf, gv) /\
    adot (K := Qc_ops) 8 gv ex_dv = x) /\
  (exists e0 e1, step_contrib exP expw ex_visF ex_v ex_dv ex_F 4 ex_U ex_G ex_gr 0 e0 /\
                 step_contrib exP expw ex_visF ex_v ex_dv ex_F 4 ex_U ex_G ex_gr 2 e1 /\
                 x = qz 2 * (e0 + e1))%Qc /\ x <> qz 0.
Proof.
  destruct (scalar_forward_spec Qc_ops Qc_is_ring exP expw ex_geom ex_src ex_rec ex_v ex_visF true 2 ex_F 4 None
     (fun _ _ => o0 Qc_ops) ex_U (Permutation_refl _) ltac:(lia) ltac:(cbn; lia)) as (U' & R' & S' & EF & _).
  destruct (scalar_backward_spec Qc_ops Qc_is_ring exP expw ex_geom ex_src ex_rec ex_v ex_visB S' true 2 ex_gr 4 None
     ex_G (Permutation_refl _) ltac:(lia) ltac:(cbn; lia)) as (G0 & gf & gv & EB & _).
  destruct (C03_contribution_exists Qc_ops Qc_is_ring exP expw ex_geom ex_src ex_rec ex_v ex_dv ex_F 4 ex_U ex_G ex_gr 0
     ex_visF (Permutation_refl _) ltac:(lia)) as (e0 & H0).
  destruct (C03_contribution_exists Qc_ops Qc_is_ring exP expw ex_geom ex_src ex_rec ex_v ex_dv ex_F 4 ex_U ex_G ex_gr 2
     ex_visF (Permutation_refl _) ltac:(lia)) as (e1 & H1).
  exists (adot (K := Qc_ops) 8 gv ex_dv). split; [exists U', R', S', G0, gf, gv; auto|]. split.
  - exists e0, e1. split; [exact H0|]. split; [exact H1|].
    transitivity (sumk Qc_ops 2 (fun _ => sumk Qc_ops 2 (fun j => match j with O => e0 | _ => e1 end))).
    + apply (C03_scalar_gradient_sampled Qc_ops Qc_is_ring exP expw ex_geom ex_src ex_rec
        ex_v ex_F ex_U ex_G ex_gr 2 4 ex_visF ex_visB None None (fun _ _ => o0 Qc_ops) U' R' S' G0 gf gv ex_dv);
        try (cbn; lia); try apply Permutation_refl; auto.
      intros j Hj. change (Z.to_nat (4 / 2)) with 2%nat in Hj.
      destruct j as [|[|j]]; [exact H0|exact H1|lia].
    + unfold sumk. cbn [seq sumf]. cbn. unfold qz.
      replace (Q2Qc (inject_Z 2)) with (1 + 1)%Qc by reflexivity. ring.
  - apply nz_spec.
    assert (H : match scalar_forward Qc_ops exP expw ex_v ex_visF true 2 ex_F 4 None (fun _ _ => o0 Qc_ops) ex_U with
                | Some (_, _, S') =>
                    match scalar_backward Qc_ops exP expw ex_v ex_visB S' true 2 ex_gr 4 None ex_G with
                    | Some (_, _, gv) => nz (adot (K := Qc_ops) 8 gv ex_dv) | None => false end
                | None => false end = true) by (vm_compute; reflexivity).
    rewrite EF, EB in H. exact H.
Qed.

(** With an interval larger than one the returned gradient is not the derivative in general. *)
Theorem C03_interval_2_not_exact :
  exists x y, ex_sides 2 4 = Some (x, y) /\ x <> y.
Proof.
  assert (H : match ex_sides 2 4 with Some (x, y) => nz (x - y)%Qc | None => false end = true)
    by (vm_compute; reflexivity).
  destruct (ex_sides 2 4) as [[x y]|]; [|discriminate].
  exists x, y. split; [reflexivity|]. intros ->. apply nz_spec in H. apply H. apply Qcplus_opp_r.
Qed.
Print Assumptions C03_interval_2_not_exact.
