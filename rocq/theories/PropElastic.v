(** * Properties C07 and C45: gradients and backends of the elastic propagator. *)
From Coq Require Import List ZArith QArith Qcanon Lia Bool Permutation.
From Verif Require Import Ops Sums Grid Stencil DualNum ScalarModel ScalarRefine ScalarAdjoint ScalarApi ScalarEx
  Stag StagAdj StagKernel StagCell StagRefine StagGrad StagPy AcousticEx ElasticModel ElasticThm ElasticPy ElasticEx.
Import ListNotations.
Local Open Scope K_scope.

(** C07, every step stored: the eps part of the forward function run on [input + eps perturbation]
    (both Lame parameters, [mu] at the shear stress positions, every buoyancy, body force and pressure sources, all initial
    velocities, stresses and memory variables perturbed) is the pairing of the returned gradients with the perturbation;
    models whose gradient is not requested are unperturbed.  Any number of dimensions, shape, accuracy, spacings, PML
    profiles and widths, source and receiver layout, number of steps, orders of visiting the cells, callback frequencies.
    [sroom]: in each dimension the padded model is at least 3 stencil halves wider than the PML of its first side. *)
Theorem C07_elastic_gradient_partial (nd : nat) (K : ops) (Kr : is_ring K) (P : spar (el_sys nd) K) (pw : nat -> Z * Z) :
  length (sp_shape P) = nd -> (0 < nd)%nat -> locs_ok (el_sys nd) K P (sp_src P) -> locs_ok (el_sys nd) K P (sp_rec P) ->
  sgeom (el_sys nd) K P pw -> sroom (el_sys nd) K P pw -> oq K (inject_Z 1) = 1 ->
  forall (dt : K) (mdD : eM -> arr (dual K)) (fD : krec (el_sys nd) (dual K)) (u : sst (el_sys nd) (dual K))
    (g : sst (el_sys nd) K) (gr : krec (el_sys nd) K)
    nt visDA visDB visFA visFB visBA visBB cbD cbF cbB lgD mgD bgD lg mg bg store0D store0,
  (lg = false -> forall i, snd (mdD ML i) = 0) ->
  (mg = false -> forall i, snd (mdD MMU i) = 0 /\ forall a b, snd (mdD (MS a b) i) = 0) ->
  (bg = false -> forall d i, snd (mdD (EB d) i) = 0) ->
  el_fvis nd K P pw true visDA -> el_fvis nd K P pw false visDB -> el_fvis nd K P pw true visFA -> el_fvis nd K P pw false visFB ->
  el_bvis nd K P pw true visBA -> el_bvis nd K P pw false visBB ->
  nt_ok nt 1 cbD -> nt_ok nt 1 cbF -> nt_ok nt 1 cbB ->
  exists uD rD stD uK rK stK g' gf gm,
    elastic_forward nd (dual K) (dspar P) pw (dconst dt) mdD visDA visDB lgD mgD bgD 1 fD nt cbD store0D u = Some (uD, rD, stD) /\
    elastic_forward nd K P pw dt (fun k => are (mdD k)) visFA visFB lg mg bg 1 (fun t c => lre (fD t c)) nt cbF store0 (ssre u)
      = Some (uK, rK, stK) /\
    elastic_backward nd K P pw dt (fun k => are (mdD k)) visBA visBB lg mg bg 1 gr nt cbB stK g = Some (g', gf, gm) /\
    sseq (el_sys nd) K uK (ssre uD) /\ (forall t c, In c (el_allC nd) -> rK t c = lre (rD t c)) /\
    el_udot nd K P g (ssep uD) + el_rdot nd K nt gr (fun t c => lep (rD t c))
    = el_udot nd K P g' (ssep u) + el_rdot nd K nt gf (fun t c => lep (fD t c))
      + el_mdot nd K P gm (fun k => aep (mdD k)).
Proof. exact (elastic_gradient_exact nd K Kr P pw). Qed.
Print Assumptions C07_elastic_gradient_partial.

(** The hypotheses hold for the example, and the derivative there is not zero. *)
Example C07_example : exists x, eex_sides 1 2 = Some (x, x) /\ x <> qz 0.
Proof.
  destruct (C07_elastic_gradient_partial 2 Qc_ops Qc_is_ring eexP aexpw eq_refl Nat.lt_0_2 eex_src eex_rec eex_geom eex_room eq_refl
    eex_dt eex_md eex_f eex_u eex_g eex_gr 2 (eexF true) (eexF false) (eexF true) (eexF false) (eexB true) (eexB false)
    None None None false false false true true true (fun _ _ _ => o0 (dual Qc_ops)) (fun _ _ _ => o0 Qc_ops))
    as (uD & rD & stD & uK & rK & stK & g' & gf & gm & E1 & E2 & E3 & _ & _ & E4);
    try apply Permutation_refl; try (intros H; discriminate H); try (unfold nt_ok; lia).
  unfold eex_sides. rewrite E1, E2, E3.
  eexists. split.
  - apply (f_equal Some). apply f_equal2; [reflexivity|]. exact (eq_sym E4).
  - apply nz_spec.
    assert (H : match eex_sides 1 2 with Some (x, y) => nz x | None => false end = true) by (vm_compute; reflexivity).
    unfold eex_sides in H. rewrite E1, E2, E3 in H. exact H.
Qed.

(** C07, any step ratio: gradients of the sources and of all initial wavefields (models unperturbed). *)
Theorem C07_elastic_linear_gradient_partial (nd : nat) (K : ops) (Kr : is_ring K) (P : spar (el_sys nd) K) (pw : nat -> Z * Z) :
  length (sp_shape P) = nd -> (0 < nd)%nat -> locs_ok (el_sys nd) K P (sp_src P) -> locs_ok (el_sys nd) K P (sp_rec P) ->
  sgeom (el_sys nd) K P pw -> sroom (el_sys nd) K P pw -> oq K (inject_Z 1) = 1 ->
  forall (dt : K) (md : eM -> arr K) (fD : krec (el_sys nd) (dual K)) (u : sst (el_sys nd) (dual K))
    (g : sst (el_sys nd) K) (gr : krec (el_sys nd) K)
    sr nt visDA visDB visFA visFB visBA visBB cbD cbF cbB lgD mgD bgD lg mg bg store0D store0,
  el_fvis nd K P pw true visDA -> el_fvis nd K P pw false visDB -> el_fvis nd K P pw true visFA -> el_fvis nd K P pw false visFB ->
  el_bvis nd K P pw true visBA -> el_bvis nd K P pw false visBB ->
  nt_ok nt sr cbD -> nt_ok nt sr cbF -> nt_ok nt sr cbB ->
  exists uD rD stD uK rK stK g' gf gm,
    elastic_forward nd (dual K) (dspar P) pw (dconst dt) (fun k i => dconst (md k i)) visDA visDB lgD mgD bgD sr fD nt cbD store0D u
      = Some (uD, rD, stD) /\
    elastic_forward nd K P pw dt md visFA visFB lg mg bg sr (fun t c => lre (fD t c)) nt cbF store0 (ssre u) = Some (uK, rK, stK) /\
    elastic_backward nd K P pw dt md visBA visBB lg mg bg sr gr nt cbB stK g = Some (g', gf, gm) /\
    el_udot nd K P g (ssep uD) + el_rdot nd K nt gr (fun t c => lep (rD t c))
    = el_udot nd K P g' (ssep u) + el_rdot nd K nt gf (fun t c => lep (fD t c)).
Proof. exact (elastic_linear_gradient nd K Kr P pw). Qed.
Print Assumptions C07_elastic_linear_gradient_partial.

Example C07_linear_example : exists uD rD stD uK rK stK g' gf gm,
  elastic_forward 2 (dual Qc_ops) (dspar eexP) aexpw (dconst (K := Qc_ops) eex_dt) (fun k i => dconst (K := Qc_ops) (fst (eex_md k i)))
    (eexF true) (eexF false) false false false 2 eex_f 4 None (fun _ _ _ => o0 (dual Qc_ops)) eex_u = Some (uD, rD, stD) /\
  elastic_forward 2 Qc_ops eexP aexpw eex_dt (fun k => are (eex_md k))
    (eexF true) (eexF false) true true true 2 (fun t c => lre (eex_f t c)) 4 None (fun _ _ _ => o0 Qc_ops) (ssre eex_u) = Some (uK, rK, stK) /\
  elastic_backward 2 Qc_ops eexP aexpw eex_dt (fun k => are (eex_md k))
    (eexB true) (eexB false) true true true 2 eex_gr 4 None stK eex_g = Some (g', gf, gm) /\
  el_udot 2 Qc_ops eexP eex_g (ssep uD) + el_rdot 2 Qc_ops 4 eex_gr (fun t c => lep (rD t c))
  = el_udot 2 Qc_ops eexP g' (ssep eex_u) + el_rdot 2 Qc_ops 4 gf (fun t c => lep (eex_f t c)) /\
  el_udot 2 Qc_ops eexP eex_g (ssep uD) <> qz 0.
Proof.
  destruct (C07_elastic_linear_gradient_partial 2 Qc_ops Qc_is_ring eexP aexpw eq_refl Nat.lt_0_2 eex_src eex_rec eex_geom eex_room eq_refl
    eex_dt (fun k => are (eex_md k)) eex_f eex_u eex_g eex_gr 2 4 (eexF true) (eexF false) (eexF true) (eexF false) (eexB true) (eexB false)
    None None None false false false true true true (fun _ _ _ => o0 (dual Qc_ops)) (fun _ _ _ => o0 Qc_ops))
    as (uD & rD & stD & uK & rK & stK & g' & gf & gm & E1 & E2 & E3 & E4);
    try apply Permutation_refl; try (unfold nt_ok; lia).
  exists uD, rD, stD, uK, rK, stK, g', gf, gm. split; [exact E1|]. split; [exact E2|]. split; [exact E3|]. split; [exact E4|].
  assert (H : match elastic_forward 2 (dual Qc_ops) (dspar eexP) aexpw (dconst (K := Qc_ops) eex_dt) (fun k i => dconst (K := Qc_ops) (fst (eex_md k i)))
    (eexF true) (eexF false) false false false 2 eex_f 4 None (fun _ _ _ => o0 (dual Qc_ops)) eex_u
    with Some (uD, _, _) => nz (el_udot 2 Qc_ops eexP eex_g (ssep uD)) | None => false end = true) by (vm_compute; reflexivity).
  unfold are in E1. rewrite E1 in H. apply nz_spec. exact H.
Qed.

(** Without [sroom] the claim is false: with accuracy 4, no PML and a model one cell wide (all other
    hypotheses hold) the backward function returns gradients of an initial velocity that the forward
    function never uses. *)
Theorem C07_narrow_refuted :
  exists (P : spar (el_sys 2) Qc_ops) pw dt mdD fD u g gr visDA visDB visBA visBB uD rD stD g' gf gm,
    length (sp_shape P) = 2%nat /\ locs_ok (el_sys 2) Qc_ops P (sp_src P) /\ locs_ok (el_sys 2) Qc_ops P (sp_rec P) /\
    sgeom (el_sys 2) Qc_ops P pw /\ (forall k i, snd (mdD k i) = o0 Qc_ops) /\
    el_fvis 2 Qc_ops P pw true visDA /\ el_fvis 2 Qc_ops P pw false visDB /\
    el_bvis 2 Qc_ops P pw true visBA /\ el_bvis 2 Qc_ops P pw false visBB /\
    elastic_forward 2 (dual Qc_ops) (dspar P) pw (dconst dt) mdD visDA visDB false false false 1 fD 1 None
      (fun _ _ _ => o0 (dual Qc_ops)) u = Some (uD, rD, stD) /\
    elastic_backward 2 Qc_ops P pw dt (fun k => are (mdD k)) visBA visBB false false false 1 gr 1 None
      (fun _ _ _ => o0 Qc_ops) g = Some (g', gf, gm) /\
    oadd Qc_ops (el_udot 2 Qc_ops P g (ssep uD)) (el_rdot 2 Qc_ops 1 gr (fun t c => lep (rD t c)))
    <> oadd Qc_ops (el_udot 2 Qc_ops P g' (ssep u)) (el_rdot 2 Qc_ops 1 gf (fun t c => lep (fD t c))).
Proof. exact mex_refuted. Qed.
Print Assumptions C07_narrow_refuted.

(** C45: the compiled driver (any visiting order, callback frequency, snapshots saved or not) and the Python
    backend return the same velocities, stresses, memory variables and receiver amplitudes of every kind; any dimension,
    shape, accuracy, PML widths and profiles, number of steps. *)
Theorem C45_elastic_backends_agree (nd : nat) (K : ops) (Kr : is_ring K) (P : spar (el_sys nd) K) (pw : nat -> Z * Z)
    (dt : K) (md : eM -> arr K) :
  length (sp_shape P) = nd -> (0 < nd)%nat -> locs_ok (el_sys nd) K P (sp_src P) -> locs_ok (el_sys nd) K P (sp_rec P) ->
  ign_ok (el_sys nd) (sp_src P) -> ign_ok (el_sys nd) (sp_rec P) -> sgeom (el_sys nd) K P pw ->
  forall f u nt sr visA visB lg mg bg cb store,
  el_fvis nd K P pw true visA -> el_fvis nd K P pw false visB -> nt_ok nt sr cb ->
  exists U R st U' R',
  elastic_forward nd K P pw dt md visA visB lg mg bg sr f nt cb store u = Some (U, R, st) /\
  elastic_python nd K P dt md pw sr f nt u = (U', R') /\
  sseq (el_sys nd) K U U' /\ forall t c, In c (el_allC nd) -> R t c = R' t c.
Proof. exact (elastic_backends_agree nd K Kr P pw dt md). Qed.
Print Assumptions C45_elastic_backends_agree.

Example C45_example : exists U R st U' R',
  elastic_forward 2 Qc_ops eexP aexpw eex_dt (fun k => are (eex_md k)) (eexF true) (eexF false) true false true 2
    (fun t c => lre (eex_f t c)) 3 None (fun _ _ _ => o0 Qc_ops) (ssre eex_u) = Some (U, R, st) /\
  elastic_python 2 Qc_ops eexP eex_dt (fun k => are (eex_md k)) aexpw 2 (fun t c => lre (eex_f t c)) 3 (ssre eex_u) = (U', R') /\
  (forall p, mn U (VL 1) p = mn U' (VL 1) p /\ mn U (Sg 0 1) p = mn U' (Sg 0 1) p /\ me U (DS 0 1) p = me U' (DS 0 1) p) /\ R 1%Z CP = R' 1%Z CP /\
  mn U' (VL 1) [2%Z; 2%Z] <> qz 0 /\ me U' (DV 0 0) [1%Z; 2%Z] <> qz 0 /\ R' 1%Z CP <> [qz 0].
Proof.
  destruct (C45_elastic_backends_agree 2 Qc_ops Qc_is_ring eexP aexpw eex_dt (fun k => are (eex_md k)) eq_refl Nat.lt_0_2 eex_src eex_rec
    eex_isrc eex_irec eex_geom (fun t c => lre (eex_f t c)) (ssre eex_u) 3 2 (eexF true) (eexF false) true false true None (fun _ _ _ => o0 Qc_ops))
    as (U & R & st & U' & R' & E1 & E2 & [EX EE] & E4); try apply Permutation_refl; try (unfold nt_ok; lia).
  exists U, R, st, U', R'. split; [exact E1|]. split; [exact E2|].
  split; [intros p; split; [|split]; [apply EX|apply EX|apply EE]; cbn; tauto|].
  split; [apply E4; cbn; tauto|].
  assert (H : let '(U', R') := elastic_python 2 Qc_ops eexP eex_dt (fun k => are (eex_md k)) aexpw 2 (fun t c => lre (eex_f t c)) 3 (ssre eex_u) in
    nz (mn U' (VL 1) [2%Z; 2%Z]) && nz (me U' (DV 0 0) [1%Z; 2%Z]) && match R' 1%Z CP with [y] => nz y | _ => false end = true) by (vm_compute; reflexivity).
  rewrite E2 in H. rewrite !andb_true_iff in H. destruct H as [[H1 H2] H3].
  split; [apply nz_spec, H1|]. split; [apply nz_spec, H2|].
  intros E. rewrite E in H3. discriminate H3.
Qed.
