(** * Properties C06 and C39: gradients and backends of the variable-density acoustic propagator. *)
From Coq Require Import List ZArith QArith Qcanon Lia Bool Permutation.
From Verif Require Import Ops Sums Grid Stencil DualNum ScalarModel ScalarRefine ScalarAdjoint ScalarApi ScalarEx
  Stag StagAdj StagKernel StagCell StagRefine StagGrad StagPy AcousticModel AcousticThm AcousticPy AcousticEx.
Import ListNotations.
Local Open Scope K_scope.

(** C06, every step stored: the eps part of the forward function run on [input + eps perturbation]
    (bulk modulus, every buoyancy, pressure and velocity sources, all initial wavefields and memory variables
    perturbed) is the pairing of the returned gradients with the perturbation; models whose gradient is not
    requested are unperturbed.  Any number of dimensions, shape, accuracy, spacings, PML profiles and widths, source
    and receiver layout, number of steps, orders of visiting the cells, callback frequencies.
    [sroom]: in each dimension the padded model is at least 3 stencil halves wider than the PML of its first side. *)
Theorem C06_acoustic_gradient_partial (nd : nat) (K : ops) (Kr : is_ring K) (P : spar (ac_sys nd) K) (pw : nat -> Z * Z) :
  length (sp_shape P) = nd -> locs_ok (ac_sys nd) K P (sp_src P) -> locs_ok (ac_sys nd) K P (sp_rec P) ->
  sgeom (ac_sys nd) K P pw -> sroom (ac_sys nd) K P pw -> oq K (inject_Z 1) = 1 ->
  forall (dt : K) (kbD : aM -> arr (dual K)) (fD : krec (ac_sys nd) (dual K)) (u : sst (ac_sys nd) (dual K))
    (g : sst (ac_sys nd) K) (gr : krec (ac_sys nd) K)
    nt visDA visDB visFA visFB visBA visBB cbD cbF cbB kgD bgD kg bg store0D store0,
  (kg = false -> forall i, snd (kbD MK i) = 0) -> (bg = false -> forall d i, snd (kbD (MB d) i) = 0) ->
  ac_fvis nd K P pw true visDA -> ac_fvis nd K P pw false visDB -> ac_fvis nd K P pw true visFA -> ac_fvis nd K P pw false visFB ->
  ac_bvis nd K P pw true visBA -> ac_bvis nd K P pw false visBB ->
  nt_ok nt 1 cbD -> nt_ok nt 1 cbF -> nt_ok nt 1 cbB ->
  exists uD rD stD uK rK stK g' gf gm,
    acoustic_forward nd (dual K) (dspar P) pw (dconst dt) kbD visDA visDB kgD bgD 1 fD nt cbD store0D u = Some (uD, rD, stD) /\
    acoustic_forward nd K P pw dt (fun k => are (kbD k)) visFA visFB kg bg 1 (fun t c => lre (fD t c)) nt cbF store0 (ssre u)
      = Some (uK, rK, stK) /\
    acoustic_backward nd K P pw dt (fun k => are (kbD k)) visBA visBB kg bg 1 gr nt cbB stK g = Some (g', gf, gm) /\
    sseq (ac_sys nd) K uK (ssre uD) /\ (forall t c, In c (ac_allX nd) -> rK t c = lre (rD t c)) /\
    ac_udot nd K P g (ssep uD) + ac_rdot nd K nt gr (fun t c => lep (rD t c))
    = ac_udot nd K P g' (ssep u) + ac_rdot nd K nt gf (fun t c => lep (fD t c))
      + ac_mdot nd K P gm (fun k => aep (kbD k)).
Proof. exact (acoustic_gradient_exact nd K Kr P pw). Qed.
Print Assumptions C06_acoustic_gradient_partial.

(** The hypotheses hold for the example, and the derivative there is not zero. *)
Example C06_example : exists x, aex_sides 1 2 = Some (x, x) /\ x <> qz 0.
Proof.
  destruct (C06_acoustic_gradient_partial 2 Qc_ops Qc_is_ring aexP aexpw eq_refl aex_src aex_rec aex_geom aex_room eq_refl
    aex_dt aex_kb aex_f aex_u aex_g aex_gr 2 (aexF true) (aexF false) (aexF true) (aexF false) (aexB true) (aexB false)
    None None None false false true true (fun _ _ _ => o0 (dual Qc_ops)) (fun _ _ _ => o0 Qc_ops))
    as (uD & rD & stD & uK & rK & stK & g' & gf & gm & E1 & E2 & E3 & _ & _ & E4);
    try apply Permutation_refl; try (intros H; discriminate H); try (unfold nt_ok; lia).
  unfold aex_sides. rewrite E1, E2, E3.
  eexists. split.
  - apply (f_equal Some). apply f_equal2; [reflexivity|]. exact (eq_sym E4).
  - apply nz_spec.
    assert (H : match aex_sides 1 2 with Some (x, y) => nz x | None => false end = true) by (vm_compute; reflexivity).
    unfold aex_sides in H. rewrite E1, E2, E3 in H. exact H.
Qed.

(** C06, any step ratio: gradients of the sources and of all initial wavefields (models unperturbed). *)
Theorem C06_acoustic_linear_gradient_partial (nd : nat) (K : ops) (Kr : is_ring K) (P : spar (ac_sys nd) K) (pw : nat -> Z * Z) :
  length (sp_shape P) = nd -> locs_ok (ac_sys nd) K P (sp_src P) -> locs_ok (ac_sys nd) K P (sp_rec P) ->
  sgeom (ac_sys nd) K P pw -> sroom (ac_sys nd) K P pw -> oq K (inject_Z 1) = 1 ->
  forall (dt : K) (kb : aM -> arr K) (fD : krec (ac_sys nd) (dual K)) (u : sst (ac_sys nd) (dual K))
    (g : sst (ac_sys nd) K) (gr : krec (ac_sys nd) K)
    sr nt visDA visDB visFA visFB visBA visBB cbD cbF cbB kgD bgD kg bg store0D store0,
  ac_fvis nd K P pw true visDA -> ac_fvis nd K P pw false visDB -> ac_fvis nd K P pw true visFA -> ac_fvis nd K P pw false visFB ->
  ac_bvis nd K P pw true visBA -> ac_bvis nd K P pw false visBB ->
  nt_ok nt sr cbD -> nt_ok nt sr cbF -> nt_ok nt sr cbB ->
  exists uD rD stD uK rK stK g' gf gm,
    acoustic_forward nd (dual K) (dspar P) pw (dconst dt) (fun k i => dconst (kb k i)) visDA visDB kgD bgD sr fD nt cbD store0D u
      = Some (uD, rD, stD) /\
    acoustic_forward nd K P pw dt kb visFA visFB kg bg sr (fun t c => lre (fD t c)) nt cbF store0 (ssre u) = Some (uK, rK, stK) /\
    acoustic_backward nd K P pw dt kb visBA visBB kg bg sr gr nt cbB stK g = Some (g', gf, gm) /\
    ac_udot nd K P g (ssep uD) + ac_rdot nd K nt gr (fun t c => lep (rD t c))
    = ac_udot nd K P g' (ssep u) + ac_rdot nd K nt gf (fun t c => lep (fD t c)).
Proof. exact (acoustic_linear_gradient nd K Kr P pw). Qed.
Print Assumptions C06_acoustic_linear_gradient_partial.

Example C06_linear_example : exists uD rD stD uK rK stK g' gf gm,
  acoustic_forward 2 (dual Qc_ops) (dspar aexP) aexpw (dconst (K := Qc_ops) aex_dt) (fun k i => dconst (K := Qc_ops) (fst (aex_kb k i)))
    (aexF true) (aexF false) false false 2 aex_f 4 None (fun _ _ _ => o0 (dual Qc_ops)) aex_u = Some (uD, rD, stD) /\
  acoustic_forward 2 Qc_ops aexP aexpw aex_dt (fun k => are (aex_kb k))
    (aexF true) (aexF false) true true 2 (fun t c => lre (aex_f t c)) 4 None (fun _ _ _ => o0 Qc_ops) (ssre aex_u) = Some (uK, rK, stK) /\
  acoustic_backward 2 Qc_ops aexP aexpw aex_dt (fun k => are (aex_kb k))
    (aexB true) (aexB false) true true 2 aex_gr 4 None stK aex_g = Some (g', gf, gm) /\
  ac_udot 2 Qc_ops aexP aex_g (ssep uD) + ac_rdot 2 Qc_ops 4 aex_gr (fun t c => lep (rD t c))
  = ac_udot 2 Qc_ops aexP g' (ssep aex_u) + ac_rdot 2 Qc_ops 4 gf (fun t c => lep (aex_f t c)) /\
  ac_udot 2 Qc_ops aexP aex_g (ssep uD) <> qz 0.
Proof.
  destruct (C06_acoustic_linear_gradient_partial 2 Qc_ops Qc_is_ring aexP aexpw eq_refl aex_src aex_rec aex_geom aex_room eq_refl
    aex_dt (fun k => are (aex_kb k)) aex_f aex_u aex_g aex_gr 2 4 (aexF true) (aexF false) (aexF true) (aexF false) (aexB true) (aexB false)
    None None None false false true true (fun _ _ _ => o0 (dual Qc_ops)) (fun _ _ _ => o0 Qc_ops))
    as (uD & rD & stD & uK & rK & stK & g' & gf & gm & E1 & E2 & E3 & E4);
    try apply Permutation_refl; try (unfold nt_ok; lia).
  exists uD, rD, stD, uK, rK, stK, g', gf, gm. split; [exact E1|]. split; [exact E2|]. split; [exact E3|]. split; [exact E4|].
  assert (H : match acoustic_forward 2 (dual Qc_ops) (dspar aexP) aexpw (dconst (K := Qc_ops) aex_dt) (fun k i => dconst (K := Qc_ops) (fst (aex_kb k i)))
    (aexF true) (aexF false) false false 2 aex_f 4 None (fun _ _ _ => o0 (dual Qc_ops)) aex_u
    with Some (uD, _, _) => nz (ac_udot 2 Qc_ops aexP aex_g (ssep uD)) | None => false end = true) by (vm_compute; reflexivity).
  unfold are in E1. rewrite E1 in H. apply nz_spec. exact H.
Qed.

(** Without [sroom] the claim is false: with accuracy 4, no PML and a model one cell wide (all other
    hypotheses hold) the backward function returns gradients of an initial velocity that the forward
    function never uses. *)
Theorem C06_narrow_refuted :
  exists (P : spar (ac_sys 2) Qc_ops) pw dt kbD fD u g gr visDA visDB visBA visBB uD rD stD g' gf gm,
    length (sp_shape P) = 2%nat /\ locs_ok (ac_sys 2) Qc_ops P (sp_src P) /\ locs_ok (ac_sys 2) Qc_ops P (sp_rec P) /\
    sgeom (ac_sys 2) Qc_ops P pw /\ (forall k i, snd (kbD k i) = o0 Qc_ops) /\
    ac_fvis 2 Qc_ops P pw true visDA /\ ac_fvis 2 Qc_ops P pw false visDB /\
    ac_bvis 2 Qc_ops P pw true visBA /\ ac_bvis 2 Qc_ops P pw false visBB /\
    acoustic_forward 2 (dual Qc_ops) (dspar P) pw (dconst dt) kbD visDA visDB false false 1 fD 1 None
      (fun _ _ _ => o0 (dual Qc_ops)) u = Some (uD, rD, stD) /\
    acoustic_backward 2 Qc_ops P pw dt (fun k => are (kbD k)) visBA visBB false false 1 gr 1 None
      (fun _ _ _ => o0 Qc_ops) g = Some (g', gf, gm) /\
    oadd Qc_ops (ac_udot 2 Qc_ops P g (ssep uD)) (ac_rdot 2 Qc_ops 1 gr (fun t c => lep (rD t c)))
    <> oadd Qc_ops (ac_udot 2 Qc_ops P g' (ssep u)) (ac_rdot 2 Qc_ops 1 gf (fun t c => lep (fD t c))).
Proof. exact nex_refuted. Qed.
Print Assumptions C06_narrow_refuted.

(** C39: the compiled driver (any visiting order, callback frequency, snapshots saved or not) and the Python
    backend return the same wavefields, memory variables and receiver amplitudes of every kind; any dimension,
    shape, accuracy, PML widths and profiles, number of steps. *)
Theorem C39_acoustic_backends_agree (nd : nat) (K : ops) (Kr : is_ring K) (P : spar (ac_sys nd) K) (pw : nat -> Z * Z)
    (dt : K) (kb : aM -> arr K) :
  length (sp_shape P) = nd -> locs_ok (ac_sys nd) K P (sp_src P) -> locs_ok (ac_sys nd) K P (sp_rec P) ->
  ign_ok (ac_sys nd) (sp_src P) -> ign_ok (ac_sys nd) (sp_rec P) -> sgeom (ac_sys nd) K P pw ->
  forall f u nt sr visA visB kg bg cb store,
  ac_fvis nd K P pw true visA -> ac_fvis nd K P pw false visB -> nt_ok nt sr cb ->
  exists U R st U' R',
  acoustic_forward nd K P pw dt kb visA visB kg bg sr f nt cb store u = Some (U, R, st) /\
  acoustic_python nd K P dt kb pw sr f nt u = (U', R') /\
  sseq (ac_sys nd) K U U' /\ forall t c, In c (ac_allX nd) -> R t c = R' t c.
Proof. exact (acoustic_backends_agree nd K Kr P pw dt kb). Qed.
Print Assumptions C39_acoustic_backends_agree.

Example C39_example : exists U R st U' R',
  acoustic_forward 2 Qc_ops aexP aexpw aex_dt (fun k => are (aex_kb k)) (aexF true) (aexF false) true false 2
    (fun t c => lre (aex_f t c)) 3 None (fun _ _ _ => o0 Qc_ops) (ssre aex_u) = Some (U, R, st) /\
  acoustic_python 2 Qc_ops aexP aex_dt (fun k => are (aex_kb k)) aexpw 2 (fun t c => lre (aex_f t c)) 3 (ssre aex_u) = (U', R') /\
  (forall p, mn U XP p = mn U' XP p /\ mn U (XV 1) p = mn U' (XV 1) p /\ me U (EP 0) p = me U' (EP 0) p) /\ R 1%Z XP = R' 1%Z XP /\
  mn U' XP [2%Z; 2%Z] <> qz 0 /\ me U' (EP 0) [1%Z; 2%Z] <> qz 0 /\ R' 1%Z XP <> [qz 0].
Proof.
  destruct (C39_acoustic_backends_agree 2 Qc_ops Qc_is_ring aexP aexpw aex_dt (fun k => are (aex_kb k)) eq_refl aex_src aex_rec
    aex_isrc aex_irec aex_geom (fun t c => lre (aex_f t c)) (ssre aex_u) 3 2 (aexF true) (aexF false) true false None (fun _ _ _ => o0 Qc_ops))
    as (U & R & st & U' & R' & E1 & E2 & [EX EE] & E4); try apply Permutation_refl; try (unfold nt_ok; lia).
  exists U, R, st, U', R'. split; [exact E1|]. split; [exact E2|].
  split; [intros p; split; [|split]; [apply EX|apply EX|apply EE]; cbn; tauto|].
  split; [apply E4; left; reflexivity|].
  assert (H : let '(U', R') := acoustic_python 2 Qc_ops aexP aex_dt (fun k => are (aex_kb k)) aexpw 2 (fun t c => lre (aex_f t c)) 3 (ssre aex_u) in
    nz (mn U' XP [2%Z; 2%Z]) && nz (me U' (EP 0) [1%Z; 2%Z]) && match R' 1%Z XP with [y] => nz y | _ => false end = true) by (vm_compute; reflexivity).
  rewrite E2 in H. rewrite !andb_true_iff in H. destruct H as [[H1 H2] H3].
  split; [apply nz_spec, H1|]. split; [apply nz_spec, H2|].
  intros E. rewrite E in H3. discriminate H3.
Qed.
