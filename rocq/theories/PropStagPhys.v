(** * Time reversal and reciprocity of the acoustic and elastic propagators: C51, C52. *)
From Coq Require Import List ZArith QArith Qcanon Lia Bool Permutation.
From Verif Require Import Ops Sums Grid Stencil DualNum ScalarModel ScalarRefine ScalarAdjoint ScalarMore ScalarApi ScalarEx
  Stag StagAdj StagKernel StagCell StagRefine StagGrad StagPy AcousticModel AcousticThm AcousticEx ElasticModel ElasticThm ElasticEx StagEqs StagRun StagRunInst
  StagEnergy StagEnergyEx StagPhys StagPhysRun StagPhysInst StagPhysEx.
Import ListNotations.
Local Open Scope K_scope.

(** C51: without PML and with zero source amplitudes the acoustic propagator can be run backwards: [n] steps from the final pressure and the
    reversed velocities of the next half step return the initial pressure, and the reversed velocities of the first half step. *)
Theorem C51_acoustic_time_reversal (nd : nat) (K : ops) (Kr : is_ring K) (P : spar (ac_sys nd) K) (pw : nat -> Z * Z) :
  length (sp_shape P) = nd -> sgeom (ac_sys nd) K P pw -> no_layers nd pw ->
  forall (dt : K) (kb : aM -> arr K),
  locs_ok (ac_sys nd) K P (sp_src P) -> locs_ok (ac_sys nd) K P (sp_rec P) ->
  forall n (u x : sst (ac_sys nd) K) (f1 f2 f3 f4 : Z -> aX -> list K) vA1 vB1 vA2 vB2 vA3 vB3 vA4 vB4 kg1 bg1 kg2 bg2 kg3 bg3 kg4 bg4 cb1 cb2 cb3 cb4 st1 st2 st3 st4
    U1 R1 S1 U2 R2 S2 U3 R3 S3 U4 R4 S4,
  ac_fvis nd K P pw true vA1 -> ac_fvis nd K P pw false vB1 -> ac_fvis nd K P pw true vA2 -> ac_fvis nd K P pw false vB2 ->
  ac_fvis nd K P pw true vA3 -> ac_fvis nd K P pw false vB3 -> ac_fvis nd K P pw true vA4 -> ac_fvis nd K P pw false vB4 ->
  nt_ok n 1 cb1 -> nt_ok (n + 1) 1 cb2 -> nt_ok 1 1 cb3 -> nt_ok n 1 cb4 ->
  (forall t c, In c (ac_allX nd) -> Forall (fun a => a = 0) (f1 t c) /\ Forall (fun a => a = 0) (f2 t c) /\
     Forall (fun a => a = 0) (f3 t c) /\ Forall (fun a => a = 0) (f4 t c)) ->
  acoustic_forward nd K P pw dt kb vA1 vB1 kg1 bg1 1 f1 n cb1 st1 u = Some (U1, R1, S1) ->
  acoustic_forward nd K P pw dt kb vA2 vB2 kg2 bg2 1 f2 (n + 1) cb2 st2 u = Some (U2, R2, S2) ->
  acoustic_forward nd K P pw dt kb vA3 vB3 kg3 bg3 1 f3 1 cb3 st3 u = Some (U3, R3, S3) ->
  (forall p, updated P (fun _ => false) p -> mn x XP p = mn U1 XP p) ->
  (forall d p, (d < nd)%nat -> updated P (Nat.eqb d) p -> mn x (XV d) p = - mn U2 (XV d) p) ->
  acoustic_forward nd K P pw dt kb vA4 vB4 kg4 bg4 1 f4 n cb4 st4 x = Some (U4, R4, S4) ->
  (forall p, updated P (fun _ => false) p -> mn U4 XP p = mn u XP p) /\
  (forall d p, (d < nd)%nat -> updated P (Nat.eqb d) p -> mn U4 (XV d) p = - mn U3 (XV d) p).
Proof. exact (acoustic_time_reversal nd K Kr P pw). Qed.
Print Assumptions C51_acoustic_time_reversal.
Example reversal_acoustic_example : exists U1 R1 S1 U2 R2 S2 U3 R3 S3 U4 R4 S4,
  na_from 3 na_u = Some (U1, R1, S1) /\ na_from (3 + 1) na_u = Some (U2, R2, S2) /\ na_from 1 na_u = Some (U3, R3, S3) /\
  na_from 3 (na_back U1 U2) = Some (U4, R4, S4) /\
  (forall d q, (d < 2)%nat -> updated naP (Nat.eqb d) q -> mn U4 (XV d) q = (- mn U3 (XV d) q)%Qc) /\ mn U4 XP [1%Z; 1%Z] = mn na_u XP [1%Z; 1%Z] /\ na_check = true.
Proof.
  destruct (na_from_some 3 na_u) as (U1 & R1 & S1 & E1); [lia|]. destruct (na_from_some (3 + 1) na_u) as (U2 & R2 & S2 & E2); [lia|].
  destruct (na_from_some 1 na_u) as (U3 & R3 & S3 & E3); [lia|]. destruct (na_from_some 3 (na_back U1 U2)) as (U4 & R4 & S4 & E4); [lia|].
  exists U1, R1, S1, U2, R2, S2, U3, R3, S3, U4, R4, S4. split; [exact E1|]. split; [exact E2|]. split; [exact E3|]. split; [exact E4|].
  destruct (C51_acoustic_time_reversal 2 Qc_ops Qc_is_ring naP npw eq_refl na_geom npw_none (qq 1 2) na_kb na_src na_rec 3 na_u (na_back U1 U2) na_f na_f na_f na_f
    (na_vis true) (na_vis false) (na_vis true) (na_vis false) (na_vis true) (na_vis false) (na_vis true) (na_vis false)
    false false false false false false false false
    None None None None (fun _ _ _ => qz 0) (fun _ _ _ => qz 0) (fun _ _ _ => qz 0) (fun _ _ _ => qz 0) U1 R1 S1 U2 R2 S2 U3 R3 S3 U4 R4 S4
    (Permutation_refl _) (Permutation_refl _) (Permutation_refl _) (Permutation_refl _) (Permutation_refl _) (Permutation_refl _) (Permutation_refl _) (Permutation_refl _)) as [Q1 Q2];
    try (unfold nt_ok; lia); try assumption; try (intros; reflexivity).
  { intros t c _. destruct c; repeat split; repeat constructor. }
  split; [exact Q2|]. split; [|exact na_check_ok]. apply Q1. split; [reflexivity|]. intros [|[|d]] Hd; cbn in Hd |- *; lia.
Qed.

(** C51: the same for the elastic propagator, with the stresses in the place of the pressure. *)
Theorem C51_elastic_time_reversal (nd : nat) (K : ops) (Kr : is_ring K) (P : spar (el_sys nd) K) (pw : nat -> Z * Z) :
  length (sp_shape P) = nd -> (0 < nd)%nat -> sgeom (el_sys nd) K P pw -> no_layers nd pw ->
  forall (dt : K) (md : eM -> arr K),
  locs_ok (el_sys nd) K P (sp_src P) -> locs_ok (el_sys nd) K P (sp_rec P) ->
  forall n (u x : sst (el_sys nd) K) (f1 f2 f3 f4 : Z -> eC -> list K) vA1 vB1 vA2 vB2 vA3 vB3 vA4 vB4 lg1 mg1 bg1 lg2 mg2 bg2 lg3 mg3 bg3 lg4 mg4 bg4 cb1 cb2 cb3 cb4 st1 st2 st3 st4
    U1 R1 S1 U2 R2 S2 U3 R3 S3 U4 R4 S4,
  el_fvis nd K P pw true vA1 -> el_fvis nd K P pw false vB1 -> el_fvis nd K P pw true vA2 -> el_fvis nd K P pw false vB2 ->
  el_fvis nd K P pw true vA3 -> el_fvis nd K P pw false vB3 -> el_fvis nd K P pw true vA4 -> el_fvis nd K P pw false vB4 ->
  nt_ok n 1 cb1 -> nt_ok (n + 1) 1 cb2 -> nt_ok 1 1 cb3 -> nt_ok n 1 cb4 ->
  (forall t c, In c (el_allC nd) -> Forall (fun a => a = 0) (f1 t c) /\ Forall (fun a => a = 0) (f2 t c) /\
     Forall (fun a => a = 0) (f3 t c) /\ Forall (fun a => a = 0) (f4 t c)) ->
  elastic_forward nd K P pw dt md vA1 vB1 lg1 mg1 bg1 1 f1 n cb1 st1 u = Some (U1, R1, S1) ->
  elastic_forward nd K P pw dt md vA2 vB2 lg2 mg2 bg2 1 f2 (n + 1) cb2 st2 u = Some (U2, R2, S2) ->
  elastic_forward nd K P pw dt md vA3 vB3 lg3 mg3 bg3 1 f3 1 cb3 st3 u = Some (U3, R3, S3) ->
  (forall i j p, (i <= j < nd)%nat -> updated P (on_s i j) p -> mn x (Sg i j) p = mn U1 (Sg i j) p) ->
  (forall d p, (d < nd)%nat -> updated P (on_v d) p -> mn x (VL d) p = - mn U2 (VL d) p) ->
  elastic_forward nd K P pw dt md vA4 vB4 lg4 mg4 bg4 1 f4 n cb4 st4 x = Some (U4, R4, S4) ->
  (forall i j p, (i <= j < nd)%nat -> updated P (on_s i j) p -> mn U4 (Sg i j) p = mn u (Sg i j) p) /\
  (forall d p, (d < nd)%nat -> updated P (on_v d) p -> mn U4 (VL d) p = - mn U3 (VL d) p).
Proof. exact (elastic_time_reversal nd K Kr P pw). Qed.
Print Assumptions C51_elastic_time_reversal.
Example reversal_elastic_example : exists U1 R1 S1 U2 R2 S2 U3 R3 S3 U4 R4 S4,
  ne_from 3 ne_u = Some (U1, R1, S1) /\ ne_from (3 + 1) ne_u = Some (U2, R2, S2) /\ ne_from 1 ne_u = Some (U3, R3, S3) /\
  ne_from 3 (ne_back U1 U2) = Some (U4, R4, S4) /\
  (forall d q, (d < 2)%nat -> updated neP (on_v d) q -> mn U4 (VL d) q = (- mn U3 (VL d) q)%Qc) /\ mn U4 (Sg 0 0) [1%Z; 1%Z] = mn ne_u (Sg 0 0) [1%Z; 1%Z] /\ ne_check = true.
Proof.
  destruct (ne_from_some 3 ne_u) as (U1 & R1 & S1 & E1); [lia|]. destruct (ne_from_some (3 + 1) ne_u) as (U2 & R2 & S2 & E2); [lia|].
  destruct (ne_from_some 1 ne_u) as (U3 & R3 & S3 & E3); [lia|]. destruct (ne_from_some 3 (ne_back U1 U2)) as (U4 & R4 & S4 & E4); [lia|].
  exists U1, R1, S1, U2, R2, S2, U3, R3, S3, U4, R4, S4. split; [exact E1|]. split; [exact E2|]. split; [exact E3|]. split; [exact E4|].
  destruct (C51_elastic_time_reversal 2 Qc_ops Qc_is_ring neP npw eq_refl Nat.lt_0_2 ne_geom npw_none (qq 1 2) ne_md ne_src ne_rec 3 ne_u (ne_back U1 U2) ne_f ne_f ne_f ne_f
    (ne_vis true) (ne_vis false) (ne_vis true) (ne_vis false) (ne_vis true) (ne_vis false) (ne_vis true) (ne_vis false)
    false false false false false false false false false false false false
    None None None None (fun _ _ _ => qz 0) (fun _ _ _ => qz 0) (fun _ _ _ => qz 0) (fun _ _ _ => qz 0) U1 R1 S1 U2 R2 S2 U3 R3 S3 U4 R4 S4
    (Permutation_refl _) (Permutation_refl _) (Permutation_refl _) (Permutation_refl _) (Permutation_refl _) (Permutation_refl _) (Permutation_refl _) (Permutation_refl _)) as [Q1 Q2];
    try (unfold nt_ok; lia); try assumption; try (intros; reflexivity).
  { intros t c _. destruct c; repeat split; repeat constructor. }
  split; [exact Q2|]. split; [|exact ne_check_ok]. apply Q1; [lia|]. split; [reflexivity|]. intros [|[|d]] Hd; cbn in Hd |- *; lia.
Qed.

(** C52: without PML and from rest, a source of kind [c1] at [l1] recorded by a receiver of kind [c2] at [l2] gives the same trace as the source at [l2]
    and the receiver at [l1], when both kinds are pressure or both are velocities. *)
Theorem C52_acoustic_reciprocity (nd : nat) (K : ops) (Kr : is_ring K) (P : spar (ac_sys nd) K) (pw : nat -> Z * Z) :
  length (sp_shape P) = nd -> sgeom (ac_sys nd) K P pw -> no_layers nd pw ->
  forall (dt : K) (kb : aM -> arr K) (s : Z -> K) c1 c2 l1 l2 nt sr vA1 vB1 vA2 vB2 kg1 bg1 kg2 bg2 cb1 cb2 st1 st2 U1 R1 S1 U2 R2 S2,
  In c1 (ac_allX nd) -> In c2 (ac_allX nd) -> (c1 = XP <-> c2 = XP) ->
  (0 <= l1)%Z -> sloc_ok (ac_sys nd) K P c1 l1 -> (0 <= l2)%Z -> sloc_ok (ac_sys nd) K P c2 l2 ->
  ac_fvis nd K P pw true vA1 -> ac_fvis nd K P pw false vB1 -> ac_fvis nd K P pw true vA2 -> ac_fvis nd K P pw false vB2 ->
  nt_ok nt sr cb1 -> nt_ok nt sr cb2 ->
  acoustic_forward nd K (with_lists P (ac_at c1 l1) (ac_at c2 l2)) pw dt kb vA1 vB1 kg1 bg1 sr
    (fun t => ac_prep dt kb (ac_at c1 l1) (ac_samp c1 s t)) nt cb1 st1 (rest (ac_sys nd) K) = Some (U1, R1, S1) ->
  acoustic_forward nd K (with_lists P (ac_at c2 l2) (ac_at c1 l1)) pw dt kb vA2 vB2 kg2 bg2 sr
    (fun t => ac_prep dt kb (ac_at c2 l2) (ac_samp c2 s t)) nt cb2 st2 (rest (ac_sys nd) K) = Some (U2, R2, S2) ->
  forall t, R1 t c2 = R2 t c1.
Proof. exact (acoustic_reciprocity nd K Kr P pw). Qed.
Print Assumptions C52_acoustic_reciprocity.
Example reciprocity_pressure_example : exists U1 R1 S1 U2 R2 S2, pha XP 6 XP 11 6 = Some (U1, R1, S1) /\ pha XP 11 XP 6 6 = Some (U2, R2, S2) /\
  R1 5%Z XP = R2 5%Z XP /\ pha_nz (pha XP 6 XP 11 6) 5 XP = true.
Proof.
  destruct (pha_some XP 6 XP 11 6 pa6 pa11) as (U1 & R1 & S1 & E1); [lia|]. destruct (pha_some XP 11 XP 6 6 pa11 pa6) as (U2 & R2 & S2 & E2); [lia|].
  exists U1, R1, S1, U2, R2, S2. split; [exact E1|]. split; [exact E2|]. split; [|vm_compute; reflexivity].
  apply (C52_acoustic_reciprocity 2 Qc_ops Qc_is_ring naP npw eq_refl na_geom npw_none (qq 1 2) na_kb ph_s XP XP 6 11 6 1 (na_vis true) (na_vis false) (na_vis true) (na_vis false) false false false false
    None None (fun _ _ _ => qz 0) (fun _ _ _ => qz 0) U1 R1 S1 U2 R2 S2); try assumption; try (apply Permutation_refl); try apply pa6; try apply pa11; try (unfold nt_ok; lia); try lia; try reflexivity; try (left; reflexivity); split; reflexivity.
Qed.
Example reciprocity_velocity_example : exists U1 R1 S1 U2 R2 S2, pha (XV 0) 12 (XV 1) 8 6 = Some (U1, R1, S1) /\ pha (XV 1) 8 (XV 0) 12 6 = Some (U2, R2, S2) /\
  R1 5%Z (XV 1) = R2 5%Z (XV 0) /\ pha_nz (pha (XV 0) 12 (XV 1) 8 6) 5 (XV 1) = true.
Proof.
  destruct (pha_some (XV 0) 12 (XV 1) 8 6 pa12 pa8) as (U1 & R1 & S1 & E1); [lia|]. destruct (pha_some (XV 1) 8 (XV 0) 12 6 pa8 pa12) as (U2 & R2 & S2 & E2); [lia|].
  exists U1, R1, S1, U2, R2, S2. split; [exact E1|]. split; [exact E2|]. split; [|vm_compute; reflexivity].
  apply (C52_acoustic_reciprocity 2 Qc_ops Qc_is_ring naP npw eq_refl na_geom npw_none (qq 1 2) na_kb ph_s (XV 0) (XV 1) 12 8 6 1 (na_vis true) (na_vis false) (na_vis true) (na_vis false) false false false false
    None None (fun _ _ _ => qz 0) (fun _ _ _ => qz 0) U1 R1 S1 U2 R2 S2); try assumption; try (apply Permutation_refl); try apply pa12; try apply pa8; try (unfold nt_ok; lia); try lia; try reflexivity; try (cbn; auto; fail); split; discriminate.
Qed.

(** C52: exchanging a pressure source and a velocity receiver for a force and a pressure receiver changes the sign of the trace and shifts it by one step. *)
Theorem C52_acoustic_mixed (nd : nat) (K : ops) (Kr : is_ring K) (P : spar (ac_sys nd) K) (pw : nat -> Z * Z) :
  length (sp_shape P) = nd -> sgeom (ac_sys nd) K P pw -> no_layers nd pw ->
  forall (dt : K) (kb : aM -> arr K) (s : Z -> K) d l1 l2 nt sr vA1 vB1 vA2 vB2 kg1 bg1 kg2 bg2 cb1 cb2 st1 st2 U1 R1 S1 U2 R2 S2,
  (d < nd)%nat ->
  (0 <= l1)%Z -> sloc_ok (ac_sys nd) K P XP l1 -> (0 <= l2)%Z -> sloc_ok (ac_sys nd) K P (XV d) l2 ->
  ac_fvis nd K P pw true vA1 -> ac_fvis nd K P pw false vB1 -> ac_fvis nd K P pw true vA2 -> ac_fvis nd K P pw false vB2 ->
  nt_ok nt sr cb1 -> nt_ok nt sr cb2 ->
  acoustic_forward nd K (with_lists P (ac_at XP l1) (ac_at (XV d) l2)) pw dt kb vA1 vB1 kg1 bg1 sr
    (fun t => ac_prep dt kb (ac_at XP l1) (ac_samp XP s t)) nt cb1 st1 (rest (ac_sys nd) K) = Some (U1, R1, S1) ->
  acoustic_forward nd K (with_lists P (ac_at (XV d) l2) (ac_at XP l1)) pw dt kb vA2 vB2 kg2 bg2 sr
    (fun t => ac_prep dt kb (ac_at (XV d) l2) (ac_samp (XV d) s t)) nt cb2 st2 (rest (ac_sys nd) K) = Some (U2, R2, S2) ->
  forall t, (0 <= t)%Z -> (t + 1 < nsteps nt sr)%Z -> R1 (t + 1)%Z (XV d) = map (oopp K) (R2 t XP).
Proof. exact (acoustic_reciprocity_mixed nd K Kr P pw). Qed.
Print Assumptions C52_acoustic_mixed.
Example reciprocity_mixed_example : exists U1 R1 S1 U2 R2 S2, pha XP 6 (XV 0) 12 6 = Some (U1, R1, S1) /\ pha (XV 0) 12 XP 6 6 = Some (U2, R2, S2) /\
  R1 (4 + 1)%Z (XV 0) = map Qcopp (R2 4%Z XP) /\ pha_nz (pha XP 6 (XV 0) 12 6) 5 (XV 0) = true.
Proof.
  destruct (pha_some XP 6 (XV 0) 12 6 pa6 pa12) as (U1 & R1 & S1 & E1); [lia|]. destruct (pha_some (XV 0) 12 XP 6 6 pa12 pa6) as (U2 & R2 & S2 & E2); [lia|].
  exists U1, R1, S1, U2, R2, S2. split; [exact E1|]. split; [exact E2|]. split; [|vm_compute; reflexivity].
  apply (C52_acoustic_mixed 2 Qc_ops Qc_is_ring naP npw eq_refl na_geom npw_none (qq 1 2) na_kb ph_s 0%nat 6 12 6 1 (na_vis true) (na_vis false) (na_vis true) (na_vis false) false false false false
    None None (fun _ _ _ => qz 0) (fun _ _ _ => qz 0) U1 R1 S1 U2 R2 S2); try assumption; try (apply Permutation_refl); try apply pa6; try apply pa12; try (unfold nt_ok; lia); try lia; try reflexivity.
Qed.

(** C52: elastic, forces and velocities: the traces agree. *)
Theorem C52_elastic_force (nd : nat) (K : ops) (Kr : is_ring K) (P : spar (el_sys nd) K) (pw : nat -> Z * Z) :
  length (sp_shape P) = nd -> (0 < nd)%nat -> sgeom (el_sys nd) K P pw -> no_layers nd pw ->
  forall (dt : K) (md : eM -> arr K),
  forall (s : Z -> K) i j l1 l2 nt sr vA1 vB1 vA2 vB2 lg1 mg1 bg1 lg2 mg2 bg2 cb1 cb2 st1 st2 U1 R1 S1 U2 R2 S2,
  (i < nd)%nat -> (j < nd)%nat ->
  (0 <= l1)%Z -> sloc_ok (el_sys nd) K P (CV i) l1 -> (0 <= l2)%Z -> sloc_ok (el_sys nd) K P (CV j) l2 ->
  el_fvis nd K P pw true vA1 -> el_fvis nd K P pw false vB1 -> el_fvis nd K P pw true vA2 -> el_fvis nd K P pw false vB2 ->
  nt_ok nt sr cb1 -> nt_ok nt sr cb2 ->
  elastic_forward nd K (with_lists P (el_at (CV i) l1) (el_at (CV j) l2)) pw dt md vA1 vB1 lg1 mg1 bg1 sr
    (fun t => el_prep dt md (el_at (CV i) l1) (el_samp (CV i) s t)) nt cb1 st1 (rest (el_sys nd) K) = Some (U1, R1, S1) ->
  elastic_forward nd K (with_lists P (el_at (CV j) l2) (el_at (CV i) l1)) pw dt md vA2 vB2 lg2 mg2 bg2 sr
    (fun t => el_prep dt md (el_at (CV j) l2) (el_samp (CV j) s t)) nt cb2 st2 (rest (el_sys nd) K) = Some (U2, R2, S2) ->
  forall t, R1 t (CV j) = R2 t (CV i).
Proof. exact (elastic_force_reciprocity nd K Kr P pw). Qed.
Print Assumptions C52_elastic_force.
Example reciprocity_force_example : exists U1 R1 S1 U2 R2 S2, phe (CV 0) 12 (CV 1) 8 6 = Some (U1, R1, S1) /\ phe (CV 1) 8 (CV 0) 12 6 = Some (U2, R2, S2) /\
  R1 5%Z (CV 1) = R2 5%Z (CV 0) /\ phe_nz (phe (CV 0) 12 (CV 1) 8 6) 5 (CV 1) = true.
Proof.
  destruct (phe_some (CV 0) 12 (CV 1) 8 6 pe12 pe8) as (U1 & R1 & S1 & E1); [lia|]. destruct (phe_some (CV 1) 8 (CV 0) 12 6 pe8 pe12) as (U2 & R2 & S2 & E2); [lia|].
  exists U1, R1, S1, U2, R2, S2. split; [exact E1|]. split; [exact E2|]. split; [|vm_compute; reflexivity].
  apply (C52_elastic_force 2 Qc_ops Qc_is_ring neP npw eq_refl Nat.lt_0_2 ne_geom npw_none (qq 1 2) ne_md ph_s 0%nat 1%nat 12 8 6 1 (ne_vis true) (ne_vis false) (ne_vis true) (ne_vis false) false false false false false false
    None None (fun _ _ _ => qz 0) (fun _ _ _ => qz 0) U1 R1 S1 U2 R2 S2); try assumption; try (apply Permutation_refl); try apply pe12; try apply pe8; try (unfold nt_ok; lia); try lia; try reflexivity.
Qed.

(** C52: elastic, pressure sources and pressure receivers: the traces agree after multiplication with [nd * lamb + 2 * mu] at the source,
    because pressure sources are not scaled with the moduli. *)
Theorem C52_elastic_pressure_partial (nd : nat) (K : ops) (Kr : is_ring K) (P : spar (el_sys nd) K) (pw : nat -> Z * Z) :
  length (sp_shape P) = nd -> (0 < nd)%nat -> sgeom (el_sys nd) K P pw -> no_layers nd pw ->
  forall (dt : K) (md : eM -> arr K),
  forall (s : Z -> K) l1 l2 nt sr vA1 vB1 vA2 vB2 lg1 mg1 bg1 lg2 mg2 bg2 cb1 cb2 st1 st2 U1 R1 S1 U2 R2 S2,
  (0 <= l1)%Z -> sloc_ok (el_sys nd) K P CP l1 -> (0 <= l2)%Z -> sloc_ok (el_sys nd) K P CP l2 ->
  el_fvis nd K P pw true vA1 -> el_fvis nd K P pw false vB1 -> el_fvis nd K P pw true vA2 -> el_fvis nd K P pw false vB2 ->
  nt_ok nt sr cb1 -> nt_ok nt sr cb2 ->
  elastic_forward nd K (with_lists P (el_at CP l1) (el_at CP l2)) pw dt md vA1 vB1 lg1 mg1 bg1 sr
    (fun t => el_prep dt md (el_at CP l1) (el_samp CP s t)) nt cb1 st1 (rest (el_sys nd) K) = Some (U1, R1, S1) ->
  elastic_forward nd K (with_lists P (el_at CP l2) (el_at CP l1)) pw dt md vA2 vB2 lg2 mg2 bg2 sr
    (fun t => el_prep dt md (el_at CP l2) (el_samp CP s t)) nt cb2 st2 (rest (el_sys nd) K) = Some (U2, R2, S2) ->
  forall t, map (omul K (el_kappa nd md l1)) (el_post nd R1 t CP) = map (omul K (el_kappa nd md l2)) (el_post nd R2 t CP).
Proof. exact (elastic_pressure_reciprocity nd K Kr P pw). Qed.
Print Assumptions C52_elastic_pressure_partial.
Example reciprocity_stress_example : exists U1 R1 S1 U2 R2 S2, phe CP 6 CP 11 6 = Some (U1, R1, S1) /\ phe CP 11 CP 6 6 = Some (U2, R2, S2) /\
  map (Qcmult (el_kappa (K := Qc_ops) 2 ne_md 6)) (el_post (K := Qc_ops) 2 R1 5%Z CP) = map (Qcmult (el_kappa (K := Qc_ops) 2 ne_md 11)) (el_post (K := Qc_ops) 2 R2 5%Z CP) /\ phe_nz (phe CP 6 CP 11 6) 5 CP = true.
Proof.
  destruct (phe_some CP 6 CP 11 6 pe6 pe11) as (U1 & R1 & S1 & E1); [lia|]. destruct (phe_some CP 11 CP 6 6 pe11 pe6) as (U2 & R2 & S2 & E2); [lia|].
  exists U1, R1, S1, U2, R2, S2. split; [exact E1|]. split; [exact E2|]. split; [|vm_compute; reflexivity].
  apply (C52_elastic_pressure_partial 2 Qc_ops Qc_is_ring neP npw eq_refl Nat.lt_0_2 ne_geom npw_none (qq 1 2) ne_md ph_s 6 11 6 1 (ne_vis true) (ne_vis false) (ne_vis true) (ne_vis false) false false false false false false
    None None (fun _ _ _ => qz 0) (fun _ _ _ => qz 0) U1 R1 S1 U2 R2 S2); try assumption; try (apply Permutation_refl); try apply pe6; try apply pe11; try (unfold nt_ok; lia); try lia; try reflexivity.
Qed.

(** C52: the traces themselves do not agree, as soon as the moduli at the two places differ. *)
Theorem C52_elastic_pressure_refuted : exists U1 R1 S1 U2 R2 S2, phe CP 6 CP 11 4 = Some (U1, R1, S1) /\ phe CP 11 CP 6 4 = Some (U2, R2, S2) /\
  el_post (K := Qc_ops) 2 R1 3%Z CP <> el_post (K := Qc_ops) 2 R2 3%Z CP.
Proof. exact phe_differ. Qed.
Print Assumptions C52_elastic_pressure_refuted.

(** C52: elastic, a pressure source and a velocity receiver exchanged for a force and the sum of the normal stresses ([R2 t CP] is the kernel's output,
    which [elastic] multiplies by [-1 / nd]). *)
Theorem C52_elastic_mixed (nd : nat) (K : ops) (Kr : is_ring K) (P : spar (el_sys nd) K) (pw : nat -> Z * Z) :
  length (sp_shape P) = nd -> (0 < nd)%nat -> sgeom (el_sys nd) K P pw -> no_layers nd pw ->
  forall (dt : K) (md : eM -> arr K),
  forall (s : Z -> K) d l1 l2 nt sr vA1 vB1 vA2 vB2 lg1 mg1 bg1 lg2 mg2 bg2 cb1 cb2 st1 st2 U1 R1 S1 U2 R2 S2,
  (d < nd)%nat ->
  (0 <= l1)%Z -> sloc_ok (el_sys nd) K P CP l1 -> (0 <= l2)%Z -> sloc_ok (el_sys nd) K P (CV d) l2 ->
  el_fvis nd K P pw true vA1 -> el_fvis nd K P pw false vB1 -> el_fvis nd K P pw true vA2 -> el_fvis nd K P pw false vB2 ->
  nt_ok nt sr cb1 -> nt_ok nt sr cb2 ->
  elastic_forward nd K (with_lists P (el_at CP l1) (el_at (CV d) l2)) pw dt md vA1 vB1 lg1 mg1 bg1 sr
    (fun t => el_prep dt md (el_at CP l1) (el_samp CP s t)) nt cb1 st1 (rest (el_sys nd) K) = Some (U1, R1, S1) ->
  elastic_forward nd K (with_lists P (el_at (CV d) l2) (el_at CP l1)) pw dt md vA2 vB2 lg2 mg2 bg2 sr
    (fun t => el_prep dt md (el_at (CV d) l2) (el_samp (CV d) s t)) nt cb2 st2 (rest (el_sys nd) K) = Some (U2, R2, S2) ->
  forall t, (0 <= t)%Z -> (t + 1 < nsteps nt sr)%Z -> map (omul K (el_kappa nd md l1)) (R1 (t + 1)%Z (CV d)) = R2 t CP.
Proof. exact (elastic_reciprocity_mixed nd K Kr P pw). Qed.
Print Assumptions C52_elastic_mixed.
Example reciprocity_mixed_elastic_example : exists U1 R1 S1 U2 R2 S2, phe CP 6 (CV 0) 12 6 = Some (U1, R1, S1) /\ phe (CV 0) 12 CP 6 6 = Some (U2, R2, S2) /\
  map (Qcmult (el_kappa (K := Qc_ops) 2 ne_md 6)) (R1 (4 + 1)%Z (CV 0)) = R2 4%Z CP /\ phe_nz (phe CP 6 (CV 0) 12 6) 5 (CV 0) = true.
Proof.
  destruct (phe_some CP 6 (CV 0) 12 6 pe6 pe12) as (U1 & R1 & S1 & E1); [lia|]. destruct (phe_some (CV 0) 12 CP 6 6 pe12 pe6) as (U2 & R2 & S2 & E2); [lia|].
  exists U1, R1, S1, U2, R2, S2. split; [exact E1|]. split; [exact E2|]. split; [|vm_compute; reflexivity].
  apply (C52_elastic_mixed 2 Qc_ops Qc_is_ring neP npw eq_refl Nat.lt_0_2 ne_geom npw_none (qq 1 2) ne_md ph_s 0%nat 6 12 6 1 (ne_vis true) (ne_vis false) (ne_vis true) (ne_vis false) false false false false false false
    None None (fun _ _ _ => qz 0) (fun _ _ _ => qz 0) U1 R1 S1 U2 R2 S2); try assumption; try (apply Permutation_refl); try apply pe6; try apply pe12; try (unfold nt_ok; lia); try lia; try reflexivity.
Qed.
