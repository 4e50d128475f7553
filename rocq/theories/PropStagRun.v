(** * Runs of the acoustic and elastic propagators: C09, C10, C12, C13, C15, C18, C28, C41. *)
From Coq Require Import List ZArith QArith Qcanon Lia Bool Permutation.
From Verif Require Import Ops Sums Grid Stencil DualNum ScalarModel ScalarRefine ScalarAdjoint ScalarMore ScalarApi ScalarEx
  Stag StagAdj StagKernel StagCell StagRefine StagGrad StagPy AcousticModel AcousticThm AcousticEx ElasticModel ElasticThm ElasticEx StagEqs StagRun StagRunInst StagRunEx.
Import ListNotations.
Local Open Scope K_scope.

(** Superposition: a run on a linear combination of sources and initial states gives the linear combination of the outputs. *)
Theorem C13_acoustic_superposition (nd : nat) (K : ops) (Kr : is_ring K) (P : spar (ac_sys nd) K) (pw : nat -> Z * Z) :
  length (sp_shape P) = nd -> locs_ok (ac_sys nd) K P (sp_src P) -> locs_ok (ac_sys nd) K P (sp_rec P) -> sgeom (ac_sys nd) K P pw ->
  forall (dt : K) (kb : aM -> arr K) (a b : K) f g x y nt sr visA1 visB1 visA2 visB2 visA visB kg1 bg1 kg2 bg2 kg bg cb1 cb2 cb st1 st2 st U1 R1 S1 U2 R2 S2 U R S,
  ac_fvis nd K P pw true visA1 -> ac_fvis nd K P pw false visB1 -> ac_fvis nd K P pw true visA2 -> ac_fvis nd K P pw false visB2 -> ac_fvis nd K P pw true visA -> ac_fvis nd K P pw false visB ->
  nt_ok nt sr cb1 -> nt_ok nt sr cb2 -> nt_ok nt sr cb ->
  (forall t c, (0 <= t < nt)%Z -> In c (ac_allX nd) -> length (f t c) = length (sp_src P c) /\ length (g t c) = length (sp_src P c)) ->
  acoustic_forward nd K P pw dt kb visA1 visB1 kg1 bg1 sr f nt cb1 st1 x = Some (U1, R1, S1) ->
  acoustic_forward nd K P pw dt kb visA2 visB2 kg2 bg2 sr g nt cb2 st2 y = Some (U2, R2, S2) ->
  acoustic_forward nd K P pw dt kb visA visB kg bg sr (fun t c => lc_l a b (f t c) (g t c)) nt cb st (lc_s a b x y) = Some (U, R, S) ->
  sseq (ac_sys nd) K U (lc_s a b U1 U2) /\ forall t c, In c (ac_allX nd) -> R t c = lc_l a b (R1 t c) (R2 t c).
Proof. exact (acoustic_superposition nd K Kr P pw). Qed.
Print Assumptions C13_acoustic_superposition.
Example superposition_acoustic_example : exists U1 R1 S1 U2 R2 S2 U R S,
  ax 2 ax_f 4 None ax_u = Some (U1, R1, S1) /\ ax 2 ax_f2 4 (Some 1%Z) ax_u2 = Some (U2, R2, S2) /\
  ax 2 (fun t c => lc_l (K := Qc_ops) (qz 2) (qz 3) (ax_f t c) (ax_f2 t c)) 4 None (lc_s (K := Qc_ops) (qz 2) (qz 3) ax_u ax_u2) = Some (U, R, S) /\
  sseq (ac_sys 2) Qc_ops U (lc_s (K := Qc_ops) (qz 2) (qz 3) U1 U2) /\ ax_nz (ax 2 (fun t c => lc_l (K := Qc_ops) (qz 2) (qz 3) (ax_f t c) (ax_f2 t c)) 4 None (lc_s (K := Qc_ops) (qz 2) (qz 3) ax_u ax_u2)) 3%Z XP = true.
Proof.
  destruct (ax_some 2 ax_f 4 None ax_u) as (U1 & R1 & S1 & E1); [unfold nt_ok; lia|].
  destruct (ax_some 2 ax_f2 4 (Some 1%Z) ax_u2) as (U2 & R2 & S2 & E2); [unfold nt_ok; lia|].
  destruct (ax_some 2 (fun t c => lc_l (K := Qc_ops) (qz 2) (qz 3) (ax_f t c) (ax_f2 t c)) 4 None (lc_s (K := Qc_ops) (qz 2) (qz 3) ax_u ax_u2)) as (U & R & S & E); [unfold nt_ok; lia|].
  exists U1, R1, S1, U2, R2, S2, U, R, S. split; [exact E1|]. split; [exact E2|]. split; [exact E|]. split; [|vm_compute; reflexivity].
  refine (proj1 (C13_acoustic_superposition 2 Qc_ops Qc_is_ring aexP aexpw eq_refl aex_src aex_rec aex_geom aex_dt (fun k => are (aex_kb k)) (qz 2) (qz 3) ax_f ax_f2 ax_u ax_u2 4 2 (aexF true) (aexF false) (aexF true) (aexF false) (aexF true) (aexF false) true true true true true true None (Some 1%Z) None (fun _ _ _ => o0 Qc_ops) (fun _ _ _ => o0 Qc_ops) (fun _ _ _ => o0 Qc_ops) U1 R1 S1 U2 R2 S2 U R S (Permutation_refl _) (Permutation_refl _) (Permutation_refl _) (Permutation_refl _) (Permutation_refl _) (Permutation_refl _) _ _ _ _ E1 E2 E)); try (unfold nt_ok; lia).
  intros t c _ _. destruct c; split; reflexivity.
Qed.

(** Superposition: a run on a linear combination of sources and initial states gives the linear combination of the outputs. *)
Theorem C13_elastic_superposition (nd : nat) (K : ops) (Kr : is_ring K) (P : spar (el_sys nd) K) (pw : nat -> Z * Z) :
  length (sp_shape P) = nd -> (0 < nd)%nat -> locs_ok (el_sys nd) K P (sp_src P) -> locs_ok (el_sys nd) K P (sp_rec P) -> sgeom (el_sys nd) K P pw ->
  forall (dt : K) (md : eM -> arr K) (a b : K) f g x y nt sr visA1 visB1 visA2 visB2 visA visB lg1 mg1 bg1 lg2 mg2 bg2 lg mg bg cb1 cb2 cb st1 st2 st U1 R1 S1 U2 R2 S2 U R S,
  el_fvis nd K P pw true visA1 -> el_fvis nd K P pw false visB1 -> el_fvis nd K P pw true visA2 -> el_fvis nd K P pw false visB2 -> el_fvis nd K P pw true visA -> el_fvis nd K P pw false visB ->
  nt_ok nt sr cb1 -> nt_ok nt sr cb2 -> nt_ok nt sr cb ->
  (forall t c, (0 <= t < nt)%Z -> In c (el_allC nd) -> length (f t c) = length (sp_src P c) /\ length (g t c) = length (sp_src P c)) ->
  elastic_forward nd K P pw dt md visA1 visB1 lg1 mg1 bg1 sr f nt cb1 st1 x = Some (U1, R1, S1) ->
  elastic_forward nd K P pw dt md visA2 visB2 lg2 mg2 bg2 sr g nt cb2 st2 y = Some (U2, R2, S2) ->
  elastic_forward nd K P pw dt md visA visB lg mg bg sr (fun t c => lc_l a b (f t c) (g t c)) nt cb st (lc_s a b x y) = Some (U, R, S) ->
  sseq (el_sys nd) K U (lc_s a b U1 U2) /\ forall t c, In c (el_allC nd) -> R t c = lc_l a b (R1 t c) (R2 t c).
Proof. exact (elastic_superposition nd K Kr P pw). Qed.
Print Assumptions C13_elastic_superposition.
Example superposition_elastic_example : exists U1 R1 S1 U2 R2 S2 U R S,
  ex 2 ex_f 4 None ex_u = Some (U1, R1, S1) /\ ex 2 ex_f2 4 (Some 1%Z) ex_u2 = Some (U2, R2, S2) /\
  ex 2 (fun t c => lc_l (K := Qc_ops) (qz 2) (qz 3) (ex_f t c) (ex_f2 t c)) 4 None (lc_s (K := Qc_ops) (qz 2) (qz 3) ex_u ex_u2) = Some (U, R, S) /\
  sseq (el_sys 2) Qc_ops U (lc_s (K := Qc_ops) (qz 2) (qz 3) U1 U2) /\ ex_nz (ex 2 (fun t c => lc_l (K := Qc_ops) (qz 2) (qz 3) (ex_f t c) (ex_f2 t c)) 4 None (lc_s (K := Qc_ops) (qz 2) (qz 3) ex_u ex_u2)) 3%Z CP = true.
Proof.
  destruct (ex_some 2 ex_f 4 None ex_u) as (U1 & R1 & S1 & E1); [unfold nt_ok; lia|].
  destruct (ex_some 2 ex_f2 4 (Some 1%Z) ex_u2) as (U2 & R2 & S2 & E2); [unfold nt_ok; lia|].
  destruct (ex_some 2 (fun t c => lc_l (K := Qc_ops) (qz 2) (qz 3) (ex_f t c) (ex_f2 t c)) 4 None (lc_s (K := Qc_ops) (qz 2) (qz 3) ex_u ex_u2)) as (U & R & S & E); [unfold nt_ok; lia|].
  exists U1, R1, S1, U2, R2, S2, U, R, S. split; [exact E1|]. split; [exact E2|]. split; [exact E|]. split; [|vm_compute; reflexivity].
  refine (proj1 (C13_elastic_superposition 2 Qc_ops Qc_is_ring eexP aexpw eq_refl Nat.lt_0_2 eex_src eex_rec eex_geom eex_dt (fun k => are (eex_md k)) (qz 2) (qz 3) ex_f ex_f2 ex_u ex_u2 4 2 (eexF true) (eexF false) (eexF true) (eexF false) (eexF true) (eexF false) true true true true true true true true true None (Some 1%Z) None (fun _ _ _ => o0 Qc_ops) (fun _ _ _ => o0 Qc_ops) (fun _ _ _ => o0 Qc_ops) U1 R1 S1 U2 R2 S2 U R S (Permutation_refl _) (Permutation_refl _) (Permutation_refl _) (Permutation_refl _) (Permutation_refl _) (Permutation_refl _) _ _ _ _ E1 E2 E)); try (unfold nt_ok; lia).
  intros t c _ _. destruct c; split; reflexivity.
Qed.

(** Restart: n1 steps, then n2 more from the returned state, is n1 + n2 steps in one go. *)
Theorem C15_acoustic_restart_partial (nd : nat) (K : ops) (Kr : is_ring K) (P : spar (ac_sys nd) K) (pw : nat -> Z * Z) :
  length (sp_shape P) = nd -> locs_ok (ac_sys nd) K P (sp_src P) -> locs_ok (ac_sys nd) K P (sp_rec P) -> sgeom (ac_sys nd) K P pw ->
  forall (dt : K) (kb : aM -> arr K) f u n1 n2 sr visA1 visB1 visA2 visB2 visA visB kg1 bg1 kg2 bg2 kg bg cb1 cb2 cb st1 st2 st U1 R1 S1 U2 R2 S2 U R S,
  ac_fvis nd K P pw true visA1 -> ac_fvis nd K P pw false visB1 -> ac_fvis nd K P pw true visA2 -> ac_fvis nd K P pw false visB2 -> ac_fvis nd K P pw true visA -> ac_fvis nd K P pw false visB ->
  (n1 mod sr = 0)%Z -> nt_ok n1 sr cb1 -> nt_ok n2 sr cb2 -> nt_ok (n1 + n2) sr cb ->
  acoustic_forward nd K P pw dt kb visA1 visB1 kg1 bg1 sr f n1 cb1 st1 u = Some (U1, R1, S1) ->
  acoustic_forward nd K P pw dt kb visA2 visB2 kg2 bg2 sr (fun t => f (n1 + t)%Z) n2 cb2 st2 U1 = Some (U2, R2, S2) ->
  acoustic_forward nd K P pw dt kb visA visB kg bg sr f (n1 + n2) cb st u = Some (U, R, S) ->
  sseq (ac_sys nd) K U U2 /\ (forall t c, (0 <= t < n1)%Z -> In c (ac_allX nd) -> R t c = R1 t c) /\
  (forall t c, (0 <= t)%Z -> In c (ac_allX nd) -> R (n1 + t)%Z c = R2 t c).
Proof. exact (acoustic_restart nd K Kr P pw). Qed.
Print Assumptions C15_acoustic_restart_partial.
Example restart_acoustic_example : exists U1 R1 S1 U2 R2 S2 U R S,
  ax 2 ax_f 2 None ax_u = Some (U1, R1, S1) /\ ax 2 (fun t => ax_f (2 + t)%Z) 4 (Some 1%Z) U1 = Some (U2, R2, S2) /\
  ax 2 ax_f (2 + 4) None ax_u = Some (U, R, S) /\
  sseq (ac_sys 2) Qc_ops U U2 /\ R (2 + 3)%Z XP = R2 3%Z XP /\ ax_nz (ax 2 ax_f (2 + 4) None ax_u) 5%Z XP = true.
Proof.
  destruct (ax_some 2 ax_f 2 None ax_u) as (U1 & R1 & S1 & E1); [unfold nt_ok; lia|].
  destruct (ax_some 2 (fun t => ax_f (2 + t)%Z) 4 (Some 1%Z) U1) as (U2 & R2 & S2 & E2); [unfold nt_ok; lia|].
  destruct (ax_some 2 ax_f (2 + 4) None ax_u) as (U & R & S & E); [unfold nt_ok; lia|].
  destruct (C15_acoustic_restart_partial 2 Qc_ops Qc_is_ring aexP aexpw eq_refl aex_src aex_rec aex_geom aex_dt (fun k => are (aex_kb k)) ax_f ax_u 2 4 2 (aexF true) (aexF false) (aexF true) (aexF false) (aexF true) (aexF false) true true true true true true None (Some 1%Z) None (fun _ _ _ => o0 Qc_ops) (fun _ _ _ => o0 Qc_ops) (fun _ _ _ => o0 Qc_ops) U1 R1 S1 U2 R2 S2 U R S (Permutation_refl _) (Permutation_refl _) (Permutation_refl _) (Permutation_refl _) (Permutation_refl _) (Permutation_refl _) eq_refl) as (Q1 & Q2 & Q3); try assumption; try (unfold nt_ok; lia).
  exists U1, R1, S1, U2, R2, S2, U, R, S. split; [exact E1|]. split; [exact E2|]. split; [exact E|]. split; [exact Q1|]. split; [|vm_compute; reflexivity].
  apply Q3; [lia|]. cbn; auto 10.
Qed.

(** Restart: n1 steps, then n2 more from the returned state, is n1 + n2 steps in one go. *)
Theorem C15_elastic_restart_partial (nd : nat) (K : ops) (Kr : is_ring K) (P : spar (el_sys nd) K) (pw : nat -> Z * Z) :
  length (sp_shape P) = nd -> (0 < nd)%nat -> locs_ok (el_sys nd) K P (sp_src P) -> locs_ok (el_sys nd) K P (sp_rec P) -> sgeom (el_sys nd) K P pw ->
  forall (dt : K) (md : eM -> arr K) f u n1 n2 sr visA1 visB1 visA2 visB2 visA visB lg1 mg1 bg1 lg2 mg2 bg2 lg mg bg cb1 cb2 cb st1 st2 st U1 R1 S1 U2 R2 S2 U R S,
  el_fvis nd K P pw true visA1 -> el_fvis nd K P pw false visB1 -> el_fvis nd K P pw true visA2 -> el_fvis nd K P pw false visB2 -> el_fvis nd K P pw true visA -> el_fvis nd K P pw false visB ->
  (n1 mod sr = 0)%Z -> nt_ok n1 sr cb1 -> nt_ok n2 sr cb2 -> nt_ok (n1 + n2) sr cb ->
  elastic_forward nd K P pw dt md visA1 visB1 lg1 mg1 bg1 sr f n1 cb1 st1 u = Some (U1, R1, S1) ->
  elastic_forward nd K P pw dt md visA2 visB2 lg2 mg2 bg2 sr (fun t => f (n1 + t)%Z) n2 cb2 st2 U1 = Some (U2, R2, S2) ->
  elastic_forward nd K P pw dt md visA visB lg mg bg sr f (n1 + n2) cb st u = Some (U, R, S) ->
  sseq (el_sys nd) K U U2 /\ (forall t c, (0 <= t < n1)%Z -> In c (el_allC nd) -> R t c = R1 t c) /\
  (forall t c, (0 <= t)%Z -> In c (el_allC nd) -> R (n1 + t)%Z c = R2 t c).
Proof. exact (elastic_restart nd K Kr P pw). Qed.
Print Assumptions C15_elastic_restart_partial.
Example restart_elastic_example : exists U1 R1 S1 U2 R2 S2 U R S,
  ex 2 ex_f 2 None ex_u = Some (U1, R1, S1) /\ ex 2 (fun t => ex_f (2 + t)%Z) 4 (Some 1%Z) U1 = Some (U2, R2, S2) /\
  ex 2 ex_f (2 + 4) None ex_u = Some (U, R, S) /\
  sseq (el_sys 2) Qc_ops U U2 /\ R (2 + 3)%Z CP = R2 3%Z CP /\ ex_nz (ex 2 ex_f (2 + 4) None ex_u) 5%Z CP = true.
Proof.
  destruct (ex_some 2 ex_f 2 None ex_u) as (U1 & R1 & S1 & E1); [unfold nt_ok; lia|].
  destruct (ex_some 2 (fun t => ex_f (2 + t)%Z) 4 (Some 1%Z) U1) as (U2 & R2 & S2 & E2); [unfold nt_ok; lia|].
  destruct (ex_some 2 ex_f (2 + 4) None ex_u) as (U & R & S & E); [unfold nt_ok; lia|].
  destruct (C15_elastic_restart_partial 2 Qc_ops Qc_is_ring eexP aexpw eq_refl Nat.lt_0_2 eex_src eex_rec eex_geom eex_dt (fun k => are (eex_md k)) ex_f ex_u 2 4 2 (eexF true) (eexF false) (eexF true) (eexF false) (eexF true) (eexF false) true true true true true true true true true None (Some 1%Z) None (fun _ _ _ => o0 Qc_ops) (fun _ _ _ => o0 Qc_ops) (fun _ _ _ => o0 Qc_ops) U1 R1 S1 U2 R2 S2 U R S (Permutation_refl _) (Permutation_refl _) (Permutation_refl _) (Permutation_refl _) (Permutation_refl _) (Permutation_refl _) eq_refl) as (Q1 & Q2 & Q3); try assumption; try (unfold nt_ok; lia).
  exists U1, R1, S1, U2, R2, S2, U, R, S. split; [exact E1|]. split; [exact E2|]. split; [exact E|]. split; [exact Q1|]. split; [|vm_compute; reflexivity].
  apply Q3; [lia|]. cbn; auto 10.
Qed.

(** Amplitudes of ignored sources (location -1) have no effect on any output. *)
Theorem C18_acoustic_ignored_source (nd : nat) (K : ops) (Kr : is_ring K) (P : spar (ac_sys nd) K) (pw : nat -> Z * Z) :
  length (sp_shape P) = nd -> locs_ok (ac_sys nd) K P (sp_src P) -> locs_ok (ac_sys nd) K P (sp_rec P) -> sgeom (ac_sys nd) K P pw ->
  forall (dt : K) (kb : aM -> arr K) f f' u nt sr visA1 visB1 visA2 visB2 kg1 bg1 kg2 bg2 cb1 cb2 st1 st2 U1 R1 S1 U2 R2 S2,
  ac_fvis nd K P pw true visA1 -> ac_fvis nd K P pw false visB1 -> ac_fvis nd K P pw true visA2 -> ac_fvis nd K P pw false visB2 -> nt_ok nt sr cb1 -> nt_ok nt sr cb2 ->
  (forall t c, (0 <= t < nt)%Z -> In c (ac_allX nd) ->
     length (f t c) = length (sp_src P c) /\ length (f' t c) = length (sp_src P c) /\
     forall k l, nth_error (sp_src P c) k = Some l -> (0 <= l)%Z -> nth_error (f t c) k = nth_error (f' t c) k) ->
  acoustic_forward nd K P pw dt kb visA1 visB1 kg1 bg1 sr f nt cb1 st1 u = Some (U1, R1, S1) ->
  acoustic_forward nd K P pw dt kb visA2 visB2 kg2 bg2 sr f' nt cb2 st2 u = Some (U2, R2, S2) ->
  sseq (ac_sys nd) K U1 U2 /\ forall t c, In c (ac_allX nd) -> R1 t c = R2 t c.
Proof. exact (acoustic_ignored_source nd K Kr P pw). Qed.
Print Assumptions C18_acoustic_ignored_source.
Example ignored_source_acoustic_example : exists U1 R1 S1 U2 R2 S2,
  ax 2 ax_f 4 None ax_u = Some (U1, R1, S1) /\ ax 2 ax_f' 4 None ax_u = Some (U2, R2, S2) /\
  ax_f 1%Z XP <> ax_f' 1%Z XP /\ sseq (ac_sys 2) Qc_ops U1 U2 /\ R1 3%Z XP = R2 3%Z XP /\ ax_nz (ax 2 ax_f 4 None ax_u) 3%Z XP = true.
Proof.
  destruct (ax_some 2 ax_f 4 None ax_u) as (U1 & R1 & S1 & E1); [unfold nt_ok; lia|].
  destruct (ax_some 2 ax_f' 4 None ax_u) as (U2 & R2 & S2 & E2); [unfold nt_ok; lia|].
  destruct (C18_acoustic_ignored_source 2 Qc_ops Qc_is_ring aexP aexpw eq_refl aex_src aex_rec aex_geom aex_dt (fun k => are (aex_kb k)) ax_f ax_f' ax_u 4 2 (aexF true) (aexF false) (aexF true) (aexF false) true true true true None None (fun _ _ _ => o0 Qc_ops) (fun _ _ _ => o0 Qc_ops) U1 R1 S1 U2 R2 S2 (Permutation_refl _) (Permutation_refl _) (Permutation_refl _) (Permutation_refl _)) as (Q1 & Q2); try assumption; try (unfold nt_ok; lia).
  { intros t c _ _. destruct c; cbn [ax_f ax_f' aex_f lre map fst length sp_src aexP]; (split; [reflexivity|]); (split; [reflexivity|]); intros [|[|[|k]]] l H1 H2; cbn in H1; try reflexivity; injection H1 as <-; exfalso; revert H2; vm_compute; congruence. }
  exists U1, R1, S1, U2, R2, S2. split; [exact E1|]. split; [exact E2|]. split; [|split; [exact Q1|split; [apply Q2; cbn; auto 10|vm_compute; reflexivity]]].
  intros H. apply (f_equal (fun l => nz (Qcminus (nth 1 l (qz 0)) (qz 77)))) in H. vm_compute in H. discriminate H.
Qed.

(** Amplitudes of ignored sources (location -1) have no effect on any output. *)
Theorem C18_elastic_ignored_source (nd : nat) (K : ops) (Kr : is_ring K) (P : spar (el_sys nd) K) (pw : nat -> Z * Z) :
  length (sp_shape P) = nd -> (0 < nd)%nat -> locs_ok (el_sys nd) K P (sp_src P) -> locs_ok (el_sys nd) K P (sp_rec P) -> sgeom (el_sys nd) K P pw ->
  forall (dt : K) (md : eM -> arr K) f f' u nt sr visA1 visB1 visA2 visB2 lg1 mg1 bg1 lg2 mg2 bg2 cb1 cb2 st1 st2 U1 R1 S1 U2 R2 S2,
  el_fvis nd K P pw true visA1 -> el_fvis nd K P pw false visB1 -> el_fvis nd K P pw true visA2 -> el_fvis nd K P pw false visB2 -> nt_ok nt sr cb1 -> nt_ok nt sr cb2 ->
  (forall t c, (0 <= t < nt)%Z -> In c (el_allC nd) ->
     length (f t c) = length (sp_src P c) /\ length (f' t c) = length (sp_src P c) /\
     forall k l, nth_error (sp_src P c) k = Some l -> (0 <= l)%Z -> nth_error (f t c) k = nth_error (f' t c) k) ->
  elastic_forward nd K P pw dt md visA1 visB1 lg1 mg1 bg1 sr f nt cb1 st1 u = Some (U1, R1, S1) ->
  elastic_forward nd K P pw dt md visA2 visB2 lg2 mg2 bg2 sr f' nt cb2 st2 u = Some (U2, R2, S2) ->
  sseq (el_sys nd) K U1 U2 /\ forall t c, In c (el_allC nd) -> R1 t c = R2 t c.
Proof. exact (elastic_ignored_source nd K Kr P pw). Qed.
Print Assumptions C18_elastic_ignored_source.
Example ignored_source_elastic_example : exists U1 R1 S1 U2 R2 S2,
  ex 2 ex_f 4 None ex_u = Some (U1, R1, S1) /\ ex 2 ex_f' 4 None ex_u = Some (U2, R2, S2) /\
  ex_f 1%Z CP <> ex_f' 1%Z CP /\ sseq (el_sys 2) Qc_ops U1 U2 /\ R1 3%Z CP = R2 3%Z CP /\ ex_nz (ex 2 ex_f 4 None ex_u) 3%Z CP = true.
Proof.
  destruct (ex_some 2 ex_f 4 None ex_u) as (U1 & R1 & S1 & E1); [unfold nt_ok; lia|].
  destruct (ex_some 2 ex_f' 4 None ex_u) as (U2 & R2 & S2 & E2); [unfold nt_ok; lia|].
  destruct (C18_elastic_ignored_source 2 Qc_ops Qc_is_ring eexP aexpw eq_refl Nat.lt_0_2 eex_src eex_rec eex_geom eex_dt (fun k => are (eex_md k)) ex_f ex_f' ex_u 4 2 (eexF true) (eexF false) (eexF true) (eexF false) true true true true true true None None (fun _ _ _ => o0 Qc_ops) (fun _ _ _ => o0 Qc_ops) U1 R1 S1 U2 R2 S2 (Permutation_refl _) (Permutation_refl _) (Permutation_refl _) (Permutation_refl _)) as (Q1 & Q2); try assumption; try (unfold nt_ok; lia).
  { intros t c _ _. destruct c; cbn [ex_f ex_f' eex_f lre map fst length sp_src eexP]; (split; [reflexivity|]); (split; [reflexivity|]); intros [|[|[|k]]] l H1 H2; cbn in H1; try reflexivity; injection H1 as <-; exfalso; revert H2; vm_compute; congruence. }
  exists U1, R1, S1, U2, R2, S2. split; [exact E1|]. split; [exact E2|]. split; [|split; [exact Q1|split; [apply Q2; cbn; auto 10|vm_compute; reflexivity]]].
  intros H. apply (f_equal (fun l => nz (Qcminus (nth 1 l (qz 0)) (qz 77)))) in H. vm_compute in H. discriminate H.
Qed.

(** An ignored receiver records zero at every step. *)
Theorem C18_acoustic_ignored_receiver (nd : nat) (K : ops) (Kr : is_ring K) (P : spar (ac_sys nd) K) (pw : nat -> Z * Z) :
  length (sp_shape P) = nd -> locs_ok (ac_sys nd) K P (sp_src P) -> locs_ok (ac_sys nd) K P (sp_rec P) -> sgeom (ac_sys nd) K P pw ->
  forall (dt : K) (kb : aM -> arr K) f u nt sr visA visB kg bg cb st U R S,
  ac_fvis nd K P pw true visA -> ac_fvis nd K P pw false visB -> nt_ok nt sr cb ->
  acoustic_forward nd K P pw dt kb visA visB kg bg sr f nt cb st u = Some (U, R, S) ->
  forall c k l, In c (ac_allX nd) -> nth_error (sp_rec P c) k = Some l -> (l < 0)%Z -> forall t, nth_error (R t c) k = Some 0.
Proof. exact (acoustic_ignored_receiver nd K Kr P pw). Qed.
Print Assumptions C18_acoustic_ignored_receiver.
Example ignored_receiver_acoustic_example : exists U R S, acoustic_forward 2 Qc_ops axP aexpw aex_dt (fun k => are (aex_kb k)) (aexF true) (aexF false) true true 2 ax_f 4 None (fun _ _ _ => o0 Qc_ops) ax_u = Some (U, R, S) /\
  length (R 3%Z XP) = 2%nat /\ nth_error (R 3%Z XP) 1 = Some (o0 Qc_ops) /\ existsb nz (R 3%Z XP) = true.
Proof.
  assert (H : match acoustic_forward 2 Qc_ops axP aexpw aex_dt (fun k => are (aex_kb k)) (aexF true) (aexF false) true true 2 ax_f 4 None (fun _ _ _ => o0 Qc_ops) ax_u with
    | Some (_, R, _) => Nat.eqb (length (R 3%Z XP)) 2 && existsb nz (R 3%Z XP) | None => false end = true) by (vm_compute; reflexivity).
  destruct (acoustic_forward 2 Qc_ops axP aexpw aex_dt (fun k => are (aex_kb k)) (aexF true) (aexF false) true true 2 ax_f 4 None (fun _ _ _ => o0 Qc_ops) ax_u) as [[[U R] S]|] eqn:E; [|discriminate H].
  apply andb_true_iff in H. destruct H as [H1 H2]. exists U, R, S. split; [reflexivity|]. split; [apply Nat.eqb_eq, H1|]. split; [|exact H2].
  refine (C18_acoustic_ignored_receiver 2 Qc_ops Qc_is_ring axP aexpw eq_refl aex_src axP_rec axP_geom aex_dt (fun k => are (aex_kb k)) ax_f ax_u 4 2 (aexF true) (aexF false) true true None (fun _ _ _ => o0 Qc_ops) U R S (Permutation_refl _) (Permutation_refl _) _ E XP 1%nat IGNORE _ eq_refl _ 3%Z); [unfold nt_ok; lia|cbn; auto 10|vm_compute; reflexivity].
Qed.

(** An ignored receiver records zero at every step. *)
Theorem C18_elastic_ignored_receiver (nd : nat) (K : ops) (Kr : is_ring K) (P : spar (el_sys nd) K) (pw : nat -> Z * Z) :
  length (sp_shape P) = nd -> (0 < nd)%nat -> locs_ok (el_sys nd) K P (sp_src P) -> locs_ok (el_sys nd) K P (sp_rec P) -> sgeom (el_sys nd) K P pw ->
  forall (dt : K) (md : eM -> arr K) f u nt sr visA visB lg mg bg cb st U R S,
  el_fvis nd K P pw true visA -> el_fvis nd K P pw false visB -> nt_ok nt sr cb ->
  elastic_forward nd K P pw dt md visA visB lg mg bg sr f nt cb st u = Some (U, R, S) ->
  forall c k l, In c (el_allC nd) -> nth_error (sp_rec P c) k = Some l -> (l < 0)%Z -> forall t, nth_error (R t c) k = Some 0.
Proof. exact (elastic_ignored_receiver nd K Kr P pw). Qed.
Print Assumptions C18_elastic_ignored_receiver.
Example ignored_receiver_elastic_example : exists U R S, elastic_forward 2 Qc_ops exP aexpw eex_dt (fun k => are (eex_md k)) (eexF true) (eexF false) true true true 2 ex_f 4 None (fun _ _ _ => o0 Qc_ops) ex_u = Some (U, R, S) /\
  length (R 3%Z CP) = 2%nat /\ nth_error (R 3%Z CP) 1 = Some (o0 Qc_ops) /\ existsb nz (R 3%Z CP) = true.
Proof.
  assert (H : match elastic_forward 2 Qc_ops exP aexpw eex_dt (fun k => are (eex_md k)) (eexF true) (eexF false) true true true 2 ex_f 4 None (fun _ _ _ => o0 Qc_ops) ex_u with
    | Some (_, R, _) => Nat.eqb (length (R 3%Z CP)) 2 && existsb nz (R 3%Z CP) | None => false end = true) by (vm_compute; reflexivity).
  destruct (elastic_forward 2 Qc_ops exP aexpw eex_dt (fun k => are (eex_md k)) (eexF true) (eexF false) true true true 2 ex_f 4 None (fun _ _ _ => o0 Qc_ops) ex_u) as [[[U R] S]|] eqn:E; [|discriminate H].
  apply andb_true_iff in H. destruct H as [H1 H2]. exists U, R, S. split; [reflexivity|]. split; [apply Nat.eqb_eq, H1|]. split; [|exact H2].
  refine (C18_elastic_ignored_receiver 2 Qc_ops Qc_is_ring exP aexpw eq_refl Nat.lt_0_2 eex_src exP_rec exP_geom eex_dt (fun k => are (eex_md k)) ex_f ex_u 4 2 (eexF true) (eexF false) true true true None (fun _ _ _ => o0 Qc_ops) U R S (Permutation_refl _) (Permutation_refl _) _ E CP 1%nat IGNORE _ eq_refl _ 3%Z); [unfold nt_ok; lia|cbn; auto 10|vm_compute; reflexivity].
Qed.

(** The gradient of the amplitude of an ignored source is zero. *)
Theorem C18_acoustic_ignored_source_gradient (nd : nat) (K : ops) (Kr : is_ring K) (P : spar (ac_sys nd) K) (pw : nat -> Z * Z) :
  length (sp_shape P) = nd -> locs_ok (ac_sys nd) K P (sp_src P) -> locs_ok (ac_sys nd) K P (sp_rec P) -> sgeom (ac_sys nd) K P pw ->
  forall (dt : K) (kb : aM -> arr K) visA visB kg bg store sr gr nt cb g G f m,
  sroom (ac_sys nd) K P pw -> ac_bvis nd K P pw true visA -> ac_bvis nd K P pw false visB -> nt_ok nt sr cb ->
  acoustic_backward nd K P pw dt kb visA visB kg bg sr gr nt cb store g = Some (G, f, m) ->
  forall c k l, In c (ac_allX nd) -> nth_error (sp_src P c) k = Some l -> (l < 0)%Z -> forall t, nth_error (f t c) k = Some 0.
Proof. exact (acoustic_ignored_source_gradient nd K Kr P pw). Qed.
Print Assumptions C18_acoustic_ignored_source_gradient.
Example ignored_source_gradient_acoustic_example : exists G f m, ax_back 1 3 None ax_st = Some (G, f, m) /\ nth_error (f 1%Z XP) 1 = Some (o0 Qc_ops) /\ existsb nz (f 1%Z XP) = true.
Proof.
  assert (H : match ax_back 1 3 None ax_st with Some (_, f, _) => existsb nz (f 1%Z XP) | None => false end = true) by (vm_compute; reflexivity).
  destruct (ax_back 1 3 None ax_st) as [[[G f] m]|] eqn:E; [|discriminate H]. exists G, f, m. split; [reflexivity|]. split; [|exact H].
  refine (C18_acoustic_ignored_source_gradient 2 Qc_ops Qc_is_ring aexP aexpw eq_refl aex_src aex_rec aex_geom aex_dt (fun k => are (aex_kb k)) (aexB true) (aexB false) true true ax_st 1 aex_gr 3 None aex_g G f m aex_room (Permutation_refl _) (Permutation_refl _) _ E XP 1%nat IGNORE _ eq_refl _ 1%Z); [unfold nt_ok; lia|cbn; auto 10|vm_compute; reflexivity].
Qed.

(** The gradient of the amplitude of an ignored source is zero. *)
Theorem C18_elastic_ignored_source_gradient (nd : nat) (K : ops) (Kr : is_ring K) (P : spar (el_sys nd) K) (pw : nat -> Z * Z) :
  length (sp_shape P) = nd -> (0 < nd)%nat -> locs_ok (el_sys nd) K P (sp_src P) -> locs_ok (el_sys nd) K P (sp_rec P) -> sgeom (el_sys nd) K P pw ->
  forall (dt : K) (md : eM -> arr K) visA visB lg mg bg store sr gr nt cb g G f m,
  sroom (el_sys nd) K P pw -> el_bvis nd K P pw true visA -> el_bvis nd K P pw false visB -> nt_ok nt sr cb ->
  elastic_backward nd K P pw dt md visA visB lg mg bg sr gr nt cb store g = Some (G, f, m) ->
  forall c k l, In c (el_allC nd) -> nth_error (sp_src P c) k = Some l -> (l < 0)%Z -> forall t, nth_error (f t c) k = Some 0.
Proof. exact (elastic_ignored_source_gradient nd K Kr P pw). Qed.
Print Assumptions C18_elastic_ignored_source_gradient.
Example ignored_source_gradient_elastic_example : exists G f m, ex_back 1 3 None ex_st = Some (G, f, m) /\ nth_error (f 1%Z CP) 1 = Some (o0 Qc_ops) /\ existsb nz (f 1%Z CP) = true.
Proof.
  assert (H : match ex_back 1 3 None ex_st with Some (_, f, _) => existsb nz (f 1%Z CP) | None => false end = true) by (vm_compute; reflexivity).
  destruct (ex_back 1 3 None ex_st) as [[[G f] m]|] eqn:E; [|discriminate H]. exists G, f, m. split; [reflexivity|]. split; [|exact H].
  refine (C18_elastic_ignored_source_gradient 2 Qc_ops Qc_is_ring eexP aexpw eq_refl Nat.lt_0_2 eex_src eex_rec eex_geom eex_dt (fun k => are (eex_md k)) (eexB true) (eexB false) true true true ex_st 1 eex_gr 3 None eex_g G f m eex_room (Permutation_refl _) (Permutation_refl _) _ E CP 1%nat IGNORE _ eq_refl _ 1%Z); [unfold nt_ok; lia|cbn; auto 10|vm_compute; reflexivity].
Qed.

(** Running with a forward callback gives the outputs of the run without. *)
Theorem C09_acoustic_callbacks_passive (nd : nat) (K : ops) (Kr : is_ring K) (P : spar (ac_sys nd) K) (pw : nat -> Z * Z) :
  length (sp_shape P) = nd -> locs_ok (ac_sys nd) K P (sp_src P) -> locs_ok (ac_sys nd) K P (sp_rec P) -> sgeom (ac_sys nd) K P pw ->
  forall (dt : K) (kb : aM -> arr K) f u nt sr c visA visB kg bg st,
  ac_fvis nd K P pw true visA -> ac_fvis nd K P pw false visB -> (0 < sr)%Z -> (0 < c)%Z -> (nt = 0 \/ sr <= nt)%Z ->
  exists U R S U' R' S',
    acoustic_forward nd K P pw dt kb visA visB kg bg sr f nt None st u = Some (U, R, S) /\
    acoustic_forward nd K P pw dt kb visA visB kg bg sr f nt (Some c) st u = Some (U', R', S') /\
    sseq (ac_sys nd) K U U' /\ forall t c, In c (ac_allX nd) -> R t c = R' t c.
Proof. exact (acoustic_callbacks_passive nd K Kr P pw). Qed.
Print Assumptions C09_acoustic_callbacks_passive.
Example callbacks_passive_acoustic_example : exists U R S U' R' S', ax 2 ax_f 5 None ax_u = Some (U, R, S) /\ ax 2 ax_f 5 (Some 1%Z) ax_u = Some (U', R', S') /\
  sseq (ac_sys 2) Qc_ops U U' /\ ax_nz (ax 2 ax_f 5 None ax_u) 3%Z XP = true.
Proof.
  destruct (C09_acoustic_callbacks_passive 2 Qc_ops Qc_is_ring aexP aexpw eq_refl aex_src aex_rec aex_geom aex_dt (fun k => are (aex_kb k)) ax_f ax_u 5 2 1 (aexF true) (aexF false) true true (fun _ _ _ => o0 Qc_ops) (Permutation_refl _) (Permutation_refl _)) as (U & R & S & U' & R' & S' & E & E' & Q & _); try lia.
  exists U, R, S, U', R', S'. split; [exact E|]. split; [exact E'|]. split; [exact Q|vm_compute; reflexivity].
Qed.

(** Running with a forward callback gives the outputs of the run without. *)
Theorem C09_elastic_callbacks_passive (nd : nat) (K : ops) (Kr : is_ring K) (P : spar (el_sys nd) K) (pw : nat -> Z * Z) :
  length (sp_shape P) = nd -> (0 < nd)%nat -> locs_ok (el_sys nd) K P (sp_src P) -> locs_ok (el_sys nd) K P (sp_rec P) -> sgeom (el_sys nd) K P pw ->
  forall (dt : K) (md : eM -> arr K) f u nt sr c visA visB lg mg bg st,
  el_fvis nd K P pw true visA -> el_fvis nd K P pw false visB -> (0 < sr)%Z -> (0 < c)%Z -> (nt = 0 \/ sr <= nt)%Z ->
  exists U R S U' R' S',
    elastic_forward nd K P pw dt md visA visB lg mg bg sr f nt None st u = Some (U, R, S) /\
    elastic_forward nd K P pw dt md visA visB lg mg bg sr f nt (Some c) st u = Some (U', R', S') /\
    sseq (el_sys nd) K U U' /\ forall t c, In c (el_allC nd) -> R t c = R' t c.
Proof. exact (elastic_callbacks_passive nd K Kr P pw). Qed.
Print Assumptions C09_elastic_callbacks_passive.
Example callbacks_passive_elastic_example : exists U R S U' R' S', ex 2 ex_f 5 None ex_u = Some (U, R, S) /\ ex 2 ex_f 5 (Some 1%Z) ex_u = Some (U', R', S') /\
  sseq (el_sys 2) Qc_ops U U' /\ ex_nz (ex 2 ex_f 5 None ex_u) 3%Z CP = true.
Proof.
  destruct (C09_elastic_callbacks_passive 2 Qc_ops Qc_is_ring eexP aexpw eq_refl Nat.lt_0_2 eex_src eex_rec eex_geom eex_dt (fun k => are (eex_md k)) ex_f ex_u 5 2 1 (eexF true) (eexF false) true true true (fun _ _ _ => o0 Qc_ops) (Permutation_refl _) (Permutation_refl _)) as (U & R & S & U' & R' & S' & E & E' & Q & _); try lia.
  exists U, R, S, U', R', S'. split; [exact E|]. split; [exact E'|]. split; [exact Q|vm_compute; reflexivity].
Qed.

(** The forward callback is called once at each multiple of the callback frequency, and sees the state of a run that stops there. *)
Theorem C09_acoustic_callback_calls (nd : nat) (K : ops) (Kr : is_ring K) (P : spar (ac_sys nd) K) (pw : nat -> Z * Z) :
  length (sp_shape P) = nd -> locs_ok (ac_sys nd) K P (sp_src P) -> locs_ok (ac_sys nd) K P (sp_rec P) -> sgeom (ac_sys nd) K P pw ->
  forall (dt : K) (kb : aM -> arr K) f u nt sr c visA visB kg bg st,
  ac_fvis nd K P pw true visA -> ac_fvis nd K P pw false visB -> (0 < sr)%Z -> (0 < c)%Z -> (0 <= nt)%Z ->
  let calls := acoustic_calls nd K P pw dt kb visA visB kg bg sr f nt c st u in
  map fst calls = filter (fun s => (s mod c =? 0)%Z) (zrange 0 (nt / sr)) /\
  forall s w, In (s, w) calls ->
    exists U R S, acoustic_forward nd K P pw dt kb visA visB kg bg sr f (s * sr) None st u = Some (U, R, S) /\ sseq (ac_sys nd) K w U.
Proof. exact (acoustic_callback_calls nd K Kr P pw). Qed.
Print Assumptions C09_acoustic_callback_calls.
Example callback_calls_acoustic_example : map fst (acoustic_calls 2 Qc_ops aexP aexpw aex_dt (fun k => are (aex_kb k)) (aexF true) (aexF false) true true 1 ax_f 5 2 (fun _ _ _ => o0 Qc_ops) ax_u) = [0; 2; 4]%Z.
Proof.
  rewrite (proj1 (C09_acoustic_callback_calls 2 Qc_ops Qc_is_ring aexP aexpw eq_refl aex_src aex_rec aex_geom aex_dt (fun k => are (aex_kb k)) ax_f ax_u 5 1 2 (aexF true) (aexF false) true true (fun _ _ _ => o0 Qc_ops) (Permutation_refl _) (Permutation_refl _) ltac:(lia) ltac:(lia) ltac:(lia))). reflexivity.
Qed.

(** The forward callback is called once at each multiple of the callback frequency, and sees the state of a run that stops there. *)
Theorem C09_elastic_callback_calls (nd : nat) (K : ops) (Kr : is_ring K) (P : spar (el_sys nd) K) (pw : nat -> Z * Z) :
  length (sp_shape P) = nd -> (0 < nd)%nat -> locs_ok (el_sys nd) K P (sp_src P) -> locs_ok (el_sys nd) K P (sp_rec P) -> sgeom (el_sys nd) K P pw ->
  forall (dt : K) (md : eM -> arr K) f u nt sr c visA visB lg mg bg st,
  el_fvis nd K P pw true visA -> el_fvis nd K P pw false visB -> (0 < sr)%Z -> (0 < c)%Z -> (0 <= nt)%Z ->
  let calls := elastic_calls nd K P pw dt md visA visB lg mg bg sr f nt c st u in
  map fst calls = filter (fun s => (s mod c =? 0)%Z) (zrange 0 (nt / sr)) /\
  forall s w, In (s, w) calls ->
    exists U R S, elastic_forward nd K P pw dt md visA visB lg mg bg sr f (s * sr) None st u = Some (U, R, S) /\ sseq (el_sys nd) K w U.
Proof. exact (elastic_callback_calls nd K Kr P pw). Qed.
Print Assumptions C09_elastic_callback_calls.
Example callback_calls_elastic_example : map fst (elastic_calls 2 Qc_ops eexP aexpw eex_dt (fun k => are (eex_md k)) (eexF true) (eexF false) true true true 1 ex_f 5 2 (fun _ _ _ => o0 Qc_ops) ex_u) = [0; 2; 4]%Z.
Proof.
  rewrite (proj1 (C09_elastic_callback_calls 2 Qc_ops Qc_is_ring eexP aexpw eq_refl Nat.lt_0_2 eex_src eex_rec eex_geom eex_dt (fun k => are (eex_md k)) ex_f ex_u 5 1 2 (eexF true) (eexF false) true true true (fun _ _ _ => o0 Qc_ops) (Permutation_refl _) (Permutation_refl _) ltac:(lia) ltac:(lia) ltac:(lia))). reflexivity.
Qed.

(** One shot: the backward callback frequency does not change any gradient. *)
Theorem C10_acoustic_backward_callbacks_passive (nd : nat) (K : ops) (Kr : is_ring K) (P : spar (ac_sys nd) K) (pw : nat -> Z * Z) :
  length (sp_shape P) = nd -> locs_ok (ac_sys nd) K P (sp_src P) -> locs_ok (ac_sys nd) K P (sp_rec P) -> sgeom (ac_sys nd) K P pw ->
  forall (dt : K) (kb : aM -> arr K) visA1 visB1 visA2 visB2 kg bg store sr gr nt cb1 cb2 g,
  sroom (ac_sys nd) K P pw -> ac_bvis nd K P pw true visA1 -> ac_bvis nd K P pw false visB1 -> ac_bvis nd K P pw true visA2 -> ac_bvis nd K P pw false visB2 -> nt_ok nt sr cb1 -> nt_ok nt sr cb2 ->
  exists G1 f1 m1 G2 f2 m2,
    acoustic_backward nd K P pw dt kb visA1 visB1 kg bg sr gr nt cb1 store g = Some (G1, f1, m1) /\
    acoustic_backward nd K P pw dt kb visA2 visB2 kg bg sr gr nt cb2 store g = Some (G2, f2, m2) /\
    sseq (ac_sys nd) K G1 G2 /\ (forall t c, In c (ac_allX nd) -> f1 t c = f2 t c) /\
    (forall k p, ac_models nd k -> inb (abox (sp_shape P)) p = true -> m1 k (idx (sp_shape P) p) = m2 k (idx (sp_shape P) p)).
Proof. exact (acoustic_backward_callbacks_passive nd K Kr P pw). Qed.
Print Assumptions C10_acoustic_backward_callbacks_passive.
Example backward_callbacks_passive_acoustic_example : exists G1 f1 m1 G2 f2 m2, ax_back 1 3 None ax_st = Some (G1, f1, m1) /\ ax_back 1 3 (Some 2%Z) ax_st = Some (G2, f2, m2) /\
  m1 (MB 0%nat) 6%Z = m2 (MB 0%nat) 6%Z /\ nz (m1 (MB 0%nat) 6%Z) = true.
Proof.
  destruct (C10_acoustic_backward_callbacks_passive 2 Qc_ops Qc_is_ring aexP aexpw eq_refl aex_src aex_rec aex_geom aex_dt (fun k => are (aex_kb k)) (aexB true) (aexB false) (aexB true) (aexB false) true true ax_st 1 aex_gr 3 None (Some 2%Z) aex_g aex_room (Permutation_refl _) (Permutation_refl _) (Permutation_refl _) (Permutation_refl _)) as (G1 & f1 & m1 & G2 & f2 & m2 & E1 & E2 & Q1 & Q2 & Q3); try (unfold nt_ok; lia).
  exists G1, f1, m1, G2, f2, m2. split; [exact E1|]. split; [exact E2|]. split; [exact (Q3 (MB 0%nat) [1%Z; 1%Z] ltac:(cbn; lia) eq_refl)|].
  assert (H : match ax_back 1 3 None ax_st with Some (_, _, m) => nz (m (MB 0%nat) 6%Z) | None => false end = true) by (vm_compute; reflexivity).
  unfold ax_back in H. rewrite E1 in H. exact H.
Qed.

(** One shot: the backward callback frequency does not change any gradient. *)
Theorem C10_elastic_backward_callbacks_passive (nd : nat) (K : ops) (Kr : is_ring K) (P : spar (el_sys nd) K) (pw : nat -> Z * Z) :
  length (sp_shape P) = nd -> (0 < nd)%nat -> locs_ok (el_sys nd) K P (sp_src P) -> locs_ok (el_sys nd) K P (sp_rec P) -> sgeom (el_sys nd) K P pw ->
  forall (dt : K) (md : eM -> arr K) visA1 visB1 visA2 visB2 lg mg bg store sr gr nt cb1 cb2 g,
  sroom (el_sys nd) K P pw -> el_bvis nd K P pw true visA1 -> el_bvis nd K P pw false visB1 -> el_bvis nd K P pw true visA2 -> el_bvis nd K P pw false visB2 -> nt_ok nt sr cb1 -> nt_ok nt sr cb2 ->
  exists G1 f1 m1 G2 f2 m2,
    elastic_backward nd K P pw dt md visA1 visB1 lg mg bg sr gr nt cb1 store g = Some (G1, f1, m1) /\
    elastic_backward nd K P pw dt md visA2 visB2 lg mg bg sr gr nt cb2 store g = Some (G2, f2, m2) /\
    sseq (el_sys nd) K G1 G2 /\ (forall t c, In c (el_allC nd) -> f1 t c = f2 t c) /\
    (forall k p, el_models nd k -> inb (abox (sp_shape P)) p = true -> m1 k (idx (sp_shape P) p) = m2 k (idx (sp_shape P) p)).
Proof. exact (elastic_backward_callbacks_passive nd K Kr P pw). Qed.
Print Assumptions C10_elastic_backward_callbacks_passive.
Example backward_callbacks_passive_elastic_example : exists G1 f1 m1 G2 f2 m2, ex_back 1 3 None ex_st = Some (G1, f1, m1) /\ ex_back 1 3 (Some 2%Z) ex_st = Some (G2, f2, m2) /\
  m1 (EB 0%nat) 6%Z = m2 (EB 0%nat) 6%Z /\ nz (m1 (EB 0%nat) 6%Z) = true.
Proof.
  destruct (C10_elastic_backward_callbacks_passive 2 Qc_ops Qc_is_ring eexP aexpw eq_refl Nat.lt_0_2 eex_src eex_rec eex_geom eex_dt (fun k => are (eex_md k)) (eexB true) (eexB false) (eexB true) (eexB false) true true true ex_st 1 eex_gr 3 None (Some 2%Z) eex_g eex_room (Permutation_refl _) (Permutation_refl _) (Permutation_refl _) (Permutation_refl _)) as (G1 & f1 & m1 & G2 & f2 & m2 & E1 & E2 & Q1 & Q2 & Q3); try (unfold nt_ok; lia).
  exists G1, f1, m1, G2, f2, m2. split; [exact E1|]. split; [exact E2|]. split; [exact (Q3 (EB 0%nat) [1%Z; 1%Z] ltac:(cbn; lia) eq_refl)|].
  assert (H : match ex_back 1 3 None ex_st with Some (_, _, m) => nz (m (EB 0%nat) 6%Z) | None => false end = true) by (vm_compute; reflexivity).
  unfold ex_back in H. rewrite E1 in H. exact H.
Qed.

(** With a sampling interval that does not divide nt the run is the run over the first (nt / interval) * interval steps. *)
Theorem C12_acoustic_truncated (nd : nat) (K : ops) (Kr : is_ring K) (P : spar (ac_sys nd) K) (pw : nat -> Z * Z) :
  length (sp_shape P) = nd -> locs_ok (ac_sys nd) K P (sp_src P) -> locs_ok (ac_sys nd) K P (sp_rec P) -> sgeom (ac_sys nd) K P pw ->
  forall (dt : K) (kb : aM -> arr K) f u nt sr visA1 visB1 visA2 visB2 kg1 bg1 kg2 bg2 cb1 cb2 st1 st2 U1 R1 S1 U2 R2 S2,
  ac_fvis nd K P pw true visA1 -> ac_fvis nd K P pw false visB1 -> ac_fvis nd K P pw true visA2 -> ac_fvis nd K P pw false visB2 -> nt_ok nt sr cb1 -> nt_ok (nt / sr * sr) 1 cb2 ->
  acoustic_forward nd K P pw dt kb visA1 visB1 kg1 bg1 sr f nt cb1 st1 u = Some (U1, R1, S1) ->
  acoustic_forward nd K P pw dt kb visA2 visB2 kg2 bg2 1 f (nt / sr * sr) cb2 st2 u = Some (U2, R2, S2) ->
  sseq (ac_sys nd) K U1 U2 /\ forall t c, In c (ac_allX nd) -> R1 t c = R2 t c.
Proof. exact (acoustic_truncated nd K Kr P pw). Qed.
Print Assumptions C12_acoustic_truncated.
Example truncated_acoustic_example : exists U1 R1 S1 U2 R2 S2, ax 2 ax_f 5 None ax_u = Some (U1, R1, S1) /\ ax 1 ax_f 4 None ax_u = Some (U2, R2, S2) /\
  sseq (ac_sys 2) Qc_ops U1 U2 /\ ax_nz (ax 2 ax_f 5 None ax_u) 3%Z XP = true /\ ax_nz (ax 2 ax_f 5 None ax_u) 4%Z XP = false.
Proof.
  destruct (ax_some 2 ax_f 5 None ax_u) as (U1 & R1 & S1 & E1); [unfold nt_ok; lia|].
  destruct (ax_some 1 ax_f 4 None ax_u) as (U2 & R2 & S2 & E2); [unfold nt_ok; lia|].
  exists U1, R1, S1, U2, R2, S2. split; [exact E1|]. split; [exact E2|]. split; [|split; vm_compute; reflexivity].
  refine (proj1 (C12_acoustic_truncated 2 Qc_ops Qc_is_ring aexP aexpw eq_refl aex_src aex_rec aex_geom aex_dt (fun k => are (aex_kb k)) ax_f ax_u 5 2 (aexF true) (aexF false) (aexF true) (aexF false) true true true true None None (fun _ _ _ => o0 Qc_ops) (fun _ _ _ => o0 Qc_ops) U1 R1 S1 U2 R2 S2 (Permutation_refl _) (Permutation_refl _) (Permutation_refl _) (Permutation_refl _) _ _ E1 E2)); [unfold nt_ok; lia|change (nt_ok 4 1 None); unfold nt_ok; lia].
Qed.

(** With a sampling interval that does not divide nt the run is the run over the first (nt / interval) * interval steps. *)
Theorem C12_elastic_truncated (nd : nat) (K : ops) (Kr : is_ring K) (P : spar (el_sys nd) K) (pw : nat -> Z * Z) :
  length (sp_shape P) = nd -> (0 < nd)%nat -> locs_ok (el_sys nd) K P (sp_src P) -> locs_ok (el_sys nd) K P (sp_rec P) -> sgeom (el_sys nd) K P pw ->
  forall (dt : K) (md : eM -> arr K) f u nt sr visA1 visB1 visA2 visB2 lg1 mg1 bg1 lg2 mg2 bg2 cb1 cb2 st1 st2 U1 R1 S1 U2 R2 S2,
  el_fvis nd K P pw true visA1 -> el_fvis nd K P pw false visB1 -> el_fvis nd K P pw true visA2 -> el_fvis nd K P pw false visB2 -> nt_ok nt sr cb1 -> nt_ok (nt / sr * sr) 1 cb2 ->
  elastic_forward nd K P pw dt md visA1 visB1 lg1 mg1 bg1 sr f nt cb1 st1 u = Some (U1, R1, S1) ->
  elastic_forward nd K P pw dt md visA2 visB2 lg2 mg2 bg2 1 f (nt / sr * sr) cb2 st2 u = Some (U2, R2, S2) ->
  sseq (el_sys nd) K U1 U2 /\ forall t c, In c (el_allC nd) -> R1 t c = R2 t c.
Proof. exact (elastic_truncated nd K Kr P pw). Qed.
Print Assumptions C12_elastic_truncated.
Example truncated_elastic_example : exists U1 R1 S1 U2 R2 S2, ex 2 ex_f 5 None ex_u = Some (U1, R1, S1) /\ ex 1 ex_f 4 None ex_u = Some (U2, R2, S2) /\
  sseq (el_sys 2) Qc_ops U1 U2 /\ ex_nz (ex 2 ex_f 5 None ex_u) 3%Z CP = true /\ ex_nz (ex 2 ex_f 5 None ex_u) 4%Z CP = false.
Proof.
  destruct (ex_some 2 ex_f 5 None ex_u) as (U1 & R1 & S1 & E1); [unfold nt_ok; lia|].
  destruct (ex_some 1 ex_f 4 None ex_u) as (U2 & R2 & S2 & E2); [unfold nt_ok; lia|].
  exists U1, R1, S1, U2, R2, S2. split; [exact E1|]. split; [exact E2|]. split; [|split; vm_compute; reflexivity].
  refine (proj1 (C12_elastic_truncated 2 Qc_ops Qc_is_ring eexP aexpw eq_refl Nat.lt_0_2 eex_src eex_rec eex_geom eex_dt (fun k => are (eex_md k)) ex_f ex_u 5 2 (eexF true) (eexF false) (eexF true) (eexF false) true true true true true true None None (fun _ _ _ => o0 Qc_ops) (fun _ _ _ => o0 Qc_ops) U1 R1 S1 U2 R2 S2 (Permutation_refl _) (Permutation_refl _) (Permutation_refl _) (Permutation_refl _) _ _ E1 E2)); [unfold nt_ok; lia|change (nt_ok 4 1 None); unfold nt_ok; lia].
Qed.

(** Outputs up to step t0 do not depend on source samples from t0 on. *)
Theorem C28_acoustic_causality (nd : nat) (K : ops) (Kr : is_ring K) (P : spar (ac_sys nd) K) (pw : nat -> Z * Z) :
  length (sp_shape P) = nd -> locs_ok (ac_sys nd) K P (sp_src P) -> locs_ok (ac_sys nd) K P (sp_rec P) -> sgeom (ac_sys nd) K P pw ->
  forall (dt : K) (kb : aM -> arr K) f1 f2 u nt sr visA1 visB1 visA2 visB2 kg1 bg1 kg2 bg2 cb1 cb2 st1 st2 U1 R1 S1 U2 R2 S2 t0,
  ac_fvis nd K P pw true visA1 -> ac_fvis nd K P pw false visB1 -> ac_fvis nd K P pw true visA2 -> ac_fvis nd K P pw false visB2 -> nt_ok nt sr cb1 -> nt_ok nt sr cb2 ->
  acoustic_forward nd K P pw dt kb visA1 visB1 kg1 bg1 sr f1 nt cb1 st1 u = Some (U1, R1, S1) ->
  acoustic_forward nd K P pw dt kb visA2 visB2 kg2 bg2 sr f2 nt cb2 st2 u = Some (U2, R2, S2) ->
  (forall t c, (0 <= t < t0)%Z -> In c (ac_allX nd) -> f1 t c = f2 t c) ->
  forall t c, (t <= t0)%Z -> In c (ac_allX nd) -> R1 t c = R2 t c.
Proof. exact (acoustic_causality nd K Kr P pw). Qed.
Print Assumptions C28_acoustic_causality.
Example causality_acoustic_example : exists U1 R1 S1 U2 R2 S2, ax 1 ax_f 5 None ax_u = Some (U1, R1, S1) /\ ax 1 (fun t c => if (t <? 3)%Z then ax_f t c else ax_f2 t c) 5 None ax_u = Some (U2, R2, S2) /\
  R1 3%Z XP = R2 3%Z XP /\ ax_nz (ax 1 ax_f 5 None ax_u) 3%Z XP = true.
Proof.
  destruct (ax_some 1 ax_f 5 None ax_u) as (U1 & R1 & S1 & E1); [unfold nt_ok; lia|].
  destruct (ax_some 1 (fun t c => if (t <? 3)%Z then ax_f t c else ax_f2 t c) 5 None ax_u) as (U2 & R2 & S2 & E2); [unfold nt_ok; lia|].
  exists U1, R1, S1, U2, R2, S2. split; [exact E1|]. split; [exact E2|]. split; [|vm_compute; reflexivity].
  refine (C28_acoustic_causality 2 Qc_ops Qc_is_ring aexP aexpw eq_refl aex_src aex_rec aex_geom aex_dt (fun k => are (aex_kb k)) _ _ ax_u 5 1 (aexF true) (aexF false) (aexF true) (aexF false) true true true true None None (fun _ _ _ => o0 Qc_ops) (fun _ _ _ => o0 Qc_ops) U1 R1 S1 U2 R2 S2 3 (Permutation_refl _) (Permutation_refl _) (Permutation_refl _) (Permutation_refl _) _ _ E1 E2 _ 3%Z XP _ _); try (unfold nt_ok; lia); [|cbn; auto 10].
  intros t c Ht _. cbn beta. destruct (Z.ltb_spec t 3); [reflexivity|lia].
Qed.

(** Outputs up to step t0 do not depend on source samples from t0 on. *)
Theorem C28_elastic_causality (nd : nat) (K : ops) (Kr : is_ring K) (P : spar (el_sys nd) K) (pw : nat -> Z * Z) :
  length (sp_shape P) = nd -> (0 < nd)%nat -> locs_ok (el_sys nd) K P (sp_src P) -> locs_ok (el_sys nd) K P (sp_rec P) -> sgeom (el_sys nd) K P pw ->
  forall (dt : K) (md : eM -> arr K) f1 f2 u nt sr visA1 visB1 visA2 visB2 lg1 mg1 bg1 lg2 mg2 bg2 cb1 cb2 st1 st2 U1 R1 S1 U2 R2 S2 t0,
  el_fvis nd K P pw true visA1 -> el_fvis nd K P pw false visB1 -> el_fvis nd K P pw true visA2 -> el_fvis nd K P pw false visB2 -> nt_ok nt sr cb1 -> nt_ok nt sr cb2 ->
  elastic_forward nd K P pw dt md visA1 visB1 lg1 mg1 bg1 sr f1 nt cb1 st1 u = Some (U1, R1, S1) ->
  elastic_forward nd K P pw dt md visA2 visB2 lg2 mg2 bg2 sr f2 nt cb2 st2 u = Some (U2, R2, S2) ->
  (forall t c, (0 <= t < t0)%Z -> In c (el_allC nd) -> f1 t c = f2 t c) ->
  forall t c, (t <= t0)%Z -> In c (el_allC nd) -> R1 t c = R2 t c.
Proof. exact (elastic_causality nd K Kr P pw). Qed.
Print Assumptions C28_elastic_causality.
Example causality_elastic_example : exists U1 R1 S1 U2 R2 S2, ex 1 ex_f 5 None ex_u = Some (U1, R1, S1) /\ ex 1 (fun t c => if (t <? 3)%Z then ex_f t c else ex_f2 t c) 5 None ex_u = Some (U2, R2, S2) /\
  R1 3%Z CP = R2 3%Z CP /\ ex_nz (ex 1 ex_f 5 None ex_u) 3%Z CP = true.
Proof.
  destruct (ex_some 1 ex_f 5 None ex_u) as (U1 & R1 & S1 & E1); [unfold nt_ok; lia|].
  destruct (ex_some 1 (fun t c => if (t <? 3)%Z then ex_f t c else ex_f2 t c) 5 None ex_u) as (U2 & R2 & S2 & E2); [unfold nt_ok; lia|].
  exists U1, R1, S1, U2, R2, S2. split; [exact E1|]. split; [exact E2|]. split; [|vm_compute; reflexivity].
  refine (C28_elastic_causality 2 Qc_ops Qc_is_ring eexP aexpw eq_refl Nat.lt_0_2 eex_src eex_rec eex_geom eex_dt (fun k => are (eex_md k)) _ _ ex_u 5 1 (eexF true) (eexF false) (eexF true) (eexF false) true true true true true true None None (fun _ _ _ => o0 Qc_ops) (fun _ _ _ => o0 Qc_ops) U1 R1 S1 U2 R2 S2 3 (Permutation_refl _) (Permutation_refl _) (Permutation_refl _) (Permutation_refl _) _ _ E1 E2 _ 3%Z CP _ _); try (unfold nt_ok; lia); [|cbn; auto 10].
  intros t c Ht _. cbn beta. destruct (Z.ltb_spec t 3); [reflexivity|lia].
Qed.

(** Any sampling interval that divides nt: every step is taken, with its own source samples, and every receiver sample is recorded, at the time it is named after. *)
Theorem C12_acoustic_all_steps_partial (nd : nat) (K : ops) (Kr : is_ring K) (P : spar (ac_sys nd) K) (pw : nat -> Z * Z) :
  length (sp_shape P) = nd -> locs_ok (ac_sys nd) K P (sp_src P) -> locs_ok (ac_sys nd) K P (sp_rec P) -> sgeom (ac_sys nd) K P pw ->
  forall (dt : K) (kb : aM -> arr K) f u nt sr visA visB visA1 visB1 kg bg kg1 bg1 cb cb1 st st1,
  ac_fvis nd K P pw true visA -> ac_fvis nd K P pw false visB -> ac_fvis nd K P pw true visA1 -> ac_fvis nd K P pw false visB1 ->
  (nt mod sr = 0)%Z -> nt_ok nt sr cb -> nt_ok nt 1 cb1 ->
  exists U R S U1 R1 S1,
    acoustic_forward nd K P pw dt kb visA visB kg bg sr f nt cb st u = Some (U, R, S) /\
    acoustic_forward nd K P pw dt kb visA1 visB1 kg1 bg1 1 f nt cb1 st1 u = Some (U1, R1, S1) /\
    sseq (ac_sys nd) K U U1 /\ (forall t x, In x (ac_allX nd) -> R t x = R1 t x) /\
    (forall t, (0 <= t < nt)%Z -> exists Ut Rt St,
       acoustic_forward nd K P pw dt kb visA1 visB1 kg1 bg1 1 f t None st1 u = Some (Ut, Rt, St) /\
       forall x, In x (ac_allX nd) -> R t x = read_at P (sp_rec P x) (mn Ut x)).
Proof. exact (acoustic_all_steps nd K Kr P pw). Qed.
Print Assumptions C12_acoustic_all_steps_partial.
Example all_steps_acoustic_example : exists U R S U1 R1 S1, ax 2 ax_f 4 None ax_u = Some (U, R, S) /\ ax 1 ax_f 4 None ax_u = Some (U1, R1, S1) /\
  sseq (ac_sys 2) Qc_ops U U1 /\ ax_nz (ax 2 ax_f 4 None ax_u) 3%Z XP = true.
Proof.
  destruct (C12_acoustic_all_steps_partial 2 Qc_ops Qc_is_ring aexP aexpw eq_refl aex_src aex_rec aex_geom aex_dt (fun k => are (aex_kb k)) ax_f ax_u 4 2 (aexF true) (aexF false) (aexF true) (aexF false) true true true true None None (fun _ _ _ => o0 Qc_ops) (fun _ _ _ => o0 Qc_ops) (Permutation_refl _) (Permutation_refl _) (Permutation_refl _) (Permutation_refl _) eq_refl) as (U & R & S & U1 & R1 & S1 & E & E1 & Q & _); try (unfold nt_ok; lia).
  exists U, R, S, U1, R1, S1. split; [exact E|]. split; [exact E1|]. split; [exact Q|vm_compute; reflexivity].
Qed.

(** Any sampling interval that divides nt: every step is taken, with its own source samples, and every receiver sample is recorded, at the time it is named after. *)
Theorem C12_elastic_all_steps_partial (nd : nat) (K : ops) (Kr : is_ring K) (P : spar (el_sys nd) K) (pw : nat -> Z * Z) :
  length (sp_shape P) = nd -> (0 < nd)%nat -> locs_ok (el_sys nd) K P (sp_src P) -> locs_ok (el_sys nd) K P (sp_rec P) -> sgeom (el_sys nd) K P pw ->
  forall (dt : K) (md : eM -> arr K) f u nt sr visA visB visA1 visB1 lg mg bg lg1 mg1 bg1 cb cb1 st st1,
  el_fvis nd K P pw true visA -> el_fvis nd K P pw false visB -> el_fvis nd K P pw true visA1 -> el_fvis nd K P pw false visB1 ->
  (nt mod sr = 0)%Z -> nt_ok nt sr cb -> nt_ok nt 1 cb1 ->
  exists U R S U1 R1 S1,
    elastic_forward nd K P pw dt md visA visB lg mg bg sr f nt cb st u = Some (U, R, S) /\
    elastic_forward nd K P pw dt md visA1 visB1 lg1 mg1 bg1 1 f nt cb1 st1 u = Some (U1, R1, S1) /\
    sseq (el_sys nd) K U U1 /\ (forall t c, In c (el_allC nd) -> R t c = R1 t c) /\
    (forall t, (0 <= t < nt)%Z -> exists Ut Rt St,
       elastic_forward nd K P pw dt md visA1 visB1 lg1 mg1 bg1 1 f t None st1 u = Some (Ut, Rt, St) /\
       R t CP = read_at P (sp_rec P CP) (fun p => sumf (seq 0 nd) (fun i => mn Ut (Sg i i) p)) /\
       forall d, (d < nd)%nat -> R t (CV d) = read_at P (sp_rec P (CV d)) (mn Ut (VL d))).
Proof. exact (elastic_all_steps nd K Kr P pw). Qed.
Print Assumptions C12_elastic_all_steps_partial.
Example all_steps_elastic_example : exists U R S U1 R1 S1, ex 2 ex_f 4 None ex_u = Some (U, R, S) /\ ex 1 ex_f 4 None ex_u = Some (U1, R1, S1) /\
  sseq (el_sys 2) Qc_ops U U1 /\ ex_nz (ex 2 ex_f 4 None ex_u) 3%Z CP = true.
Proof.
  destruct (C12_elastic_all_steps_partial 2 Qc_ops Qc_is_ring eexP aexpw eq_refl Nat.lt_0_2 eex_src eex_rec eex_geom eex_dt (fun k => are (eex_md k)) ex_f ex_u 4 2 (eexF true) (eexF false) (eexF true) (eexF false) true true true true true true None None (fun _ _ _ => o0 Qc_ops) (fun _ _ _ => o0 Qc_ops) (Permutation_refl _) (Permutation_refl _) (Permutation_refl _) (Permutation_refl _) eq_refl) as (U & R & S & U1 & R1 & S1 & E & E1 & Q & _); try (unfold nt_ok; lia).
  exists U, R, S, U1, R1, S1. split; [exact E|]. split; [exact E1|]. split; [exact Q|vm_compute; reflexivity].
Qed.

(** The source sample of step t changes the state by that amplitude at the source cell, at step t + 1 exactly. *)
Theorem C12_acoustic_source_samples (nd : nat) (K : ops) (Kr : is_ring K) (P : spar (ac_sys nd) K) (pw : nat -> Z * Z) :
  length (sp_shape P) = nd -> locs_ok (ac_sys nd) K P (sp_src P) -> locs_ok (ac_sys nd) K P (sp_rec P) -> sgeom (ac_sys nd) K P pw ->
  forall (dt : K) (kb : aM -> arr K) f f' u visA visB visA' visB' kg bg kg' bg' cb cb' st st' U R S U' R' S' t,
  ac_fvis nd K P pw true visA -> ac_fvis nd K P pw false visB -> ac_fvis nd K P pw true visA' -> ac_fvis nd K P pw false visB' ->
  nt_ok (t + 1) 1 cb -> nt_ok (t + 1) 1 cb' -> (0 <= t)%Z ->
  (forall s c, (0 <= s < t)%Z -> In c (ac_allX nd) -> f s c = f' s c) ->
  acoustic_forward nd K P pw dt kb visA visB kg bg 1 f (t + 1) cb st u = Some (U, R, S) ->
  acoustic_forward nd K P pw dt kb visA' visB' kg' bg' 1 f' (t + 1) cb' st' u = Some (U', R', S') ->
  forall p, inb (abox (sp_shape P)) p = true ->
    (forall d, (d < nd)%nat -> mn U (XV d) p - mn U' (XV d) p = amp_at P (sp_src P (XV d)) (f t (XV d)) p - amp_at P (sp_src P (XV d)) (f' t (XV d)) p) /\
    ((forall d, (d < nd)%nat -> f t (XV d) = f' t (XV d)) ->
     mn U XP p - mn U' XP p = amp_at P (sp_src P XP) (f t XP) p - amp_at P (sp_src P XP) (f' t XP) p).
Proof. exact (acoustic_source_samples nd K Kr P pw). Qed.
Print Assumptions C12_acoustic_source_samples.
Example source_samples_acoustic_example : exists U R S U' R' S', ax 1 ax_f (2 + 1) None ax_u = Some (U, R, S) /\
  ax 1 ax_f3 (2 + 1) None ax_u = Some (U', R', S') /\
  osub Qc_ops (mn U (XP) [1; 1]%Z) (mn U' (XP) [1; 1]%Z) = qz (-7).
Proof.
  destruct (ax_some 1 ax_f (2 + 1) None ax_u) as (U & R & S & E); [unfold nt_ok; lia|].
  destruct (ax_some 1 ax_f3 (2 + 1) None ax_u) as (U' & R' & S' & E'); [unfold nt_ok; lia|].
  exists U, R, S, U', R', S'. split; [exact E|]. split; [exact E'|].
  destruct (C12_acoustic_source_samples 2 Qc_ops Qc_is_ring aexP aexpw eq_refl aex_src aex_rec aex_geom aex_dt (fun k => are (aex_kb k)) ax_f ax_f3 ax_u (aexF true) (aexF false) (aexF true) (aexF false) true true true true None None (fun _ _ _ => o0 Qc_ops) (fun _ _ _ => o0 Qc_ops) U R S U' R' S' 2%Z (Permutation_refl _) (Permutation_refl _) (Permutation_refl _) (Permutation_refl _) ltac:(unfold nt_ok; lia) ltac:(unfold nt_ok; lia) ltac:(lia) ax_f3_eq E E' [1; 1]%Z eq_refl) as [_ Q].
  specialize (Q ltac:(intros; reflexivity)). rewrite Q. apply Qc_is_canon. vm_compute. reflexivity.
Qed.

(** The source sample of step t changes the state by that amplitude at the source cell, at step t + 1 exactly. *)
Theorem C12_elastic_source_samples (nd : nat) (K : ops) (Kr : is_ring K) (P : spar (el_sys nd) K) (pw : nat -> Z * Z) :
  length (sp_shape P) = nd -> (0 < nd)%nat -> locs_ok (el_sys nd) K P (sp_src P) -> locs_ok (el_sys nd) K P (sp_rec P) -> sgeom (el_sys nd) K P pw ->
  forall (dt : K) (md : eM -> arr K) f f' u visA visB visA' visB' lg mg bg lg' mg' bg' cb cb' st st' U R S U' R' S' t,
  el_fvis nd K P pw true visA -> el_fvis nd K P pw false visB -> el_fvis nd K P pw true visA' -> el_fvis nd K P pw false visB' ->
  nt_ok (t + 1) 1 cb -> nt_ok (t + 1) 1 cb' -> (0 <= t)%Z ->
  (forall s c, (0 <= s < t)%Z -> In c (el_allC nd) -> f s c = f' s c) ->
  elastic_forward nd K P pw dt md visA visB lg mg bg 1 f (t + 1) cb st u = Some (U, R, S) ->
  elastic_forward nd K P pw dt md visA' visB' lg' mg' bg' 1 f' (t + 1) cb' st' u = Some (U', R', S') ->
  forall p, inb (abox (sp_shape P)) p = true ->
    (forall d, (d < nd)%nat -> mn U (VL d) p - mn U' (VL d) p = amp_at P (sp_src P (CV d)) (f t (CV d)) p - amp_at P (sp_src P (CV d)) (f' t (CV d)) p) /\
    ((forall d, (d < nd)%nat -> f t (CV d) = f' t (CV d)) ->
     (forall i, (i < nd)%nat -> mn U (Sg i i) p - mn U' (Sg i i) p = amp_at P (sp_src P CP) (f t CP) p - amp_at P (sp_src P CP) (f' t CP) p) /\
     (forall i j, (i < j < nd)%nat -> mn U (Sg i j) p = mn U' (Sg i j) p)).
Proof. exact (elastic_source_samples nd K Kr P pw). Qed.
Print Assumptions C12_elastic_source_samples.
Example source_samples_elastic_example : exists U R S U' R' S', ex 1 ex_f (2 + 1) None ex_u = Some (U, R, S) /\
  ex 1 ex_f3 (2 + 1) None ex_u = Some (U', R', S') /\
  osub Qc_ops (mn U (Sg 0 0) [1; 1]%Z) (mn U' (Sg 0 0) [1; 1]%Z) = qz (-7).
Proof.
  destruct (ex_some 1 ex_f (2 + 1) None ex_u) as (U & R & S & E); [unfold nt_ok; lia|].
  destruct (ex_some 1 ex_f3 (2 + 1) None ex_u) as (U' & R' & S' & E'); [unfold nt_ok; lia|].
  exists U, R, S, U', R', S'. split; [exact E|]. split; [exact E'|].
  destruct (C12_elastic_source_samples 2 Qc_ops Qc_is_ring eexP aexpw eq_refl Nat.lt_0_2 eex_src eex_rec eex_geom eex_dt (fun k => are (eex_md k)) ex_f ex_f3 ex_u (eexF true) (eexF false) (eexF true) (eexF false) true true true true true true None None (fun _ _ _ => o0 Qc_ops) (fun _ _ _ => o0 Qc_ops) U R S U' R' S' 2%Z (Permutation_refl _) (Permutation_refl _) (Permutation_refl _) (Permutation_refl _) ltac:(unfold nt_ok; lia) ltac:(unfold nt_ok; lia) ltac:(lia) ex_f3_eq E E' [1; 1]%Z eq_refl) as [_ Q].
  destruct (Q ltac:(intros; reflexivity)) as [Q1 _]. rewrite (Q1 0%nat ltac:(lia)). apply Qc_is_canon. vm_compute. reflexivity.
Qed.

(** Fewer steps than the sampling interval: no output at all. *)
Theorem C12_acoustic_short_raises nd K P pw dt kb visA visB kg bg sr f nt st u :
  (0 < nt < sr)%Z -> acoustic_forward nd K P pw dt kb visA visB kg bg sr f nt None st u = None.
Proof. exact (acoustic_short_raises nd K P pw dt kb visA visB kg bg sr f nt st u). Qed.
Print Assumptions C12_acoustic_short_raises.
Example short_raises_acoustic_example : ax 3 ax_f 2 None ax_u = None.
Proof.
  apply C12_acoustic_short_raises. lia.
Qed.

(** Fewer steps than the sampling interval: no output at all. *)
Theorem C12_elastic_short_raises nd K P pw dt md visA visB lg mg bg sr f nt st u :
  (0 < nt < sr)%Z -> elastic_forward nd K P pw dt md visA visB lg mg bg sr f nt None st u = None.
Proof. exact (elastic_short_raises nd K P pw dt md visA visB lg mg bg sr f nt st u). Qed.
Print Assumptions C12_elastic_short_raises.
Example short_raises_elastic_example : ex 3 ex_f 2 None ex_u = None.
Proof.
  apply C12_elastic_short_raises. lia.
Qed.

(** A run of no steps returns the given state; memory variables are kept where the PML acts and cleared elsewhere. *)
Theorem C41_acoustic_zero_steps (nd : nat) (K : ops) (Kr : is_ring K) (P : spar (ac_sys nd) K) (pw : nat -> Z * Z) :
  length (sp_shape P) = nd -> locs_ok (ac_sys nd) K P (sp_src P) -> locs_ok (ac_sys nd) K P (sp_rec P) -> sgeom (ac_sys nd) K P pw ->
  forall (dt : K) (kb : aM -> arr K) f u sr visA visB kg bg cb st U R S,
  ac_fvis nd K P pw true visA -> ac_fvis nd K P pw false visB -> nt_ok 0 sr cb ->
  acoustic_forward nd K P pw dt kb visA visB kg bg sr f 0 cb st u = Some (U, R, S) ->
  (forall x p, In x (ac_allX nd) -> updated P (xh (ac_sys nd) x) p -> mn U x p = mn u x p) /\
  (forall e p, In e (allE (ac_sys nd)) -> updated P (eh (ac_sys nd) e) p ->
     (in_strip P pw (eh (ac_sys nd) e (edim (ac_sys nd) e)) (edim (ac_sys nd) e) p -> me U e p = me u e p) /\
     (~ in_strip P pw (eh (ac_sys nd) e (edim (ac_sys nd) e)) (edim (ac_sys nd) e) p -> me U e p = 0)).
Proof. exact (acoustic_zero_steps nd K Kr P pw). Qed.
Print Assumptions C41_acoustic_zero_steps.
Example zero_steps_acoustic_example : exists U R S, ax 1 ax_f 0 None ax_u = Some (U, R, S) /\ mn U (XP) [2; 3]%Z = mn ax_u (XP) [2; 3]%Z /\ nz (mn U (XP) [2; 3]%Z) = true.
Proof.
  destruct (ax_some 1 ax_f 0 None ax_u) as (U & R & S & E); [unfold nt_ok; lia|].
  exists U, R, S. split; [exact E|].
  assert (Q : mn U (XP) [2; 3]%Z = mn ax_u (XP) [2; 3]%Z).
  { refine (proj1 (C41_acoustic_zero_steps 2 Qc_ops Qc_is_ring aexP aexpw eq_refl aex_src aex_rec aex_geom aex_dt (fun k => are (aex_kb k)) ax_f ax_u 1 (aexF true) (aexF false) true true None (fun _ _ _ => o0 Qc_ops) U R S (Permutation_refl _) (Permutation_refl _) _ E) (XP) [2; 3]%Z _ _); [unfold nt_ok; lia|cbn; auto 10|]. split; [reflexivity|]. intros [|[|d]] Hd; cbn in *; lia. }
  split; [exact Q|]. rewrite Q. vm_compute. reflexivity.
Qed.

(** A run of no steps returns the given state; memory variables are kept where the PML acts and cleared elsewhere. *)
Theorem C41_elastic_zero_steps (nd : nat) (K : ops) (Kr : is_ring K) (P : spar (el_sys nd) K) (pw : nat -> Z * Z) :
  length (sp_shape P) = nd -> (0 < nd)%nat -> locs_ok (el_sys nd) K P (sp_src P) -> locs_ok (el_sys nd) K P (sp_rec P) -> sgeom (el_sys nd) K P pw ->
  forall (dt : K) (md : eM -> arr K) f u sr visA visB lg mg bg cb st U R S,
  el_fvis nd K P pw true visA -> el_fvis nd K P pw false visB -> nt_ok 0 sr cb ->
  elastic_forward nd K P pw dt md visA visB lg mg bg sr f 0 cb st u = Some (U, R, S) ->
  (forall x p, In x (el_allX nd) -> updated P (xh (el_sys nd) x) p -> mn U x p = mn u x p) /\
  (forall e p, In e (allE (el_sys nd)) -> updated P (eh (el_sys nd) e) p ->
     (in_strip P pw (eh (el_sys nd) e (edim (el_sys nd) e)) (edim (el_sys nd) e) p -> me U e p = me u e p) /\
     (~ in_strip P pw (eh (el_sys nd) e (edim (el_sys nd) e)) (edim (el_sys nd) e) p -> me U e p = 0)).
Proof. exact (elastic_zero_steps nd K Kr P pw). Qed.
Print Assumptions C41_elastic_zero_steps.
Example zero_steps_elastic_example : exists U R S, ex 1 ex_f 0 None ex_u = Some (U, R, S) /\ mn U (Sg 0 0) [2; 3]%Z = mn ex_u (Sg 0 0) [2; 3]%Z /\ nz (mn U (Sg 0 0) [2; 3]%Z) = true.
Proof.
  destruct (ex_some 1 ex_f 0 None ex_u) as (U & R & S & E); [unfold nt_ok; lia|].
  exists U, R, S. split; [exact E|].
  assert (Q : mn U (Sg 0 0) [2; 3]%Z = mn ex_u (Sg 0 0) [2; 3]%Z).
  { refine (proj1 (C41_elastic_zero_steps 2 Qc_ops Qc_is_ring eexP aexpw eq_refl Nat.lt_0_2 eex_src eex_rec eex_geom eex_dt (fun k => are (eex_md k)) ex_f ex_u 1 (eexF true) (eexF false) true true true None (fun _ _ _ => o0 Qc_ops) U R S (Permutation_refl _) (Permutation_refl _) _ E) (Sg 0 0) [2; 3]%Z _ _); [unfold nt_ok; lia|cbn; auto 10|]. split; [reflexivity|]. intros [|[|d]] Hd; cbn in *; lia. }
  split; [exact Q|]. rewrite Q. vm_compute. reflexivity.
Qed.

