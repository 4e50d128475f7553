(** * Finite propagation speed of the acoustic and elastic propagators: C28. *)
From Coq Require Import List ZArith QArith Qcanon Lia Bool Permutation.
From Verif Require Import Ops Sums Grid Stencil DualNum ScalarModel ScalarRefine ScalarAdjoint ScalarMore ScalarApi ScalarEx ScalarReach
  Stag StagAdj StagKernel StagCell StagRefine StagGrad StagPy AcousticModel AcousticThm AcousticEx ElasticModel ElasticThm ElasticEx StagEqs StagRun StagRunInst
  StagEnergy StagEnergyEx StagPhys StagPhysRun StagPhysInst StagPhysEx StagReach StagReachInst StagReachEx.
Import ListNotations.
Local Open Scope K_scope.

(** C28: the value that receiver [j] of kind [c] records at step [t] of a run from rest depends only on the models and profiles at the points that
    lie on a way from a source to the receiver of at most [way_steps] half steps, each crossing at most [2 fd - 1] half cells (distances are
    summed over the dimensions, in half cells). Two problems that agree there, on different grids (a different padding or survey_pad) with a
    different PML, record the same value. *)
Theorem C28_acoustic_finite_speed (nd : nat) (K : ops) (Kr : is_ring K) (P1 P2 : spar (ac_sys nd) K) (pw1 pw2 : nat -> Z * Z) (o : pt) :
  length (sp_shape P1) = nd -> length (sp_shape P2) = nd -> length o = nd ->
  sgeom (ac_sys nd) K P1 pw1 -> sgeom (ac_sys nd) K P2 pw2 ->
  locs_ok (ac_sys nd) K P1 (sp_src P1) -> locs_ok (ac_sys nd) K P1 (sp_rec P1) ->
  locs_ok (ac_sys nd) K P2 (sp_src P2) -> locs_ok (ac_sys nd) K P2 (sp_rec P2) ->
  sp_acc P2 = sp_acc P1 -> (forall d, sp_rd P2 d = sp_rd P1 d) ->
  (forall c, In c (ac_allX nd) -> Forall2 (same_loc (sp_shape P1) (sp_shape P2) o) (sp_src P1 c) (sp_src P2 c)) ->
  (forall c, In c (ac_allX nd) -> Forall2 (same_loc (sp_shape P1) (sp_shape P2) o) (sp_rec P1 c) (sp_rec P2 c)) ->
  forall (dt : K) (kb1 kb2 : aM -> arr K) f nt sr vA1 vB1 vA2 vB2 kg1 bg1 kg2 bg2 cb1 cb2 st1 st2 U1 R1 S1 U2 R2 S2,
  ac_fvis nd K P1 pw1 true vA1 -> ac_fvis nd K P1 pw1 false vB1 -> ac_fvis nd K P2 pw2 true vA2 -> ac_fvis nd K P2 pw2 false vB2 ->
  nt_ok nt sr cb1 -> nt_ok nt sr cb2 ->
  acoustic_forward nd K P1 pw1 dt kb1 vA1 vB1 kg1 bg1 sr f nt cb1 st1 (rest (ac_sys nd) K) = Some (U1, R1, S1) ->
  acoustic_forward nd K P2 pw2 dt kb2 vA2 vB2 kg2 bg2 sr f nt cb2 st2 (rest (ac_sys nd) K) = Some (U2, R2, S2) ->
  forall t c j, In c (ac_allX nd) ->
  (forall cs l x q, In cs (ac_allX nd) -> In l (sp_src P1 cs) -> (0 <= l)%Z -> In x (ac_allX nd) ->
     on_way (sp_shape P1) (way_steps (ac_xA cs) (ac_xA c) t * (2 * fd_pad (sp_acc P1) - 1)) (ac_xh cs) l (ac_xh x) q (ac_xh c) (nth j (sp_rec P1 c) 0%Z) ->
     same_place P1 P2 o (ac_xh x) (ac_dims nd x) q /\
     (updated P1 (ac_xh x) q -> kb1 (ac_model x) (idx (sp_shape P1) q) = kb2 (ac_model x) (idx (sp_shape P2) (translate o q)))) ->
  nth j (R1 t c) 0 = nth j (R2 t c) 0.
Proof. exact (acoustic_finite_speed nd K Kr P1 P2 pw1 pw2 o). Qed.
Print Assumptions C28_acoustic_finite_speed.

(** The two problems of StagReachEx differ in grid, PML and buoyancy and bulk modulus away from the rectangle between the source and the receiver;
    the fifth sample (the first that is not zero) is the same, the sixth is not. *)
Example ex_acoustic_finite_speed : exists U1 R1 S1 U2 R2 S2, ra_run ra1 npw rarr1 = Some (U1, R1, S1) /\ ra_run ra2 rpw2 rarr2 = Some (U2, R2, S2) /\
  nth 0 (R1 4%Z XP) (qz 0) = nth 0 (R2 4%Z XP) (qz 0) /\ nth 0 (R1 4%Z XP) (qz 0) <> qz 0 /\ nth 0 (R1 5%Z XP) (qz 0) <> nth 0 (R2 5%Z XP) (qz 0).
Proof.
  destruct ra1_some as (U1 & R1 & S1 & E1). destruct ra2_some as (U2 & R2 & S2 & E2). exists U1, R1, S1, U2, R2, S2.
  split; [exact E1|]. split; [exact E2|]. split.
  - apply (C28_acoustic_finite_speed 2 Qc_ops Qc_is_ring ra1 ra2 npw rpw2 rro eq_refl eq_refl eq_refl ra1_geom ra2_geom ra1_src ra1_rec ra2_src ra2_rec
      eq_refl (fun _ => eq_refl) (fun c _ => ra_same XP _ _ ra_src_same c) (fun c _ => ra_same XP _ _ ra_rec_same c)
      (qq 1 2) (fun _ => rarr1) (fun _ => rarr2) ra_f 7 1 (ra_vis ra1 npw true) (ra_vis ra1 npw false) (ra_vis ra2 rpw2 true) (ra_vis ra2 rpw2 false)
      false false false false None None (fun _ _ _ => qz 0) (fun _ _ _ => qz 0) U1 R1 S1 U2 R2 S2);
      try apply Permutation_refl; try (unfold nt_ok; lia); try exact E1; try exact E2; [apply In_ac_allX; exact I|].
    intros cs l x q _ Hl _ Hx Hw. cbn [sp_src ra1] in Hl. unfold ac_at, one_loc in Hl.
    destruct (ac_ceq cs XP) eqn:Ec; [|destruct Hl]. apply ac_ceq_spec in Ec. subst cs. destruct Hl as [<-|[]].
    apply ra_place; assumption.
  - pose proof ra_check_ok as H. unfold ra_check in H. rewrite E1, E2 in H. apply andb_true_iff in H. destruct H as [H1 H2]. split.
    + intros E. rewrite E in H1. discriminate.
    + intros E. rewrite E in H2. unfold Qcminus in H2. rewrite Qcplus_opp_r in H2. discriminate.
Qed.

(** C28, elastic. *)
Theorem C28_elastic_finite_speed (nd : nat) (K : ops) (Kr : is_ring K) (P1 P2 : spar (el_sys nd) K) (pw1 pw2 : nat -> Z * Z) (o : pt) :
  length (sp_shape P1) = nd -> length (sp_shape P2) = nd -> length o = nd -> (0 < nd)%nat ->
  sgeom (el_sys nd) K P1 pw1 -> sgeom (el_sys nd) K P2 pw2 ->
  locs_ok (el_sys nd) K P1 (sp_src P1) -> locs_ok (el_sys nd) K P1 (sp_rec P1) ->
  locs_ok (el_sys nd) K P2 (sp_src P2) -> locs_ok (el_sys nd) K P2 (sp_rec P2) ->
  sp_acc P2 = sp_acc P1 -> (forall d, sp_rd P2 d = sp_rd P1 d) ->
  (forall c, In c (el_allC nd) -> Forall2 (same_loc (sp_shape P1) (sp_shape P2) o) (sp_src P1 c) (sp_src P2 c)) ->
  (forall c, In c (el_allC nd) -> Forall2 (same_loc (sp_shape P1) (sp_shape P2) o) (sp_rec P1 c) (sp_rec P2 c)) ->
  forall (dt : K) (md1 md2 : eM -> arr K) f nt sr vA1 vB1 vA2 vB2 lg1 mg1 bg1 lg2 mg2 bg2 cb1 cb2 st1 st2 U1 R1 S1 U2 R2 S2,
  el_fvis nd K P1 pw1 true vA1 -> el_fvis nd K P1 pw1 false vB1 -> el_fvis nd K P2 pw2 true vA2 -> el_fvis nd K P2 pw2 false vB2 ->
  nt_ok nt sr cb1 -> nt_ok nt sr cb2 ->
  elastic_forward nd K P1 pw1 dt md1 vA1 vB1 lg1 mg1 bg1 sr f nt cb1 st1 (rest (el_sys nd) K) = Some (U1, R1, S1) ->
  elastic_forward nd K P2 pw2 dt md2 vA2 vB2 lg2 mg2 bg2 sr f nt cb2 st2 (rest (el_sys nd) K) = Some (U2, R2, S2) ->
  forall t c j, In c (el_allC nd) ->
  (forall cs l x q, In cs (el_allC nd) -> In l (sp_src P1 cs) -> (0 <= l)%Z -> In x (el_allX nd) ->
     on_way (sp_shape P1) (way_steps (el_cA cs) (el_cA c) t * (2 * fd_pad (sp_acc P1) - 1)) (el_ch cs) l (el_xh x) q (el_ch c) (nth j (sp_rec P1 c) 0%Z) ->
     same_place P1 P2 o (el_xh x) (el_dims nd x) q /\
     (updated P1 (el_xh x) q -> forall k, In k (el_mods x) -> md1 k (idx (sp_shape P1) q) = md2 k (idx (sp_shape P2) (translate o q)))) ->
  nth j (R1 t c) 0 = nth j (R2 t c) 0.
Proof. exact (elastic_finite_speed nd K Kr P1 P2 pw1 pw2 o). Qed.
Print Assumptions C28_elastic_finite_speed.

Example ex_elastic_finite_speed : exists U1 R1 S1 U2 R2 S2, re_run re1 npw rarr1 = Some (U1, R1, S1) /\ re_run re2 rpw2 rarr2 = Some (U2, R2, S2) /\
  nth 0 (R1 4%Z CP) (qz 0) = nth 0 (R2 4%Z CP) (qz 0) /\ nth 0 (R1 4%Z CP) (qz 0) <> qz 0 /\ nth 0 (R1 5%Z CP) (qz 0) <> nth 0 (R2 5%Z CP) (qz 0).
Proof.
  destruct re1_some as (U1 & R1 & S1 & E1). destruct re2_some as (U2 & R2 & S2 & E2). exists U1, R1, S1, U2, R2, S2.
  split; [exact E1|]. split; [exact E2|]. split.
  - apply (C28_elastic_finite_speed 2 Qc_ops Qc_is_ring re1 re2 npw rpw2 rro eq_refl eq_refl eq_refl Nat.lt_0_2 re1_geom re2_geom re1_src re1_rec re2_src re2_rec
      eq_refl (fun _ => eq_refl) (fun c _ => re_same CP _ _ ra_src_same c) (fun c _ => re_same CP _ _ ra_rec_same c)
      (qq 1 2) (fun _ => rarr1) (fun _ => rarr2) re_f 7 1 (re_vis re1 npw true) (re_vis re1 npw false) (re_vis re2 rpw2 true) (re_vis re2 rpw2 false)
      false false false false false false None None (fun _ _ _ => qz 0) (fun _ _ _ => qz 0) U1 R1 S1 U2 R2 S2);
      try apply Permutation_refl; try (unfold nt_ok; lia); try exact E1; try exact E2; [cbn; tauto|].
    intros cs l x q _ Hl _ Hx Hw. cbn [sp_src re1] in Hl. unfold el_at, one_loc in Hl.
    destruct (el_ceq cs CP) eqn:Ec; [|destruct Hl]. apply el_ceq_spec in Ec. subst cs. destruct Hl as [<-|[]].
    apply re_place; assumption.
  - pose proof re_check_ok as H. unfold re_check in H. rewrite E1, E2 in H. apply andb_true_iff in H. destruct H as [H1 H2]. split.
    + intros E. rewrite E in H1. discriminate.
    + intros E. rewrite E in H2. unfold Qcminus in H2. rewrite Qcplus_opp_r in H2. discriminate.
Qed.

