(** * Properties C14, C27, C28: time reversal, reciprocity, causality of the scalar propagator. *)
From Coq Require Import List ZArith QArith Qcanon Lia Permutation.
From Verif Require Import Ops Sums Grid Stencil DualNum ScalarModel ScalarRefine ScalarForward
  ScalarBackward ScalarAdjoint ScalarFunc ScalarApi ScalarGrad ScalarEx ScalarMore PyBackend ScalarMore2
  ScalarPhys ScalarReach ScalarEx2.
Import ListNotations.
Local Open Scope K_scope.

(** C14: without PML and with zero source amplitudes, running [nt] steps, exchanging the two
    final wavefields and running [nt] steps again returns the initial pair, exchanged. *)
Theorem C14_time_reversal (K : ops) (Kr : is_ring K) (P : par K) :
  no_pml P -> forall pw, geom_ok K P pw ->
  Forall (loc_ok K P) (p_src P) -> Forall (loc_ok K P) (p_rec P) ->
  forall (v : arr K) f1 f2 u x nt sr vis1 vis2 vrg1 vrg2 cb1 cb2 st1 st2 U1 R1 S1 U2 R2 S2,
  fvis K P pw vis1 -> fvis K P pw vis2 -> (0 < sr)%Z -> (0 <= nt)%Z ->
  cb_ok nt sr cb1 -> cb_ok nt sr cb2 ->
  (forall t, Forall (fun x => x = 0) (f1 t)) -> (forall t, Forall (fun x => x = 0) (f2 t)) ->
  scalar_forward K P pw v vis1 vrg1 sr f1 nt cb1 st1 u = Some (U1, R1, S1) ->
  (forall q, In q (upts K P) -> s_wfc K x q = s_wfp K U1 q /\ s_wfp K x q = s_wfc K U1 q) ->
  scalar_forward K P pw v vis2 vrg2 sr f2 nt cb2 st2 x = Some (U2, R2, S2) ->
  forall q, In q (upts K P) -> s_wfc K U2 q = s_wfp K u q /\ s_wfp K U2 q = s_wfc K u q.
Proof. exact (time_reversal K Kr P). Qed.
Print Assumptions C14_time_reversal.

Example C14_example : exists U1 R1 S1 U2 R2 S2,
  scalar_forward Qc_ops (exN la0 lb0) pwN vN visN false 1 (fun _ => [qz 0]) 4 None ex_store0 UN = Some (U1, R1, S1) /\
  scalar_forward Qc_ops (exN la0 lb0) pwN vN visN false 1 (fun _ => [qz 0]) 4 None ex_store0 (swap_wf U1) = Some (U2, R2, S2) /\
  s_wfc Qc_ops U2 [1%Z; 3%Z] = qz 3 /\ s_wfp Qc_ops U2 [1%Z; 3%Z] = qz (-2) /\
  s_wfc Qc_ops U1 [1%Z; 3%Z] <> qz (-2).
Proof.
  destruct (exN_some vN 1 (fun _ => [qz 0]) 4 None UN) as (U1 & R1 & S1 & E1); [lia|cbn; lia|].
  destruct (exN_some vN 1 (fun _ => [qz 0]) 4 None (swap_wf U1)) as (U2 & R2 & S2 & E2); [lia|cbn; lia|].
  exists U1, R1, S1, U2, R2, S2. split; [exact E1|]. split; [exact E2|].
  assert (H : forall q, In q (upts Qc_ops (exN la0 lb0)) -> s_wfc Qc_ops U2 q = s_wfp Qc_ops UN q /\ s_wfp Qc_ops U2 q = s_wfc Qc_ops UN q).
  { eapply (C14_time_reversal Qc_ops Qc_is_ring (exN la0 lb0) (exN_no_pml _ _) pwN (exN_geom _ _)
      (Forall_cons _ (exN_la _ _) (Forall_nil _)) (Forall_cons _ (exN_lb _ _) (Forall_nil _)) vN _ _ UN (swap_wf U1) 4 1 visN visN
      false false None None ex_store0 ex_store0);
      [apply Permutation_refl|apply Permutation_refl|lia|lia|cbn; lia|cbn; lia| | |exact E1| |exact E2];
      intros; constructor; try reflexivity; constructor. }
  destruct (H [1%Z; 3%Z]) as [H1 H2]; [vm_compute; tauto|].
  split; [rewrite H1; reflexivity|]. split; [rewrite H2; reflexivity|].
  assert (X : match scalar_forward Qc_ops (exN la0 lb0) pwN vN visN false 1 (fun _ => [qz 0]) 4 None ex_store0 UN with
     Some (U1, _, _) => nz (s_wfc Qc_ops U1 [1%Z; 3%Z] - qz (-2))%Qc | None => false end = true) by (vm_compute; reflexivity).
  rewrite E1 in X. intros Y. rewrite Y in X. apply nz_spec in X. apply X. apply Qcplus_opp_r.
Qed.

(** C27: without PML, a source in cell [la] recorded in cell [lb] and a source in cell [lb]
    recorded in cell [la] give the same trace ([scale_sources] is what [scalar()] does with the
    user's amplitudes). *)
Theorem C27_reciprocity (K : ops) (Kr : is_ring K) (P : par K) (pw : nat -> Z * Z) :
  geom_ok K P pw -> no_pml P ->
  forall (la lb : Z) (v : arr K) (f : Z -> K) nt sr vis1 vis2 vrg1 vrg2 cb1 cb2 st1 st2 U1 R1 S1 U2 R2 S2,
  let PA := with_locs P [la] [lb] in
  let PB := with_locs P [lb] [la] in
  (0 <= la)%Z -> loc_ok K P la -> (0 <= lb)%Z -> loc_ok K P lb ->
  fvis K P pw vis1 -> fvis K P pw vis2 -> (0 < sr)%Z -> (0 <= nt)%Z -> cb_ok nt sr cb1 -> cb_ok nt sr cb2 ->
  scalar_forward K PA pw v vis1 vrg1 sr (fun t => scale_sources v (p_dt2 P) [la] [f t]) nt cb1 st1 (zero_st K)
    = Some (U1, R1, S1) ->
  scalar_forward K PB pw v vis2 vrg2 sr (fun t => scale_sources v (p_dt2 P) [lb] [f t]) nt cb2 st2 (zero_st K)
    = Some (U2, R2, S2) ->
  forall t, R1 t = R2 t.
Proof. exact (reciprocity K Kr P pw). Qed.
Print Assumptions C27_reciprocity.

Definition fN (t : Z) : Qc := qz (t + 1).
Example C27_example : exists U1 R1 S1 U2 R2 S2,
  scalar_forward Qc_ops (exN la0 lb0) pwN vN visN false 1
    (fun t => scale_sources (K := Qc_ops) vN (qq 1 4) [la0] [fN t]) 6 None ex_store0 (zero_st Qc_ops) = Some (U1, R1, S1) /\
  scalar_forward Qc_ops (exN lb0 la0) pwN vN visN false 1
    (fun t => scale_sources (K := Qc_ops) vN (qq 1 4) [lb0] [fN t]) 6 None ex_store0 (zero_st Qc_ops) = Some (U2, R2, S2) /\
  R1 5%Z = R2 5%Z /\ nth 0 (R1 5%Z) (qz 0) <> qz 0 /\ vN la0 <> vN lb0.
Proof.
  destruct (exN_some vN 1 (fun t => scale_sources (K := Qc_ops) vN (qq 1 4) [la0] [fN t]) 6 None (zero_st Qc_ops))
    as (U1 & R1 & S1 & E1); [lia|cbn; lia|].
  destruct (scalar_forward_spec Qc_ops Qc_is_ring (exN lb0 la0) pwN (exN_geom _ _) (Forall_cons _ (exN_lb _ _) (Forall_nil _))
     (Forall_cons _ (exN_la _ _) (Forall_nil _)) vN visN false 1 (fun t => scale_sources (K := Qc_ops) vN (qq 1 4) [lb0] [fN t]) 6 None
     ex_store0 (zero_st Qc_ops) (Permutation_refl _) ltac:(lia) ltac:(cbn; lia)) as (U2 & R2 & S2 & E2 & _).
  exists U1, R1, S1, U2, R2, S2. split; [exact E1|]. split; [exact E2|]. split; [|split].
  - eapply (C27_reciprocity Qc_ops Qc_is_ring (exN la0 lb0) pwN (exN_geom _ _) (exN_no_pml _ _) la0 lb0 vN fN 6 1 visN visN
      false false None None ex_store0 ex_store0);
      [vm_compute; discriminate|apply exN_la|vm_compute; discriminate|apply exN_lb|apply Permutation_refl|apply Permutation_refl|lia|lia|cbn; lia|cbn; lia|exact E1|exact E2].
  - assert (X : match scalar_forward Qc_ops (exN la0 lb0) pwN vN visN false 1
       (fun t => scale_sources (K := Qc_ops) vN (qq 1 4) [la0] [fN t]) 6 None ex_store0 (zero_st Qc_ops) with
       Some (_, R, _) => nz (nth 0 (R 5%Z) (qz 0)) | None => false end = true) by (vm_compute; reflexivity).
    rewrite E1 in X. apply nz_spec. exact X.
  - vm_compute. discriminate.
Qed.

(** C28: sample [t] of the receivers depends only on the source samples before [t]. *)
Theorem C28_causality (K : ops) (Kr : is_ring K) (P : par K) (pw : nat -> Z * Z) :
  geom_ok K P pw -> Forall (loc_ok K P) (p_src P) -> Forall (loc_ok K P) (p_rec P) ->
  forall (v : arr K) f1 f2 u nt sr vis1 vis2 vrg1 vrg2 cb1 cb2 st1 st2 U1 R1 S1 U2 R2 S2 t0,
  fvis K P pw vis1 -> fvis K P pw vis2 -> (0 < sr)%Z -> cb_ok nt sr cb1 -> cb_ok nt sr cb2 ->
  scalar_forward K P pw v vis1 vrg1 sr f1 nt cb1 st1 u = Some (U1, R1, S1) ->
  scalar_forward K P pw v vis2 vrg2 sr f2 nt cb2 st2 u = Some (U2, R2, S2) ->
  (forall t, (0 <= t < t0)%Z -> f1 t = f2 t) ->
  forall t, (t <= t0)%Z -> R1 t = R2 t.
Proof. exact (causality K Kr P pw). Qed.
Print Assumptions C28_causality.

(** C28: two problems that may differ in everything (shape, PML, wavespeed, extent of the
    computational region) except on the cells [c] lying on a source - [c] - receiver path of at
    most [t - 1] stencil radii give the same sample [t] at that receiver.  [o] is the offset
    between the two grids; both start at rest. *)
Theorem C28_finite_speed (K : ops) (Kr : is_ring K) (P1 : par K) (pw1 : nat -> Z * Z) (P2 : par K) (pw2 : nat -> Z * Z) (o : pt) :
  geom_ok K P1 pw1 -> geom_ok K P2 pw2 ->
  Forall (loc_ok K P1) (p_src P1) -> Forall (loc_ok K P1) (p_rec P1) ->
  Forall (loc_ok K P2) (p_src P2) -> Forall (loc_ok K P2) (p_rec P2) ->
  length o = length (p_shape P1) -> length (p_shape P2) = length (p_shape P1) ->
  p_acc P2 = p_acc P1 -> (forall d, p_rd P2 d = p_rd P1 d) -> (forall d, p_rd2 P2 d = p_rd2 P1 d) ->
  p_dt2 P2 = p_dt2 P1 ->
  Forall2 (same_loc (p_shape P1) (p_shape P2) o) (p_src P1) (p_src P2) ->
  Forall2 (same_loc (p_shape P1) (p_shape P2) o) (p_rec P1) (p_rec P2) ->
  forall v1 v2 f nt sr vis1 vis2 vrg1 vrg2 cb1 cb2 st1 st2 U1 R1 S1 U2 R2 S2,
  fvis K P1 pw1 vis1 -> fvis K P2 pw2 vis2 -> (0 < sr)%Z -> cb_ok nt sr cb1 -> cb_ok nt sr cb2 ->
  scalar_forward K P1 pw1 v1 vis1 vrg1 sr f nt cb1 st1 (zero_st K) = Some (U1, R1, S1) ->
  scalar_forward K P2 pw2 v2 vis2 vrg2 sr f nt cb2 st2 (zero_st K) = Some (U2, R2, S2) ->
  forall t j,
  (forall c, on_path K P1 (t - 1) (unidx (p_shape P1) (nth j (p_rec P1) 0%Z)) c ->
     interior K P1 c = interior K P2 (translate o c) /\
     (interior K P1 c = true -> v1 (idx (p_shape P1) c) = v2 (idx (p_shape P2) (translate o c))) /\
     forall d, (d < length (p_shape P1))%nat ->
       p_a P1 d (coord d c) = p_a P2 d (coord d (translate o c)) /\
       p_b P1 d (coord d c) = p_b P2 d (coord d (translate o c)) /\
       p_db P1 d (coord d c) = p_db P2 d (coord d (translate o c))) ->
  nth j (R1 t) 0 = nth j (R2 t) 0.
Proof. exact (finite_speed K Kr P1 pw1 P2 pw2 o). Qed.
Print Assumptions C28_finite_speed.

(** Two models of different shapes and wavespeeds: the samples 0 to 4 agree, sample 6 not. *)
Definition FM (t : Z) : list Qc := [fN t].
Example C28_example : exists U1 R1 S1 U2 R2 S2,
  scalar_forward Qc_ops (exN la0 lb0) pwN vN visN false 1 FM 7 None ex_store0 (zero_st Qc_ops) = Some (U1, R1, S1) /\
  scalar_forward Qc_ops exM pwN vM visM false 1 FM 7 None ex_store0 (zero_st Qc_ops) = Some (U2, R2, S2) /\
  nth 0 (R1 4%Z) (qz 0) = nth 0 (R2 4%Z) (qz 0) /\ nth 0 (R1 4%Z) (qz 0) <> qz 0 /\
  nth 0 (R1 6%Z) (qz 0) <> nth 0 (R2 6%Z) (qz 0).
Proof.
  destruct (exN_some vN 1 FM 7 None (zero_st Qc_ops)) as (U1 & R1 & S1 & E1); [lia|cbn; lia|].
  destruct (exM_some 1 FM 7 None (zero_st Qc_ops)) as (U2 & R2 & S2 & E2); [lia|cbn; lia|].
  exists U1, R1, S1, U2, R2, S2. split; [exact E1|]. split; [exact E2|]. split; [|split].
  - eapply (C28_finite_speed Qc_ops Qc_is_ring (exN la0 lb0) pwN exM pwN [0%Z; 2%Z] (exN_geom _ _) exM_geom
      (Forall_cons _ (exN_la _ _) (Forall_nil _)) (Forall_cons _ (exN_lb _ _) (Forall_nil _)) exM_src exM_rec);
      try reflexivity; try exact E1; try exact E2; try apply Permutation_refl; try lia; try (cbn; lia).
    + constructor; [|constructor]. right. split; [vm_compute; discriminate|]. split; [vm_compute; discriminate|]. reflexivity.
    + constructor; [|constructor]. right. split; [vm_compute; discriminate|]. split; [vm_compute; discriminate|]. reflexivity.
    + change (nth 0 (p_rec (exN la0 lb0)) 0%Z) with lb0.
      change (unidx (p_shape (exN la0 lb0)) lb0) with [3%Z; 4%Z].
      intros c (Hl & l & [<-|[]] & _ & Hd). change (unidx (p_shape (exN la0 lb0)) la0) with [2%Z; 2%Z] in Hd.
      destruct c as [|y [|x [|]]]; try discriminate. change (4 - 1)%Z with 3%Z in Hd.
      change (fd_pad (p_acc (exN la0 lb0))) with 1%Z in Hd. cbn [dist] in Hd.
      assert (Hy : (y = 2 \/ y = 3)%Z) by lia. assert (Hx : (x = 2 \/ x = 3 \/ x = 4)%Z) by lia.
      destruct Hy as [-> | ->]; destruct Hx as [-> | [-> | ->]]; (split; [reflexivity|]); (split; [intros _; reflexivity|]);
        intros d Hd'; repeat split; reflexivity.
  - assert (X : match scalar_forward Qc_ops (exN la0 lb0) pwN vN visN false 1 FM 7 None ex_store0 (zero_st Qc_ops) with
       Some (_, R, _) => nz (nth 0 (R 4%Z) (qz 0)) | None => false end = true) by (vm_compute; reflexivity).
    rewrite E1 in X. apply nz_spec. exact X.
  - assert (X : match scalar_forward Qc_ops (exN la0 lb0) pwN vN visN false 1 FM 7 None ex_store0 (zero_st Qc_ops),
                      scalar_forward Qc_ops exM pwN vM visM false 1 FM 7 None ex_store0 (zero_st Qc_ops) with
       Some (_, R, _), Some (_, R', _) => nz (nth 0 (R 6%Z) (qz 0) - nth 0 (R' 6%Z) (qz 0))%Qc | _, _ => false end = true)
      by (vm_compute; reflexivity).
    rewrite E1, E2 in X. intros Y. rewrite Y in X. apply nz_spec in X. apply X. apply Qcplus_opp_r.
Qed.
