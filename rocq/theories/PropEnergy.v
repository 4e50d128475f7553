(** * Property C26: energy conservation and stability under the CFL choice. *)
From Coq Require Import List ZArith QArith Qcanon Reals Lra Lia Permutation.
From Verif Require Import Ops Sums Grid Stencil StencilOrder DualNum ScalarModel ScalarRefine ScalarForward
  ScalarBackward ScalarAdjoint ScalarFunc ScalarApi ScalarGrad ScalarEx ScalarMore ScalarPhys ScalarEx2
  RealModel RealThm Energy EnergyReal PropReal.
Import ListNotations.
Local Open Scope R_scope.

(** C26: without PML and with zero source amplitudes the propagator returns wavefields of the same
    energy as the ones it was given, in any ring; in every cell of the model [v^2 dt^2] has an
    inverse [m], or is zero and the wavefield is at rest there (otherwise it grows there without
    bound, see [C26_increments]); every shape, dimension, accuracy and number of steps. *)
Theorem C26_conserved (K : ops) (Kr : is_ring K) (P : par K) :
  no_pml P -> forall pw, geom_ok K P pw ->
  Forall (loc_ok K P) (p_src P) -> Forall (loc_ok K P) (p_rec P) ->
  forall (m : field K) (v : arr K) f u nt sr vis vrg cb st0 U R S,
  fvis K P pw vis -> (0 < sr)%Z -> cb_ok nt sr cb ->
  (forall t, Forall (fun x => x = o0 K) (f t)) ->
  (forall q, In q (upts K P) ->
     let V := (v (idx (p_shape P) (topad K P q)) * v (idx (p_shape P) (topad K P q)) * p_dt2 P)%K in
     (m q * V)%K = o1 K \/ (V = o0 K /\ s_wfc K u q = s_wfp K u q)) ->
  scalar_forward K P pw v vis vrg sr f nt cb st0 u = Some (U, R, S) ->
  energy K P m (s_wfc K U) (s_wfp K U) = energy K P m (s_wfc K u) (s_wfp K u).
Proof. exact (energy_conserved K Kr P). Qed.
Print Assumptions C26_conserved.

(** C26: under the time step chosen by [cfl_condition_n], the energy of any two wavefields is not
    negative and bounds their difference (in the mean square) and both of them (in every cell). *)
Theorem C26_positive (P : par R_ops) (gs : list R) (dt vmax inner : R) (ratio : Z) :
  cfl_condition_n gs dt vmax cfl_eps cfl_c_max = Some (inner, ratio) ->
  length gs = length (p_shape P) ->
  (forall d, (d < length (p_shape P))%nat -> p_rd2 P d = 1 / nth d gs 0 ^ 2) ->
  forall (m : field R_ops),
  (forall q, In q (upts R_ops P) -> 1 <= m q * (vmax ^ 2 * inner ^ 2)) ->
  forall c p : field R_ops,
  let E := energy R_ops P m c p in
  0 <= E /\
  sumf (K := R_ops) (upts R_ops P) (fun q => (c q - p q) ^ 2) <= 5 / 2 * (vmax ^ 2 * inner ^ 2) * E /\
  (forall d q, (d < length (p_shape P))%nat -> In q (upts R_ops P) ->
    let B := 2 * IZR (nth d (p_shape P) 0%Z - 2 * fd_pad (p_acc P)) * nth d gs 0 ^ 2 + 5 / 4 * (vmax ^ 2 * inner ^ 2) in
    c q ^ 2 <= B * E /\ p q ^ 2 <= B * E).
Proof. exact (energy_bounds P gs dt vmax inner ratio). Qed.
Print Assumptions C26_positive.

(** C26: the increments and the values of the wavefield returned by the propagator have a bound
    given by the initial wavefields, the same for every number of steps; cells of zero wavespeed
    start at rest. *)
Theorem C26_stable (P : par R_ops) :
  no_pml P -> forall pw, geom_ok R_ops P pw ->
  Forall (loc_ok R_ops P) (p_src P) -> Forall (loc_ok R_ops P) (p_rec P) ->
  forall gs dt vmax inner ratio,
  cfl_condition_n gs dt vmax cfl_eps cfl_c_max = Some (inner, ratio) ->
  length gs = length (p_shape P) ->
  (forall d, (d < length (p_shape P))%nat -> p_rd2 P d = 1 / nth d gs 0 ^ 2) ->
  p_dt2 P = inner ^ 2 ->
  forall v : arr R_ops, let vq := fun q => v (idx (p_shape P) (topad R_ops P q)) in
  (forall q, In q (upts R_ops P) -> Rabs (vq q) <= vmax) ->
  forall m : field R_ops,
  (forall q, In q (upts R_ops P) ->
     m q * (vq q * vq q * inner ^ 2) = 1 \/ (vq q = 0 /\ m q * (vmax ^ 2 * inner ^ 2) = 1)) ->
  forall f u nt sr vis vrg cb st0 U Rc S,
  (forall t, Forall (fun x => x = 0) (f t)) ->
  fvis R_ops P pw vis -> (0 < sr)%Z -> cb_ok nt sr cb ->
  scalar_forward R_ops P pw v vis vrg sr f nt cb st0 u = Some (U, Rc, S) ->
  (forall q, In q (upts R_ops P) -> vq q = 0 -> s_wfc R_ops u q = s_wfp R_ops u q) ->
  let E := energy R_ops P m (s_wfc R_ops u) (s_wfp R_ops u) in
  0 <= E /\
  sumf (K := R_ops) (upts R_ops P) (fun q => (s_wfc R_ops U q - s_wfp R_ops U q) ^ 2) <= 5 / 2 * (vmax ^ 2 * inner ^ 2) * E /\
  (forall d q, (d < length (p_shape P))%nat -> In q (upts R_ops P) ->
    s_wfc R_ops U q ^ 2
    <= (2 * IZR (nth d (p_shape P) 0%Z - 2 * fd_pad (p_acc P)) * nth d gs 0 ^ 2 + 5 / 4 * (vmax ^ 2 * inner ^ 2)) * E).
Proof. exact (stability P). Qed.
Print Assumptions C26_stable.

(** C26: for every model bounded by the CFL velocity, cells of zero wavespeed included, and every
    initial state, the increments of the returned wavefield have a bound given by the initial
    wavefields (the energy of their first two increments), the same for every number of steps. *)
Theorem C26_increments (P : par R_ops) :
  no_pml P -> forall pw, geom_ok R_ops P pw ->
  Forall (loc_ok R_ops P) (p_src P) -> Forall (loc_ok R_ops P) (p_rec P) ->
  forall gs dt vmax inner ratio,
  cfl_condition_n gs dt vmax cfl_eps cfl_c_max = Some (inner, ratio) ->
  length gs = length (p_shape P) ->
  (forall d, (d < length (p_shape P))%nat -> p_rd2 P d = 1 / nth d gs 0 ^ 2) ->
  p_dt2 P = inner ^ 2 ->
  forall v : arr R_ops, let vq := fun q => v (idx (p_shape P) (topad R_ops P q)) in
  (forall q, In q (upts R_ops P) -> Rabs (vq q) <= vmax) ->
  forall m : field R_ops,
  (forall q, In q (upts R_ops P) ->
     m q * (vq q * vq q * inner ^ 2) = 1 \/ (vq q = 0 /\ m q * (vmax ^ 2 * inner ^ 2) = 1)) ->
  forall f u nt sr vis vrg cb st0 U Rc S,
  (forall t, Forall (fun x => x = 0) (f t)) ->
  fvis R_ops P pw vis -> (0 < sr)%Z -> cb_ok nt sr cb ->
  scalar_forward R_ops P pw v vis vrg sr f nt cb st0 u = Some (U, Rc, S) ->
  forall d q, (d < length (p_shape P))%nat -> In q (upts R_ops P) ->
  (s_wfc R_ops U q - s_wfp R_ops U q) ^ 2
  <= (2 * IZR (nth d (p_shape P) 0%Z - 2 * fd_pad (p_acc P)) * nth d gs 0 ^ 2 + 5 / 4 * (vmax ^ 2 * inner ^ 2))
     * energy R_ops P m
         (fun x => vq x * vq x * inner ^ 2 * lap R_ops P (padded R_ops P (s_wfc R_ops u)) (topad R_ops P x)
                   + (s_wfc R_ops u x - s_wfp R_ops u x))
         (fun x => s_wfc R_ops u x - s_wfp R_ops u x).
Proof. exact (increments_bounded P). Qed.
Print Assumptions C26_increments.

(** Conservation on a 5 x 6 model over the rationals, with wavefields that change. *)
Definition mN : field Qc_ops := fun q => let x := vN (idx nN (topad Qc_ops (exN la0 lb0) q)) in (/ (x * x * qq 1 4))%Qc.
Example energy_example : exists U R S,
  scalar_forward Qc_ops (exN la0 lb0) pwN vN visN false 1 (fun _ => [qz 0]) 4 None ex_store0 UN = Some (U, R, S) /\
  energy Qc_ops (exN la0 lb0) mN (s_wfc Qc_ops U) (s_wfp Qc_ops U)
  = energy Qc_ops (exN la0 lb0) mN (s_wfc Qc_ops UN) (s_wfp Qc_ops UN) /\
  energy Qc_ops (exN la0 lb0) mN (s_wfc Qc_ops UN) (s_wfp Qc_ops UN) <> qz 0 /\
  s_wfc Qc_ops U [1%Z; 3%Z] <> s_wfc Qc_ops UN [1%Z; 3%Z].
Proof.
  destruct (exN_some vN 1 (fun _ => [qz 0]) 4 None UN) as (U & R & S & E); [lia|cbn; lia|].
  exists U, R, S. split; [exact E|]. split; [|split].
  - eapply (C26_conserved Qc_ops Qc_is_ring (exN la0 lb0) (exN_no_pml _ _) pwN (exN_geom _ _)
      (Forall_cons _ (exN_la _ _) (Forall_nil _)) (Forall_cons _ (exN_lb _ _) (Forall_nil _)) mN vN _ UN 4 1 visN
      false None ex_store0); [apply Permutation_refl|lia|cbn; lia| | |exact E].
    + intros; constructor; try reflexivity; constructor.
    + intros q _. left. unfold mN. set (x := vN _). change (/ (x * x * qq 1 4) * (x * x * qq 1 4) = 1)%Qc.
      apply Qcmult_inv_l. unfold x, vN. intros H. apply (f_equal this) in H. revert H.
      generalize (idx nN (topad Qc_ops (exN la0 lb0) q)). intros z.
      assert (Hz : (z mod 3 = 0 \/ z mod 3 = 1 \/ z mod 3 = 2)%Z) by (pose proof (Z.mod_pos_bound z 3); lia).
      destruct Hz as [-> | [-> | ->]]; vm_compute; discriminate.
  - apply nz_spec. vm_compute. reflexivity.
  - assert (X : match scalar_forward Qc_ops (exN la0 lb0) pwN vN visN false 1 (fun _ => [qz 0]) 4 None ex_store0 UN with
     Some (U1, _, _) => nz (s_wfc Qc_ops U1 [1%Z; 3%Z] - s_wfc Qc_ops UN [1%Z; 3%Z])%Qc | None => false end = true) by (vm_compute; reflexivity).
    rewrite E in X. intros Y. rewrite Y in X. apply nz_spec in X. apply X. apply Qcplus_opp_r.
Qed.

(** A line of four cells, accuracy 4, spacing 5, time step 0.004 divided by three; wavespeeds 1500
    and 2000; a unit value in the second cell at rest.  The wavefield stays below 4.6 in absolute value for ever. *)
Definition exE : par R_ops :=
  @mkpar R_ops A4 [8%Z] (fun _ => 1 / 5) (fun _ => 1 / 5 ^ 2) (fun _ _ => 0) (fun _ _ => 0) (fun _ _ => 0)
    ((4 / 1000 / 3) ^ 2) [] [].
Definition vE : arr R_ops := fun i => if Z.even i then 1500 else 2000.
Definition uE : field R_ops := fun q => match q with [1%Z] => 1 | _ => 0 end.
Definition UE : st R_ops := mkst R_ops uE uE (fun _ _ => 0) (fun _ _ => 0).
Definition pwE (d : nat) : Z * Z := (0, 0)%Z.
Definition visE := visits R_ops exE (pml_begin R_ops exE 2 pwE) (pml_end R_ops exE 2 pwE).

Lemma exE_no_pml : no_pml exE.
Proof. intros d y. repeat split. Qed.
Lemma exE_geom : geom_ok R_ops exE pwE.
Proof.
  intros [|d] Hd; [|cbn in Hd; lia]; cbn; (split; [lia|]); (split; [lia|]); (split; [reflexivity|]);
    (split; [intros; split; reflexivity|]). intros. lra.
Qed.

Definition mE : field R_ops := fun q => / (vE (idx [8%Z] (topad R_ops exE q)) * vE (idx [8%Z] (topad R_ops exE q)) * (4 / 1000 / 3) ^ 2).

Lemma exE_rd2 d : (d < length (p_shape exE))%nat -> p_rd2 exE d = 1 / nth d [5] 0 ^ 2.
Proof. destruct d as [|d]; [reflexivity|cbn; lia]. Qed.
Lemma vE_bound i : Rabs (vE i) <= 2000.
Proof. unfold vE. destruct (Z.even _); rewrite Rabs_right; lra. Qed.

Lemma mE_ok q : mE q * (vE (idx [8%Z] (topad R_ops exE q)) * vE (idx [8%Z] (topad R_ops exE q)) * (4 / 1000 / 3) ^ 2) = 1.
Proof. unfold mE. apply Rinv_l. unfold vE. destruct (Z.even _); lra. Qed.

Example stability_example nt : (0 < nt)%Z -> exists U R S,
  scalar_forward R_ops exE pwE vE visE false 1 (fun _ => []) nt None (fun _ _ => 0) UE = Some (U, R, S) /\
  forall q, In q (upts R_ops exE) -> s_wfc R_ops U q ^ 2 <= 21.
Proof.
  intros Hn.
  destruct (scalar_forward_spec R_ops R_is_ring exE pwE exE_geom (Forall_nil _) (Forall_nil _) vE visE false 1 (fun _ => []) nt None
     (fun _ _ => 0) UE (Permutation_refl _) ltac:(lia) ltac:(cbn; lia)) as (U & R & S & E & _).
  exists U, R, S. split; [exact E|]. intros q Hq.
  destruct (C26_stable exE exE_no_pml pwE exE_geom (Forall_nil _) (Forall_nil _) [5] (4 / 1000) 2000 (4 / 1000 / 3) 3
    C25_example eq_refl exE_rd2 eq_refl vE (fun q _ => vE_bound _) mE
    (fun q _ => or_introl (mE_ok q))
    (fun _ => []) UE nt 1 visE false None (fun _ _ => 0) U R S (fun _ => Forall_nil _) (Permutation_refl _) ltac:(lia) ltac:(cbn; lia) E
    (fun q _ _ => eq_refl)) as (_ & _ & X).
  specialize (X 0%nat q ltac:(cbn; lia) Hq). cbn [nth p_shape exE p_acc fd_pad] in X.
  set (e := energy _ _ _ _ _) in X.
  assert (Ee : e = 1 / 10).
  { unfold e, energy. replace (upts R_ops exE) with [[0]; [1]; [2]; [3]]%Z by reflexivity.
    cbn [sumf]. unfold padded, lap, dims. cbn [p_shape exE length seq sumf]. unfold d2, D2, DIFF2.
    cbn -[IZR Q2R mE]. unfold Q2R. cbn -[mE].
    cbv [Z.add Z.opp Z.sub Z.leb Z.ltb Z.compare Pos.add Pos.compare Pos.compare_cont Z.pos_sub Pos.pred_double Z.succ_double Z.pred_double Z.double andb Pos.succ CompOpp]. lra. }
  rewrite Ee in X. eapply Rle_trans; [exact X|]. change (8 - 2 * 2)%Z with 4%Z. lra.
Qed.

(** The same line with zero wavespeed in the second cell, which moves by one in every step; the
    increments stay bounded. *)
Definition vZ : arr R_ops := fun i => if (i =? 3)%Z then 0 else 2000.
Definition UZ : st R_ops := mkst R_ops uE (fun _ => 0) (fun _ _ => 0) (fun _ _ => 0).
Definition mZ : field R_ops := fun _ => 9 / 64.

Example increments_example nt : (0 < nt)%Z -> exists U R S,
  scalar_forward R_ops exE pwE vZ visE false 1 (fun _ => []) nt None (fun _ _ => 0) UZ = Some (U, R, S) /\
  forall q, In q (upts R_ops exE) -> (s_wfc R_ops U q - s_wfp R_ops U q) ^ 2 <= 21.
Proof.
  intros Hn.
  destruct (scalar_forward_spec R_ops R_is_ring exE pwE exE_geom (Forall_nil _) (Forall_nil _) vZ visE false 1 (fun _ => []) nt None
     (fun _ _ => 0) UZ (Permutation_refl _) ltac:(lia) ltac:(cbn; lia)) as (U & R & S & E & _).
  exists U, R, S. split; [exact E|]. intros q Hq.
  assert (Hb : forall i, Rabs (vZ i) <= 2000) by (intros i; unfold vZ; destruct (i =? 3)%Z; [rewrite Rabs_R0|rewrite Rabs_right]; lra).
  assert (HmZ : forall i, mZ [0%Z] * (vZ i * vZ i * (4 / 1000 / 3) ^ 2) = 1 \/
     vZ i = 0 /\ mZ [0%Z] * (2000 ^ 2 * (4 / 1000 / 3) ^ 2) = 1).
  { intros i. unfold vZ, mZ. destruct (i =? 3)%Z; [right; split; [reflexivity|]; lra|left; lra]. }
  pose proof (C26_increments exE exE_no_pml pwE exE_geom (Forall_nil _) (Forall_nil _) [5] (4 / 1000) 2000 (4 / 1000 / 3) 3
    C25_example eq_refl exE_rd2 eq_refl vZ (fun q _ => Hb _) mZ (fun q _ => HmZ _)
    (fun _ => []) UZ nt 1 visE false None (fun _ _ => 0) U R S (fun _ => Forall_nil _) (Permutation_refl _) ltac:(lia) ltac:(cbn; lia) E
    0%nat q ltac:(cbn; lia) Hq) as X.
  cbn [nth p_shape exE p_acc fd_pad] in X.
  set (e := energy _ _ _ _ _) in X.
  assert (Ee : e <= 1 / 10).
  { unfold e, energy. replace (upts R_ops exE) with [[0]; [1]; [2]; [3]]%Z by reflexivity.
    cbn [sumf]. unfold padded, lap, dims. cbn [p_shape exE length seq sumf]. unfold d2, D2, DIFF2.
    cbn -[IZR Q2R mZ]. unfold Q2R. cbn -[mZ]. unfold vZ.
    cbv [Z.mul Pos.mul Z.eqb Pos.eqb Z.add Z.opp Z.sub Z.leb Z.ltb Z.compare Pos.add Pos.compare Pos.compare_cont Z.pos_sub Pos.pred_double Z.succ_double Z.pred_double Z.double andb Pos.succ CompOpp]. unfold mZ. lra. }
  eapply Rle_trans; [exact X|]. change (8 - 2 * 2)%Z with 4%Z. lra.
Qed.
