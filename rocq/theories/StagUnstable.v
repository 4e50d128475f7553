(** * A run of the acoustic propagator at accuracy 4 that grows without bound under the CFL time step: steel and air. *)
From Coq Require Import List ZArith QArith Qreals Reals Lra Lia Bool Permutation.
From Verif Require Import Ops Sums Grid Stencil StencilOrder ScalarModel ScalarRefine RealModel RealThm EnergyReal Stag StagAdj StagKernel StagCell
  StagRefine StagGrad AcousticModel AcousticThm ElasticModel StagEqs StagEnergy StagSetup StagStable.
Import ListNotations.
Local Open Scope R_scope.

Local Arguments deriv : simpl never.
Local Arguments SDH1 : simpl never.
Local Arguments SD1 : simpl never.

(** Four pressure cells (2 to 5): steel, air, air, steel; one dimension, 10 m spacing. *)
Definition in_air (i : Z) : bool := ((i =? 3) || (i =? 4))%Z%bool.
Definition sa_v : arr R_ops := fun i => if in_air i then 340 else 5900.
Definition sa_rho : arr R_ops := fun i => if in_air i then 6 / 5 else 7800.
Definition sa_shape : list Z := [7]%Z.
Definition sa_pw : nat -> Z * Z := fun _ => (0, 0)%Z.
Definition sa_none : aX -> list Z := fun _ => [].
Definition sa_P : spar (ac_sys 1) R_ops := stag_par (ac_sys 1) A4 sa_shape sa_pw (1 / 1000) [10] 5900 25 sa_none sa_none.
(** Start: unit pressure in the first cell and its opposite in the last. *)
Definition sa_u : sst (ac_sys 1) R_ops :=
  @mksst (ac_sys 1) R_ops (fun c q => match c with XP => if (coord 0 q =? 2)%Z then 1 else if (coord 0 q =? 5)%Z then -1 else 0 | _ => 0 end) (fun _ _ => 0).

Lemma pt1 (q : pt) : length q = 1%nat -> q = [coord 0 q].
Proof. destruct q as [|y [|]]; try discriminate. reflexivity. Qed.

Lemma sa_half f y : deriv sa_P true 0 f [y] = (9 / 8 * (f [y + 1]%Z - f [y]) - 1 / 24 * (f [y + 2]%Z - f [y - 1]%Z)) / 10.
Proof.
  unfold deriv, SDH1, SDIFFH1. cbn -[Z.add Z.sub Rdiv Q2R].
  replace (y + (1 - 1))%Z with (y - 0)%Z by lia. replace (y - 0)%Z with y by lia.
  replace (y + (1 - (1 + 1)))%Z with (y - 1)%Z by lia. replace (y + (1 + 1))%Z with (y + 2)%Z by lia.
  unfold Q2R. cbn. field.
Qed.
Lemma sa_int f y : deriv sa_P false 0 f [y] = (9 / 8 * (f [y] - f [y - 1]%Z) - 1 / 24 * (f [y + 1]%Z - f [y - 2]%Z)) / 10.
Proof.
  unfold deriv, SD1, SDIFF1. cbn -[Z.add Z.sub Rdiv Q2R].
  replace (y + (1 - 1))%Z with y by lia. replace (y + (1 + 1 - 1))%Z with (y + 1)%Z by lia.
  replace (y + - (1))%Z with (y - 1)%Z by lia. replace (y + - (1 + 1))%Z with (y - 2)%Z by lia.
  unfold Q2R. cbn. field.
Qed.

Lemma sa_dom h y : dom (ac_sys 1) R_ops sa_P h [y] = (if h 0%nat then (2 <=? y) && (y <? 5) else (2 <=? y) && (y <? 6))%Z%bool.
Proof.
  apply eq_true_iff_eq. rewrite dom_spec. cbn [sa_P stag_par sp_shape sp_acc sa_shape length fd_pad].
  split.
  - intros [_ H]. specialize (H 0%nat ltac:(lia)). unfold coord in H. cbn in H. destruct (h 0%nat); apply andb_true_iff; rewrite Z.leb_le, Z.ltb_lt; lia.
  - intros H. split; [reflexivity|]. intros d Hd. replace d with 0%nat by lia. unfold coord. cbn.
    destruct (h 0%nat); apply andb_true_iff in H; rewrite Z.leb_le, Z.ltb_lt in H; lia.
Qed.

Lemma upd_eq (p d k x : R) : p + - d * k * x = p - d * k * x. Proof. ring. Qed.

Ltac rq := change (@eq (car R_ops)) with (@eq R); first [ring|field].

Section Grow.
Variable rfmax : R.
Hypothesis Hrf : rfmax < 1.
Notation kb := (prepare_models rfmax sa_shape sa_v sa_rho).

Lemma sa_geom : sgeom (ac_sys 1) R_ops sa_P sa_pw.
Proof.
  apply stag_par_geom; [reflexivity|repeat constructor; lra| |lra|lra|lra].
  intros d Hd. cbn in Hd. replace d with 0%nat by lia. cbn. lia.
Qed.
Lemma sa_layers : no_layers 1 sa_pw. Proof. intros d _. reflexivity. Qed.

Lemma sa_MK y : (2 <= y < 6)%Z -> kb MK (idx sa_shape [y]) = if in_air y then 6 / 5 * 340 ^ 2 else 7800 * 5900 ^ 2.
Proof.
  intros Hy. unfold prepare_models, sa_rho, sa_v. replace (idx sa_shape [y]) with y by (cbn; lia). destruct (in_air y); reflexivity.
Qed.
Lemma sa_MB y : (2 <= y < 5)%Z -> kb (MB 0) (idx sa_shape [y]) = if (y =? 3)%Z then 5 / 6 else 10 / 39006.
Proof.
  intros Hy. unfold prepare_models. rewrite unidx_idx by (apply inb_abox; split; [reflexivity|intros d Hd; cbn in Hd; replace d with 0%nat by lia; cbn; lia]).
  unfold mean_next. cbn [coord nth sa_shape]. destruct (Z.ltb_spec (y + 1) 7); [|lia].
  unfold at_pt. replace (idx sa_shape [y]) with y by (cbn; lia). replace (idx sa_shape (shift 0 1 [y])) with (y + 1)%Z by (cbn; lia).
  assert (C : (y = 2 \/ y = 3 \/ y = 4)%Z) by lia. unfold sa_rho, in_air, safe_inv, above_rfmax.
  change (@eq (car R_ops)) with (@eq R).
  destruct C as [->|[->| ->]]; change (2 + 1)%Z with 3%Z; change (3 + 1)%Z with 4%Z; change (4 + 1)%Z with 5%Z; cbn [Z.eqb Pos.eqb orb];
    (destruct (Rlt_dec _ _) as [_|X]; [field|exfalso; apply X; rewrite Rabs_right; lra]).
Qed.

(** The mode: opposite pressures, equal outer velocities, inside a cone. *)
Definition mode (sg : R) (n : nat) (W : sst (ac_sys 1) R_ops) : Prop :=
  exists a b x y : R, 6 ^ n <= a /\ (- (a / 1000) <= b <= a / 1000) /\ (- (a / 100000000) <= x <= a / 100000000) /\ (- (a / 1000000) <= y <= a / 1000000) /\
    mn W XP [2%Z] = sg * a /\ mn W XP [3%Z] = sg * b /\ mn W XP [4%Z] = sg * (- b) /\ mn W XP [5%Z] = sg * (- a) /\
    mn W (XV 0) [2%Z] = sg * x /\ mn W (XV 0) [3%Z] = sg * y /\ mn W (XV 0) [4%Z] = sg * x.

Lemma mode_step sg n W W' : ssup (ac_sys 1) R_ops sa_P W -> ssup (ac_sys 1) R_ops sa_P W' ->
  acoustic_eqs 1 R_ops sa_P (1 / 1000) kb (fun _ _ => 0) W W' -> mode sg n W -> mode (- sg) (Datatypes.S n) W'.
Proof.
  intros Hs Hs' He (a & b & x & y & Ha & Hb & Hx & Hy & E2 & E3 & E4 & E5 & V2 & V3 & V4).
  pose proof (ac_step_v 1 R_ops R_is_ring sa_P sa_pw eq_refl sa_geom sa_layers (1 / 1000) kb W W' He 0%nat) as SV.
  pose proof (ac_step_p 1 R_ops R_is_ring sa_P sa_pw eq_refl sa_geom sa_layers (1 / 1000) kb W W' He) as SP.
  pose proof (ac_sup_p 1 R_ops sa_P W Hs) as ZP. pose proof (ac_sup_v 1 R_ops sa_P W' Hs' 0%nat ltac:(lia)) as ZV.
  change (o0 R_ops) with 0 in *.
  assert (P1 : mn W XP [1%Z] = 0) by (apply ZP; rewrite sa_dom; reflexivity).
  assert (P6 : mn W XP [6%Z] = 0) by (apply ZP; rewrite sa_dom; reflexivity).
  assert (U0 : mn W' (XV 0) [0%Z] = 0) by (apply ZV; rewrite sa_dom; reflexivity).
  assert (U1 : mn W' (XV 0) [1%Z] = 0) by (apply ZV; rewrite sa_dom; reflexivity).
  assert (U5 : mn W' (XV 0) [5%Z] = 0) by (apply ZV; rewrite sa_dom; reflexivity).
  assert (U6 : mn W' (XV 0) [6%Z] = 0) by (apply ZV; rewrite sa_dom; reflexivity).
  assert (SV' : forall z, (2 <= z < 5)%Z -> mn W' (XV 0) [z] = mn W (XV 0) [z] - 1 / 1000 * (if (z =? 3)%Z then 5 / 6 else 10 / 39006) *
      ((9 / 8 * (mn W XP [z + 1]%Z - mn W XP [z]) - 1 / 24 * (mn W XP [z + 2]%Z - mn W XP [z - 1]%Z)) / 10)).
  { intros z Hz. rewrite (SV [z]); [|lia|rewrite sa_dom; apply andb_true_iff; rewrite Z.leb_le, Z.ltb_lt; lia].
    change (sp_shape sa_P) with sa_shape. cbv beta. rewrite sa_MB, sa_half by lia.
    change (oadd R_ops) with Rplus. change (omul R_ops) with Rmult. change (oopp R_ops) with Ropp.
    apply upd_eq. }
  assert (SP' : forall z, (2 <= z < 6)%Z -> mn W' XP [z] = mn W XP [z] - 1 / 1000 * (if in_air z then 6 / 5 * 340 ^ 2 else 7800 * 5900 ^ 2) *
      ((9 / 8 * (mn W' (XV 0) [z] - mn W' (XV 0) [z - 1]%Z) - 1 / 24 * (mn W' (XV 0) [z + 1]%Z - mn W' (XV 0) [z - 2]%Z)) / 10)).
  { intros z Hz. rewrite (SP [z]); [|rewrite sa_dom; apply andb_true_iff; rewrite Z.leb_le, Z.ltb_lt; lia].
    change (sp_shape sa_P) with sa_shape. cbv beta. rewrite sa_MK by lia. cbn [seq sumf]. rewrite sa_int.
    change (oadd R_ops) with Rplus. change (omul R_ops) with Rmult. change (oopp R_ops) with Ropp. change (o0 R_ops) with 0.
    rewrite Rplus_0_r. apply upd_eq. }
  pose proof (SV' 2%Z ltac:(lia)) as N2. pose proof (SV' 3%Z ltac:(lia)) as N3. pose proof (SV' 4%Z ltac:(lia)) as N4.
  pose proof (SP' 2%Z ltac:(lia)) as Q2. pose proof (SP' 3%Z ltac:(lia)) as Q3. pose proof (SP' 4%Z ltac:(lia)) as Q4. pose proof (SP' 5%Z ltac:(lia)) as Q5.
  clear SV SP SV' SP' ZP ZV. unfold in_air in *.
  cbn [Z.eqb Pos.eqb orb] in *. change (car R_ops) with R in *. 
  repeat match goal with H : context [(?u - ?w)%Z] |- _ => let z := eval compute in (u - w)%Z in progress change (u - w)%Z with z in H end.
  repeat match goal with H : context [(?u + ?w)%Z] |- _ => let z := eval compute in (u + w)%Z in progress change (u + w)%Z with z in H end.
  rewrite V2, E3, E2, E4, P1 in N2. rewrite V3, E4, E3, E5, E2 in N3. rewrite V4, E5, E4, P6, E3 in N4.
  set (x1 := x - 1 / 1000 * (10 / 39006) * ((9 / 8 * (b - a) - 1 / 24 * - b) / 10)).
  set (y1 := y - 1 / 1000 * (5 / 6) * ((9 / 8 * (- b - b) - 1 / 24 * (- a - a)) / 10)).
  assert (N2' : mn W' (XV 0) [2%Z] = sg * x1) by (rewrite N2; unfold x1; rq).
  assert (N3' : mn W' (XV 0) [3%Z] = sg * y1) by (rewrite N3; unfold y1; rq).
  assert (N4' : mn W' (XV 0) [4%Z] = sg * x1) by (rewrite N4; unfold x1; rq).
  rewrite E2, N2', U1, N3', U0 in Q2. rewrite E3, N3', N2', N4', U1 in Q3. rewrite E4, N4', N3', U5, N2' in Q4. rewrite E5, U5, N4', U6, N3' in Q5.
  set (a1 := a - 1 / 1000 * (7800 * 5900 ^ 2) * ((9 / 8 * x1 - 1 / 24 * y1) / 10)).
  set (b1 := b - 1 / 1000 * (6 / 5 * 340 ^ 2) * ((9 / 8 * (y1 - x1) - 1 / 24 * x1) / 10)).
  assert (Ha0 : 0 <= a) by (eapply Rle_trans; [apply (pow_le 6 n); lra|exact Ha]).
  exists (- a1), (- b1), (- x1), (- y1). cbn [pow]. 
  split; [|split; [|split; [|split]]].
  - apply Rle_trans with (6 * a); [lra|]. unfold a1, x1, y1. lra.
  - unfold a1, b1, x1, y1. lra.
  - unfold a1, x1, y1. lra.
  - unfold a1, x1, y1. lra.
  - repeat split.
    + rewrite Q2. unfold a1. rq.
    + rewrite Q3. unfold b1. rq.
    + rewrite Q4. unfold b1. rq.
    + rewrite Q5. unfold a1. rq.
    + rewrite N2'. rq.
    + rewrite N3'. rq.
    + rewrite N4'. rq.
Qed.

Lemma sa_locs : locs_ok (ac_sys 1) R_ops sa_P sa_none. Proof. intros c _. constructor. Qed.

Lemma sa_grows f visA visB kg bg cb store (n : nat) :
  ac_fvis 1 R_ops sa_P sa_pw true visA -> ac_fvis 1 R_ops sa_P sa_pw false visB -> nt_ok (Z.of_nat n) 1 cb ->
  exists U Rc st, acoustic_forward 1 R_ops sa_P sa_pw (1 / 1000) kb visA visB kg bg 1 f (Z.of_nat n) cb store sa_u = Some (U, Rc, st) /\
    6 ^ n <= Rabs (mn U XP [2%Z]).
Proof.
  intros VA VB Hnt.
  destruct (acoustic_solves 1 R_ops R_is_ring sa_P sa_pw eq_refl sa_locs sa_locs sa_geom (1 / 1000) kb f sa_u (Z.of_nat n) 1 visA visB kg bg cb store VA VB Hnt)
    as (U & Rc & st & _ & E & _).
  exists U, Rc, st. split; [exact E|].
  destruct (acoustic_trace 1 R_ops R_is_ring sa_P sa_pw eq_refl sa_locs sa_locs sa_geom (1 / 1000) kb f sa_u (Z.of_nat n) 1 visA visB kg bg cb store U Rc st VA VB Hnt E)
    as (W & A & W0 & Hsup & He).
  assert (X : forall m : nat, mode ((-1) ^ m) m (W (Z.of_nat m))).
  { induction m as [|m IH].
    - change (Z.of_nat 0) with 0%Z. rewrite W0. exists 1, 0, 0, 0. cbn [pow]. split; [lra|]. split; [lra|]. split; [lra|]. split; [lra|].
      cbn [mn sinit]. rewrite !sa_dom. cbn [xh ac_sys ac_xh sa_u mn coord nth Z.eqb Pos.eqb]. cbn.
      repeat split; rq.
    - replace (Z.of_nat (Datatypes.S m)) with (Z.of_nat m + 1)%Z by lia.
      replace ((-1) ^ Datatypes.S m) with (- (-1) ^ m) by (cbn; ring).
      apply (mode_step _ _ (W (Z.of_nat m))); [apply Hsup; lia|apply Hsup; lia| |exact IH].
      eapply acoustic_eqs_src; [|apply He; lia]. intros c p. reflexivity. }
  destruct (X n) as (a & b & x & y & Ha & _ & _ & _ & E2 & _).
  replace (nsteps (Z.of_nat n) 1) with (Z.of_nat n) in A by (unfold nsteps; rewrite Z.div_1_r; lia).
  destruct A as [A _]. rewrite (A XP [2%Z] ltac:(apply In_ac_allX; exact I)), E2. rewrite Rabs_mult, <- RPow_abs.
  replace (Rabs (-1)) with 1 by (rewrite Rabs_left; lra). rewrite pow1, Rmult_1_l.
  eapply Rle_trans; [exact Ha|]. apply Rle_abs.
Qed.
End Grow.
