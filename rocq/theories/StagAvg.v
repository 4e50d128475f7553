(** * The prepared acoustic models and elastic parameters are means of neighbouring cells. *)
From Coq Require Import List ZArith QArith Reals Lra Lia Bool.
From Verif Require Import Ops Sums Grid Stencil StencilOrder ScalarModel ScalarRefine Stag StagKernel AcousticModel ElasticModel RealModel StagSetup.
Import ListNotations.
Local Open Scope R_scope.

Lemma above_true rfmax x : rfmax < Rabs x -> above_rfmax rfmax x = true.
Proof. intros H. unfold above_rfmax. destruct (Rlt_dec rfmax (Rabs x)); [reflexivity|contradiction]. Qed.
Lemma above_false rfmax x : Rabs x <= rfmax -> above_rfmax rfmax x = false.
Proof. intros H. unfold above_rfmax. destruct (Rlt_dec rfmax (Rabs x)); [lra|reflexivity]. Qed.
Lemma safe_inv_pos rfmax x : rfmax < x -> 0 < x -> safe_inv rfmax x = / x.
Proof. intros H H0. unfold safe_inv. rewrite above_true by (rewrite Rabs_right; lra). unfold Rdiv. ring. Qed.
Lemma safe_inv_zero rfmax : 0 <= rfmax -> safe_inv rfmax 0 = 0.
Proof. intros H. unfold safe_inv. rewrite above_false by (rewrite Rabs_R0; exact H). reflexivity. Qed.

Section Avg.
Variable rfmax : R.
Hypothesis Hrf : 0 <= rfmax.
Variable shape : list Z.
Notation inarr q := (inb (abox shape) q = true).

Lemma next_in d q : (d < length shape)%nat -> inarr q -> inarr (shift d 1 q) -> (coord d q + 1 < nth d shape 0)%Z.
Proof.
  intros Hd H1 H2. apply inb_abox in H1, H2. destruct H1 as [L1 _], H2 as [_ H2]. specialize (H2 d Hd).
  rewrite coord_shift_same in H2 by lia. lia.
Qed.

Lemma acoustic_buoyancy (v rho : arr R_ops) d q : (d < length shape)%nat -> inarr q -> inarr (shift d 1 q) ->
  rfmax < rho (idx shape q) -> rfmax < rho (idx shape (shift d 1 q)) ->
  prepare_models rfmax shape v rho (MB d) (idx shape q) * ((rho (idx shape q) + rho (idx shape (shift d 1 q))) / 2) = 1.
Proof.
  intros Hd H1 H2 R1 R2. unfold prepare_models. rewrite unidx_idx by exact H1. unfold mean_next.
  pose proof (next_in d q Hd H1 H2). destruct (Z.ltb_spec (coord d q + 1) (nth d shape 0%Z)); [|lia]. unfold at_pt.
  rewrite safe_inv_pos by (change (car R_ops) with R in *; lra). change (car R_ops) with R in *. field. lra.
Qed.

(** Shear modulus between the four cells. *)
Definition mcell (mu : arr R_ops) (i j : nat) (q : pt) (a b : bool) : R :=
  mu (idx shape (shift j (if b then 1 else 0) (shift i (if a then 1 else 0) q))).
Lemma four_in i j q : i <> j -> (i < length shape)%nat -> (j < length shape)%nat -> inarr q -> inarr (shift j 1 (shift i 1 q)) ->
  (coord i q + 1 < nth i shape 0)%Z /\ (coord j q + 1 < nth j shape 0)%Z.
Proof.
  intros Hij Hi Hj H1 H2. apply inb_abox in H1, H2. destruct H1 as [L1 _], H2 as [_ H2]. pose proof (H2 i Hi) as X. pose proof (H2 j Hj) as Y.
  rewrite coord_shift_other, coord_shift_same in X by (lia || congruence).
  rewrite coord_shift_same, coord_shift_other in Y by (rewrite ?shift_length; lia || congruence). lia.
Qed.
Lemma mu_value (mu : arr R_ops) i j q (lo hi : R) : i <> j -> (i < length shape)%nat -> (j < length shape)%nat -> inarr q -> inarr (shift j 1 (shift i 1 q)) ->
  rfmax < lo -> (forall a b, lo <= mcell mu i j q a b <= hi) ->
  lo <= mu_mean rfmax shape mu i j q <= hi /\
  mu_mean rfmax shape mu i j q * (/ mcell mu i j q false false + / mcell mu i j q false true + / mcell mu i j q true false + / mcell mu i j q true true) = 4.
Proof.
  intros Hij Hi Hj H1 H2 Hlo Hb. destruct (four_in i j q Hij Hi Hj H1 H2) as [C1 C2]. unfold mu_mean.
  destruct (Z.ltb_spec (coord i q + 1) (nth i shape 0%Z)); [|lia]. destruct (Z.ltb_spec (coord j q + 1) (nth j shape 0%Z)); [|lia]. cbn [andb].
  pose proof (Hb false false) as B1. pose proof (Hb false true) as B2. pose proof (Hb true false) as B3. pose proof (Hb true true) as B4.
  unfold mcell in *. rewrite !shift_0 in *. change (car R_ops) with R in *.
  set (m1 := mu (idx shape q)) in *. set (m2 := mu (idx shape (shift j 1 q))) in *. set (m3 := mu (idx shape (shift i 1 q))) in *.
  set (m4 := mu (idx shape (shift j 1 (shift i 1 q)))) in *.
  unfold four. cbn [forallb fold_right]. unfold mu_safe, at_pt. fold m1 m2 m3 m4. 
  change (mu (idx shape q)) with m1. change (mu (idx shape (shift j 1 q))) with m2. change (mu (idx shape (shift i 1 q))) with m3.
  change (mu (idx shape (shift j 1 (shift i 1 q)))) with m4.
  rewrite !above_true by (rewrite Rabs_right; lra). cbn [andb].
  assert (I : forall m, lo <= m <= hi -> / hi <= / m <= / lo).
  { intros m Hm. split; apply Rinv_le_contravar; lra. }
  pose proof (I m1 B1). pose proof (I m2 B2). pose proof (I m3 B3). pose proof (I m4 B4).
  set (s := / m1 + / m2 + / m3 + / m4).
  replace (1 / m4 + (1 / m1 + (1 / m3 + (1 / m2 + 0)))) with s by (unfold s, Rdiv; ring).
  assert (Hlo0 : 0 < lo) by lra. assert (Hhi : 0 < hi) by lra.
  assert (S1 : 4 / hi <= s) by (unfold s, Rdiv; lra). assert (S2 : s <= 4 / lo) by (unfold s, Rdiv; lra).
  assert (Hh : 0 < / hi) by (apply Rinv_0_lt_compat, Hhi). assert (Hs : 0 < s) by (unfold Rdiv in *; lra).
  split; [split|field; lra].
  - apply (Rmult_le_reg_r s); [exact Hs|]. replace (4 / s * s) with 4 by (field; lra).
    apply (Rmult_le_compat_l lo) in S2; [|lra]. replace (lo * (4 / lo)) with 4 in S2 by (field; lra). exact S2.
  - apply (Rmult_le_reg_r s); [exact Hs|]. replace (4 / s * s) with 4 by (field; lra).
    apply (Rmult_le_compat_l hi) in S1; [|lra]. replace (hi * (4 / hi)) with 4 in S1 by (field; lra). exact S1.
Qed.
Lemma mu_fluid (mu : arr R_ops) i j q a b : Rabs (mcell mu i j q a b) <= rfmax -> mu_mean rfmax shape mu i j q = 0.
Proof.
  intros H. unfold mu_mean. destruct (_ && _)%bool; [|reflexivity].
  replace (forallb (fun q => above_rfmax rfmax (at_pt shape mu q)) (four i j q)) with false; [reflexivity|].
  symmetry. apply not_true_is_false. intros F. rewrite forallb_forall in F.
  assert (X : above_rfmax rfmax (mcell mu i j q a b) = true).
  { unfold mcell. apply F. unfold four. destruct a, b; rewrite ?shift_0; cbn; tauto. }
  rewrite above_false in X by exact H. discriminate X.
Qed.

Lemma elastic_shear (lamb mu buoyancy : arr R_ops) i j q : i <> j -> (i < length shape)%nat -> (j < length shape)%nat -> inarr q -> inarr (shift j 1 (shift i 1 q)) ->
  (forall lo hi, rfmax < lo -> (forall a b, lo <= mcell mu i j q a b <= hi) ->
     lo <= prepare_parameters rfmax shape lamb mu buoyancy (MS i j) (idx shape q) <= hi /\
     prepare_parameters rfmax shape lamb mu buoyancy (MS i j) (idx shape q)
       * (/ mcell mu i j q false false + / mcell mu i j q false true + / mcell mu i j q true false + / mcell mu i j q true true) = 4) /\
  (forall a b, Rabs (mcell mu i j q a b) <= rfmax -> prepare_parameters rfmax shape lamb mu buoyancy (MS i j) (idx shape q) = 0).
Proof.
  intros Hij Hi Hj H1 H2. unfold prepare_parameters. rewrite unidx_idx by exact H1. split.
  - intros lo hi Hlo Hb. apply mu_value; assumption.
  - intros a b. apply mu_fluid.
Qed.

(** Buoyancy of a cell next to another: both solid, or one of them vacuum (buoyancy zero). *)
Lemma elastic_buoyancy (lamb mu buoyancy : arr R_ops) d q : (d < length shape)%nat -> inarr q -> inarr (shift d 1 q) ->
  let b0 := buoyancy (idx shape q) in let b1 := buoyancy (idx shape (shift d 1 q)) in
  let B := prepare_parameters rfmax shape lamb mu buoyancy (EB d) (idx shape q) in
  (forall lo hi, rfmax < lo -> rfmax < / hi -> lo <= b0 <= hi -> lo <= b1 <= hi -> lo <= B <= hi /\ B * (/ b0 + / b1) = 2) /\
  (rfmax < b0 -> 2 * rfmax < / b0 -> b1 = 0 -> B = 2 * b0) /\
  (rfmax < b1 -> 2 * rfmax < / b1 -> b0 = 0 -> B = 2 * b1) /\
  (b0 = 0 -> b1 = 0 -> B = 0).
Proof.
  intros Hd H1 H2. cbv zeta. unfold prepare_parameters. rewrite unidx_idx by exact H1. unfold mean_next.
  pose proof (next_in d q Hd H1 H2). destruct (Z.ltb_spec (coord d q + 1) (nth d shape 0%Z)); [|lia]. unfold at_pt.
  change (car R_ops) with R in *. set (b0 := buoyancy (idx shape q)). set (b1 := buoyancy (idx shape (shift d 1 q))).
  assert (Hi : forall x, 0 < x -> 0 < / x) by (intros; apply Rinv_0_lt_compat; assumption).
  split; [|split; [|split]].
  - intros lo hi Hlo Hhi Hb0 Hb1. rewrite !(safe_inv_pos rfmax b0), !(safe_inv_pos rfmax b1) by lra.
    assert (I : forall m, lo <= m <= hi -> / hi <= / m <= / lo) by (intros m Hm; split; apply Rinv_le_contravar; lra).
    pose proof (I b0 Hb0) as X0. pose proof (I b1 Hb1) as X1. assert (Hs : 0 < / b0 + / b1) by (pose proof (Hi b0 ltac:(lra)); pose proof (Hi b1 ltac:(lra)); lra).
    rewrite safe_inv_pos by lra. set (s := / b0 + / b1) in *. replace (/ (s / 2)) with (2 / s) by (field; lra).
    split; [split|field; lra].
    + apply (Rmult_le_reg_r s); [exact Hs|]. replace (2 / s * s) with 2 by (field; lra).
      apply Rle_trans with (lo * (2 * / lo)); [apply Rmult_le_compat_l; [lra|unfold s; lra]|right; field; lra].
    + apply (Rmult_le_reg_r s); [exact Hs|]. replace (2 / s * s) with 2 by (field; lra).
      apply Rle_trans with (hi * (2 * / hi)); [right; field; lra|apply Rmult_le_compat_l; [lra|unfold s; lra]].
  - intros Hb0 Hb1 E1. rewrite E1, (safe_inv_zero rfmax Hrf), (safe_inv_pos rfmax b0) by lra. rewrite Rplus_0_r.
    rewrite safe_inv_pos by (pose proof (Hi b0 ltac:(lra)); lra). field. lra.
  - intros Hb0 Hb1 E1. rewrite E1, (safe_inv_zero rfmax Hrf), (safe_inv_pos rfmax b1) by lra. rewrite Rplus_0_l.
    rewrite safe_inv_pos by (pose proof (Hi b1 ltac:(lra)); lra). field. lra.
  - intros E0 E1. rewrite E0, E1, (safe_inv_zero rfmax Hrf). replace ((0 + 0) / 2) with 0 by field. apply safe_inv_zero, Hrf.
Qed.
End Avg.
