(** * Property C50: the models prepared for the staggered propagators are means of neighbouring cells. *)
From Coq Require Import List ZArith QArith Reals Lra Lia Bool.
From Verif Require Import Ops Sums Grid Stencil StencilOrder ScalarModel ScalarRefine Stag StagKernel AcousticModel ElasticModel RealModel StagSetup StagAvg.
Import ListNotations.
Local Open Scope R_scope.
Local Arguments prepare_models : simpl never.
Local Arguments prepare_parameters : simpl never.
Local Arguments Rdiv : simpl never.
Local Arguments Rinv : simpl never.

(** C50: the acoustic buoyancy between two cells is the inverse of the mean of their densities. *)
Theorem C50_acoustic_buoyancy (rfmax : R) : 0 <= rfmax -> forall (shape : list Z) (v rho : arr R_ops) d q,
  (d < length shape)%nat -> inb (abox shape) q = true -> inb (abox shape) (shift d 1 q) = true ->
  rfmax < rho (idx shape q) -> rfmax < rho (idx shape (shift d 1 q)) ->
  prepare_models rfmax shape v rho (MB d) (idx shape q) * ((rho (idx shape q) + rho (idx shape (shift d 1 q))) / 2) = 1.
Proof. exact (acoustic_buoyancy rfmax). Qed.
Print Assumptions C50_acoustic_buoyancy.

Example two_layers : let rho := fun i : Z => if (i <? 2)%Z then 1000 else 3000 in
  prepare_models (1 / 10) [4%Z] rho rho (MB 0) 1%Z = 1 / 2000 /\ prepare_models (1 / 10) [4%Z] rho rho (MB 0) 2%Z = 1 / 3000.
Proof.
  cbv zeta. pose proof (C50_acoustic_buoyancy (1 / 10) ltac:(lra) [4%Z] (fun i => if (i <? 2)%Z then 1000 else 3000) (fun i => if (i <? 2)%Z then 1000 else 3000) 0%nat) as H.
  pose proof (H [1%Z] ltac:(cbn; lia) eq_refl eq_refl) as H1. pose proof (H [2%Z] ltac:(cbn; lia) eq_refl eq_refl) as H2.
  change (idx [4%Z] [1%Z]) with 1%Z in H1. change (idx [4%Z] (shift 0 1 [1%Z])) with 2%Z in H1.
  change (idx [4%Z] [2%Z]) with 2%Z in H2. change (idx [4%Z] (shift 0 1 [2%Z])) with 3%Z in H2.
  cbn [Z.ltb Z.compare Pos.compare Pos.compare_cont] in H1, H2. specialize (H1 ltac:(lra) ltac:(lra)). specialize (H2 ltac:(lra) ltac:(lra)). change (car R_ops) with R in *. split; lra.
Qed.

(** C50: the shear modulus at the corner of four cells is their harmonic mean, between the smallest and the largest; next to a
    cell without shear modulus it is zero. *)
Theorem C50_elastic_shear (rfmax : R) : 0 <= rfmax -> forall (shape : list Z) (lamb mu buoyancy : arr R_ops) i j q,
  i <> j -> (i < length shape)%nat -> (j < length shape)%nat -> inb (abox shape) q = true -> inb (abox shape) (shift j 1 (shift i 1 q)) = true ->
  let m (a b : bool) := mu (idx shape (shift j (if b then 1 else 0) (shift i (if a then 1 else 0) q))) in
  let M := prepare_parameters rfmax shape lamb mu buoyancy (MS i j) (idx shape q) in
  (forall lo hi, rfmax < lo -> (forall a b, lo <= m a b <= hi) ->
     lo <= M <= hi /\ M * (/ m false false + / m false true + / m true false + / m true true) = 4) /\
  (forall a b, Rabs (m a b) <= rfmax -> M = 0).
Proof. exact (elastic_shear rfmax). Qed.
Print Assumptions C50_elastic_shear.

Definition ex_mu : arr R_ops := fun i => if (i =? 0)%Z then 1 else if (i =? 4)%Z then 4 else if (i =? 8)%Z then 0 else 2.
Ltac mu_idx := cbv zeta in *; cbv iota in *; repeat match goal with
  | H : context [idx ?s ?q] |- _ => let n := eval vm_compute in (idx s q) in change (idx s q) with n in H
  | |- context [idx ?s ?q] => let n := eval vm_compute in (idx s q) in change (idx s q) with n end; cbn [ex_mu Z.eqb Pos.eqb] in *.
Ltac mu_lra := mu_idx; change (car R_ops) with R in *; lra.
Example four_cells : prepare_parameters 0 [3%Z; 3%Z] ex_mu ex_mu ex_mu (MS 0 1) 0%Z = 16 / 9 /\
  prepare_parameters 0 [3%Z; 3%Z] ex_mu ex_mu ex_mu (MS 0 1) 4%Z = 0.
Proof.
  split.
  - destruct (C50_elastic_shear 0 ltac:(lra) [3%Z; 3%Z] ex_mu ex_mu ex_mu 0%nat 1%nat [0%Z; 0%Z]) as [H _]; try (cbn; lia); try reflexivity.
    destruct (H 1 4) as [_ H1]; [lra|intros [] []; mu_lra|]. mu_lra.
  - destruct (C50_elastic_shear 0 ltac:(lra) [3%Z; 3%Z] ex_mu ex_mu ex_mu 0%nat 1%nat [1%Z; 1%Z]) as [_ H]; try (cbn; lia); try reflexivity.
    apply (H true true). mu_idx. rewrite Rabs_R0. mu_lra.
Qed.

(** C50: the elastic buoyancy between two cells is the inverse of the mean of their densities (the harmonic mean of their
    buoyancies); next to vacuum (buoyancy zero) it is twice the buoyancy of the other cell, inside vacuum zero. *)
Theorem C50_elastic_buoyancy (rfmax : R) : 0 <= rfmax -> forall (shape : list Z) (lamb mu buoyancy : arr R_ops) d q,
  (d < length shape)%nat -> inb (abox shape) q = true -> inb (abox shape) (shift d 1 q) = true ->
  let b0 := buoyancy (idx shape q) in let b1 := buoyancy (idx shape (shift d 1 q)) in
  let B := prepare_parameters rfmax shape lamb mu buoyancy (EB d) (idx shape q) in
  (forall lo hi, rfmax < lo -> rfmax < / hi -> lo <= b0 <= hi -> lo <= b1 <= hi -> lo <= B <= hi /\ B * (/ b0 + / b1) = 2) /\
  (rfmax < b0 -> 2 * rfmax < / b0 -> b1 = 0 -> B = 2 * b0) /\
  (rfmax < b1 -> 2 * rfmax < / b1 -> b0 = 0 -> B = 2 * b1) /\
  (b0 = 0 -> b1 = 0 -> B = 0).
Proof. exact (elastic_buoyancy rfmax). Qed.
Print Assumptions C50_elastic_buoyancy.

Example free_surface : prepare_parameters 0 [3%Z; 3%Z] ex_mu ex_mu ex_mu (EB 0) 5%Z = 4 /\ prepare_parameters 0 [3%Z; 3%Z] ex_mu ex_mu ex_mu (EB 1) 3%Z = 8 / 3.
Proof.
  split.
  - destruct (C50_elastic_buoyancy 0 ltac:(lra) [3%Z; 3%Z] ex_mu ex_mu ex_mu 0%nat [1%Z; 2%Z]) as (_ & H & _); try (cbn; lia); try reflexivity.
    mu_idx. rewrite H; mu_lra.
  - destruct (C50_elastic_buoyancy 0 ltac:(lra) [3%Z; 3%Z] ex_mu ex_mu ex_mu 1%nat [1%Z; 0%Z]) as (H & _); try (cbn; lia); try reflexivity.
    destruct (H 2 4) as [_ H1]; try mu_lra.
Qed.
