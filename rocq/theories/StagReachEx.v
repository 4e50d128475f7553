(** * Two problems that agree between a source and a receiver only, used by the examples of PropStagReach. *)
From Coq Require Import List ZArith QArith Qcanon Lia Bool Permutation.
From Verif Require Import Ops Sums Grid Stencil DualNum ScalarModel ScalarRefine ScalarAdjoint ScalarMore ScalarApi ScalarEx ScalarReach
  Stag StagAdj StagKernel StagCell StagRefine StagGrad StagPy AcousticModel AcousticThm AcousticEx ElasticModel ElasticThm ElasticEx StagEqs StagRun StagRunInst
  StagEnergy StagEnergyEx StagPhys StagPhysRun StagPhysInst StagPhysEx StagReach StagReachInst.
Import ListNotations.

(** The first has no PML, the second is two cells wider at the left and has PML there and at the right. *)
Definition rs1 : list Z := [5; 7]%Z.
Definition rs2 : list Z := [5; 9]%Z.
Definition rpw2 (d : nat) : Z * Z := match d with O => (0, 0)%Z | _ => (2, 1)%Z end.
Definition rprof := aex_prof (fun d => nth d rs2 0%Z) 1 rpw2.
Definition rro : pt := [0; 2]%Z.
(** Values between the source at [(2, 2)] and the receiver at [(3, 4)] of the first grid; elsewhere the second has [9]. *)
Definition rval (y x : Z) : Qc := qz (1 + (y + 2 * x) mod 3).
Definition rin (y x : Z) : bool := ((2 <=? y) && (y <=? 3) && (2 <=? x) && (x <=? 4))%Z.
Definition rarr1 : arr Qc_ops := fun i => rval (i / 7) (i mod 7).
Definition rarr2 : arr Qc_ops := fun i => let y := (i / 9)%Z in let x := (i mod 9 - 2)%Z in if rin y x then rval y x else qz 9.

Definition ra1 : spar (ac_sys 2) Qc_ops := @mkspar (ac_sys 2) Qc_ops A2 rs1 (fun d => qq 1 (Pos.of_succ_nat d)) (fun _ _ _ => qz 0) (fun _ _ _ => qz 0) (ac_at XP 16) (ac_at XP 25).
Definition ra2 : spar (ac_sys 2) Qc_ops := @mkspar (ac_sys 2) Qc_ops A2 rs2 (fun d => qq 1 (Pos.of_succ_nat d)) (rprof (fun y => qq y 3)) (rprof (fun y => qq (- y) 2)) (ac_at XP 22) (ac_at XP 33).
Definition ra_f : krec (ac_sys 2) Qc_ops := fun t => ac_samp (K := Qc_ops) XP ph_s t.
Definition ra_vis P pw A := svisits (ac_sys 2) (ac_kern 2) Qc_ops P (fpml_b _ _ P pw) (fpml_e _ _ P pw) A.
Definition ra_run P pw (a : arr Qc_ops) := acoustic_forward 2 Qc_ops P pw (qq 1 2) (fun _ => a) (ra_vis P pw true) (ra_vis P pw false) false false 1 ra_f 7 None (fun _ _ _ => qz 0) (rest (ac_sys 2) Qc_ops).
Lemma ra1_geom : sgeom (ac_sys 2) Qc_ops ra1 npw.
Proof. split; [intros [|[|d]] Hd; cbn in Hd |- *; lia|intros; split; reflexivity]. Qed.
Lemma rprof_zero q h d y : aex_zone (fun d => nth d rs2 0%Z) 1 rpw2 h d y = true -> rprof q h d y = qz 0.
Proof. intros H. unfold rprof, aex_prof. rewrite H. reflexivity. Qed.
Lemma rzone h d y : (1 + fst (rpw2 d) <= y < nth d rs2 0 - snd (rpw2 d) - 1 + (if h : bool then 0 else 1))%Z -> aex_zone (fun d => nth d rs2 0%Z) 1 rpw2 h d y = true.
Proof. intros H. unfold aex_zone. apply andb_true_iff. rewrite Z.leb_le, Z.ltb_lt. exact H. Qed.
Lemma ra2_geom : sgeom (ac_sys 2) Qc_ops ra2 rpw2.
Proof.
  split; [intros [|[|d]] Hd; cbn in Hd |- *; lia|]. intros h d y Hd Hy. cbn [sp_a sp_b ra2]. split; apply rprof_zero, rzone, Hy.
Qed.
Lemma ra_ok (P : spar (ac_sys 2) Qc_ops) c l : sloc_ok (ac_sys 2) Qc_ops P c l -> locs_ok (ac_sys 2) Qc_ops P (ac_at c l).
Proof. intros H. apply one_ok; [apply ac_ceq_spec|exact H]. Qed.
Lemma ra1_src : locs_ok (ac_sys 2) Qc_ops ra1 (sp_src ra1). Proof. apply ra_ok, (sloc_check _ _ _ _ _ [2; 2]%Z); reflexivity. Qed.
Lemma ra1_rec : locs_ok (ac_sys 2) Qc_ops ra1 (sp_rec ra1). Proof. apply ra_ok, (sloc_check _ _ _ _ _ [3; 4]%Z); reflexivity. Qed.
Lemma ra2_src : locs_ok (ac_sys 2) Qc_ops ra2 (sp_src ra2). Proof. apply ra_ok, (sloc_check _ _ _ _ _ [2; 4]%Z); reflexivity. Qed.
Lemma ra2_rec : locs_ok (ac_sys 2) Qc_ops ra2 (sp_rec ra2). Proof. apply ra_ok, (sloc_check _ _ _ _ _ [3; 6]%Z); reflexivity. Qed.
Lemma ra1_some : exists U R S, ra_run ra1 npw rarr1 = Some (U, R, S).
Proof.
  apply (run_some (ac_sys 2) (ac_kern 2) Qc_ops Qc_is_ring ra1 (ac_num 2 Qc_ops (qq 1 2) (fun _ => rarr1)) (ac_kc (K := Qc_ops) (qq 1 2) (fun _ => rarr1)) npw (ac_sys_ok 2) (ac_kern_ok 2) (ac_num_ok 2 Qc_ops Qc_is_ring (qq 1 2) (fun _ => rarr1)) ra1_src ra1_rec ra1_geom);
    [apply Permutation_refl|apply Permutation_refl|unfold nt_ok; lia].
Qed.
Lemma ra2_some : exists U R S, ra_run ra2 rpw2 rarr2 = Some (U, R, S).
Proof.
  apply (run_some (ac_sys 2) (ac_kern 2) Qc_ops Qc_is_ring ra2 (ac_num 2 Qc_ops (qq 1 2) (fun _ => rarr2)) (ac_kc (K := Qc_ops) (qq 1 2) (fun _ => rarr2)) rpw2 (ac_sys_ok 2) (ac_kern_ok 2) (ac_num_ok 2 Qc_ops Qc_is_ring (qq 1 2) (fun _ => rarr2)) ra2_src ra2_rec ra2_geom);
    [apply Permutation_refl|apply Permutation_refl|unfold nt_ok; lia].
Qed.
Lemma ra_same c l1 l2 : same_loc rs1 rs2 rro l1 l2 -> forall ch, Forall2 (same_loc rs1 rs2 rro) (ac_at c l1 ch) (ac_at c l2 ch).
Proof. intros H ch. unfold ac_at, one_loc. destruct (ac_ceq ch c); [constructor; [exact H|constructor]|constructor]. Qed.
Lemma ra_src_same : same_loc rs1 rs2 rro 16 22. Proof. right. split; [lia|]. split; [lia|reflexivity]. Qed.
Lemma ra_rec_same : same_loc rs1 rs2 rro 25 33. Proof. right. split; [lia|]. split; [lia|reflexivity]. Qed.

(** Points on a way of six half cells. *)
Lemma rway h q : on_way rs1 6 (fun _ => false) 16 h q (fun _ => false) 25 -> exists y x, q = [y; x] /\
  (2 <= y <= 3 - (if h 0%nat then 1 else 0))%Z /\ (2 <= x <= 4 - (if h 1%nat then 1 else 0))%Z.
Proof.
  intros [Hl Hd]. destruct q as [|y [|x [|]]]; try discriminate. exists y, x. split; [reflexivity|].
  change (unidx rs1 16) with [2; 2]%Z in Hd. change (unidx rs1 25) with [3; 4]%Z in Hd. cbn [pos dist] in Hd.
  destruct (h 0%nat), (h 1%nat); lia.
Qed.
Lemma updated_iff {S K} (P1 P2 : spar S K) h h' p p' : dom S K P1 h p = dom S K P2 h' p' -> (updated P1 h p <-> updated P2 h' p').
Proof. intros H. rewrite !updated_dom, H. reflexivity. Qed.
Lemma rr_val y x : (2 <= y <= 3)%Z -> (2 <= x <= 4)%Z -> rarr1 (idx rs1 [y; x]) = rarr2 (idx rs2 (translate rro [y; x])).
Proof.
  intros Hy Hx. assert (Cy : (y = 2 \/ y = 3)%Z) by lia. assert (Cx : (x = 2 \/ x = 3 \/ x = 4)%Z) by lia.
  destruct Cy as [-> | ->]; destruct Cx as [-> | [-> | ->]]; reflexivity.
Qed.
Lemma rr_prof q h d y x : (2 <= y <= 3)%Z -> (2 <= x <= 4)%Z -> (d < 2)%nat -> rprof q h d (coord d (translate rro [y; x])) = qz 0.
Proof. intros Hy Hx Hd. apply rprof_zero, rzone. destruct d as [|[|]]; cbn; destruct h; lia. Qed.
Lemma ra_place x q : on_way rs1 6 (fun _ => false) 16 (ac_xh x) q (fun _ => false) 25 -> In x (ac_allX 2) ->
  same_place ra1 ra2 rro (ac_xh x) (ac_dims 2 x) q /\ (updated ra1 (ac_xh x) q -> rarr1 (idx rs1 q) = rarr2 (idx rs2 (translate rro q))).
Proof.
  intros Hw Hx. apply rway in Hw. destruct Hw as (y & z & -> & Hy & Hz).
  assert (Hy' : (2 <= y <= 3)%Z) by (destruct (ac_xh x 0); lia). assert (Hz' : (2 <= z <= 4)%Z) by (destruct (ac_xh x 1); lia).
  split; [split|].
  - apply updated_iff. assert (Cy : (y = 2 \/ y = 3)%Z) by lia. assert (Cz : (z = 2 \/ z = 3 \/ z = 4)%Z) by lia.
    apply In_ac_allX in Hx. destruct x as [|[|[|]]]; try lia; destruct Cy as [-> | ->]; destruct Cz as [-> | [-> | ->]]; reflexivity.
  - intros _ d Hd. assert (Hd2 : (d < 2)%nat). { apply In_ac_allX in Hx. destruct x; [apply in_seq in Hd; lia|destruct Hd as [<-|[]]; lia]. }
    cbn [sp_a sp_b ra1 ra2]. rewrite !rr_prof by assumption. split; reflexivity.
  - intros _. apply rr_val; assumption.
Qed.
Definition ra_check : bool := match ra_run ra1 npw rarr1, ra_run ra2 rpw2 rarr2 with
  Some (_, R1, _), Some (_, R2, _) => nz (nth 0 (R1 4%Z XP) (qz 0)) && nz (nth 0 (R1 5%Z XP) (qz 0) - nth 0 (R2 5%Z XP) (qz 0))%Qc | _, _ => false end.
Lemma ra_check_ok : ra_check = true. Proof. vm_compute. reflexivity. Qed.

(** Elastic. *)
Definition re1 : spar (el_sys 2) Qc_ops := @mkspar (el_sys 2) Qc_ops A2 rs1 (fun d => qq 1 (Pos.of_succ_nat d)) (fun _ _ _ => qz 0) (fun _ _ _ => qz 0) (el_at CP 16) (el_at CP 25).
Definition re2 : spar (el_sys 2) Qc_ops := @mkspar (el_sys 2) Qc_ops A2 rs2 (fun d => qq 1 (Pos.of_succ_nat d)) (rprof (fun y => qq y 3)) (rprof (fun y => qq (- y) 2)) (el_at CP 22) (el_at CP 33).
Definition re_f : krec (el_sys 2) Qc_ops := fun t => el_samp (K := Qc_ops) CP ph_s t.
Definition re_vis P pw A := svisits (el_sys 2) (el_kern 2) Qc_ops P (fpml_b _ _ P pw) (fpml_e _ _ P pw) A.
Definition re_run P pw (a : arr Qc_ops) := elastic_forward 2 Qc_ops P pw (qq 1 2) (fun _ => a) (re_vis P pw true) (re_vis P pw false) false false false 1 re_f 7 None (fun _ _ _ => qz 0) (rest (el_sys 2) Qc_ops).
Lemma re1_geom : sgeom (el_sys 2) Qc_ops re1 npw.
Proof. split; [intros [|[|d]] Hd; cbn in Hd |- *; lia|intros; split; reflexivity]. Qed.
Lemma re2_geom : sgeom (el_sys 2) Qc_ops re2 rpw2.
Proof.
  split; [intros [|[|d]] Hd; cbn in Hd |- *; lia|]. intros h d y Hd Hy. cbn [sp_a sp_b re2]. split; apply rprof_zero, rzone, Hy.
Qed.
Lemma re_ok (P : spar (el_sys 2) Qc_ops) c l : sloc_ok (el_sys 2) Qc_ops P c l -> locs_ok (el_sys 2) Qc_ops P (el_at c l).
Proof. intros H. apply one_ok; [apply el_ceq_spec|exact H]. Qed.
Lemma re1_src : locs_ok (el_sys 2) Qc_ops re1 (sp_src re1). Proof. apply re_ok, (sloc_check _ _ _ _ _ [2; 2]%Z); reflexivity. Qed.
Lemma re1_rec : locs_ok (el_sys 2) Qc_ops re1 (sp_rec re1). Proof. apply re_ok, (sloc_check _ _ _ _ _ [3; 4]%Z); reflexivity. Qed.
Lemma re2_src : locs_ok (el_sys 2) Qc_ops re2 (sp_src re2). Proof. apply re_ok, (sloc_check _ _ _ _ _ [2; 4]%Z); reflexivity. Qed.
Lemma re2_rec : locs_ok (el_sys 2) Qc_ops re2 (sp_rec re2). Proof. apply re_ok, (sloc_check _ _ _ _ _ [3; 6]%Z); reflexivity. Qed.
Lemma re1_some : exists U R S, re_run re1 npw rarr1 = Some (U, R, S).
Proof.
  apply (run_some (el_sys 2) (el_kern 2) Qc_ops Qc_is_ring re1 (el_num 2 Qc_ops (qq 1 2) (fun _ => rarr1)) (el_kc (K := Qc_ops) (qq 1 2) (fun _ => rarr1)) npw (el_sys_ok 2) (el_kern_ok 2 Nat.lt_0_2) (el_num_ok 2 Qc_ops Qc_is_ring (qq 1 2) (fun _ => rarr1)) re1_src re1_rec re1_geom);
    [apply Permutation_refl|apply Permutation_refl|unfold nt_ok; lia].
Qed.
Lemma re2_some : exists U R S, re_run re2 rpw2 rarr2 = Some (U, R, S).
Proof.
  apply (run_some (el_sys 2) (el_kern 2) Qc_ops Qc_is_ring re2 (el_num 2 Qc_ops (qq 1 2) (fun _ => rarr2)) (el_kc (K := Qc_ops) (qq 1 2) (fun _ => rarr2)) rpw2 (el_sys_ok 2) (el_kern_ok 2 Nat.lt_0_2) (el_num_ok 2 Qc_ops Qc_is_ring (qq 1 2) (fun _ => rarr2)) re2_src re2_rec re2_geom);
    [apply Permutation_refl|apply Permutation_refl|unfold nt_ok; lia].
Qed.
Lemma re_same c l1 l2 : same_loc rs1 rs2 rro l1 l2 -> forall ch, Forall2 (same_loc rs1 rs2 rro) (el_at c l1 ch) (el_at c l2 ch).
Proof. intros H ch. unfold el_at, one_loc. destruct (el_ceq ch c); [constructor; [exact H|constructor]|constructor]. Qed.
Lemma re_place x q : on_way rs1 6 (fun _ => false) 16 (el_xh x) q (fun _ => false) 25 -> In x (el_allX 2) ->
  same_place re1 re2 rro (el_xh x) (el_dims 2 x) q /\ (updated re1 (el_xh x) q -> forall k, In k (el_mods x) -> rarr1 (idx rs1 q) = rarr2 (idx rs2 (translate rro q))).
Proof.
  intros Hw Hx. apply rway in Hw. destruct Hw as (y & z & -> & Hy & Hz).
  assert (Hy' : (2 <= y <= 3)%Z) by (destruct (el_xh x 0); lia). assert (Hz' : (2 <= z <= 4)%Z) by (destruct (el_xh x 1); lia).
  split; [split|].
  - apply updated_iff. assert (Cy : (y = 2 \/ y = 3)%Z) by lia. assert (Cz : (z = 2 \/ z = 3 \/ z = 4)%Z) by lia.
    apply In_el_allX in Hx. destruct x as [[|[|]]|[|[|]] [|[|]]]; try lia; destruct Cy as [-> | ->]; destruct Cz as [-> | [-> | ->]]; reflexivity.
  - intros _ d Hd. assert (Hd2 : (d < 2)%nat).
    { apply In_el_allX in Hx. destruct x as [v|i j]; [apply in_seq in Hd; lia|]. cbn in Hd. destruct (Nat.eqb i j); cbn in Hd; lia. }
    cbn [sp_a sp_b re1 re2]. rewrite !rr_prof by assumption. split; reflexivity.
  - intros _ k _. apply rr_val; assumption.
Qed.
Definition re_check : bool := match re_run re1 npw rarr1, re_run re2 rpw2 rarr2 with
  Some (_, R1, _), Some (_, R2, _) => nz (nth 0 (R1 4%Z CP) (qz 0)) && nz (nth 0 (R1 5%Z CP) (qz 0) - nth 0 (R2 5%Z CP) (qz 0))%Qc | _, _ => false end.
Lemma re_check_ok : re_check = true. Proof. vm_compute. reflexivity. Qed.
