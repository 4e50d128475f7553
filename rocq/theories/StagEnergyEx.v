(** * Concrete acoustic and elastic runs without PML, used by the examples of PropStagEnergy. *)
From Coq Require Import List ZArith QArith Qcanon Lia Bool Permutation.
From Verif Require Import Ops Sums Grid Stencil DualNum ScalarModel ScalarRefine ScalarAdjoint ScalarMore ScalarApi ScalarEx
  Stag StagAdj StagKernel StagCell StagRefine StagGrad StagPy AcousticModel AcousticThm AcousticEx ElasticModel ElasticThm ElasticEx StagEqs StagRun StagRunInst StagEnergy.
Import ListNotations.

Definition npw : nat -> Z * Z := fun _ => (0, 0)%Z.
Definition nshape : list Z := [4%Z; 5%Z].
Lemma npw_none : no_layers 2 npw. Proof. intros d _. reflexivity. Qed.

(** Acoustic: two dimensions, accuracy 2, heterogeneous moduli, one pressure cell with modulus zero. *)
Definition naP : spar (ac_sys 2) Qc_ops :=
  @mkspar (ac_sys 2) Qc_ops A2 nshape (fun d => qq 1 (Pos.of_succ_nat d)) (fun _ _ _ => qz 0) (fun _ _ _ => qz 0)
    (fun c => match c with XP => [6%Z] | XV _ => [] end) (fun c => match c with XP => [11%Z] | XV _ => [] end).
Definition na_kb (k : aM) : arr Qc_ops := fun i => match k with MK => if (i =? 7)%Z then qz 0 else qz (1 + i mod 3) | MB d => qq (1 + i mod 2) 2 end.
Definition na_wk : field Qc_ops := fun q => qq 1 (Z.to_pos (1 + idx nshape q mod 3)).
Definition na_wb (d : nat) : field Qc_ops := fun q => qq 2 (Z.to_pos (1 + idx nshape q mod 2)).
Definition na_u : sst (ac_sys 2) Qc_ops :=
  @mksst (ac_sys 2) Qc_ops (fun x q => match x with XP => if (idx nshape q =? 7)%Z then qz 0 else qz (coord 0 q + 1) | XV d => qz (2 - coord 1 q + Z.of_nat d) end) (fun _ _ => qz 0).
Definition na_f : krec (ac_sys 2) Qc_ops := fun _ c => match c with XP => [qz 0] | XV _ => [] end.
Definition na_vis A := svisits (ac_sys 2) (ac_kern 2) Qc_ops naP (fpml_b _ _ naP npw) (fpml_e _ _ naP npw) A.
Definition na_run nt := acoustic_forward 2 Qc_ops naP npw (qq 1 2) na_kb (na_vis true) (na_vis false) false false 1 na_f nt None (fun _ _ _ => qz 0) na_u.

Lemma na_geom : sgeom (ac_sys 2) Qc_ops naP npw.
Proof. split; [intros [|[|d]] Hd; cbn in Hd |- *; lia|intros; split; reflexivity]. Qed.
Lemma na_loc l y x : l = (y * 5 + x)%Z -> dom (ac_sys 2) Qc_ops naP (fun _ => false) [y; x] = true -> inb (abox nshape) [y; x] = true ->
  sloc_ok (ac_sys 2) Qc_ops naP XP l.
Proof.
  intros -> H1 H2. right. exists [y; x]. split; [cbn; lia|]. split; [exact H2|]. intros z _ Hz. cbn in Hz.
  match type of Hz with (if ?a then _ else _) = _ => destruct a as [Ez|]; [|discriminate Hz] end. subst z. exact H1.
Qed.
Lemma na_src : locs_ok (ac_sys 2) Qc_ops naP (sp_src naP).
Proof. intros [|d] _; cbn; [|constructor]. constructor; [apply (na_loc _ 1 1); reflexivity|constructor]. Qed.
Lemma na_rec : locs_ok (ac_sys 2) Qc_ops naP (sp_rec naP).
Proof. intros [|d] _; cbn; [|constructor]. constructor; [apply (na_loc _ 2 1); reflexivity|constructor]. Qed.
Lemma na_zero t c : (0 <= t)%Z -> Forall (fun x => x = o0 Qc_ops) (na_f t c).
Proof. intros _. destruct c; repeat constructor. Qed.
Lemma mod_cases3 i : (i mod 3 = 0 \/ i mod 3 = 1 \/ i mod 3 = 2)%Z. Proof. pose proof (Z.mod_pos_bound i 3). lia. Qed.
Lemma mod_cases2 i : (i mod 2 = 0 \/ i mod 2 = 1)%Z. Proof. pose proof (Z.mod_pos_bound i 2). lia. Qed.
Lemma na_cells : ac_cells 2 Qc_ops naP na_kb na_wk na_wb na_u.
Proof.
  split.
  - intros q _. cbn [sp_shape naP mn na_u]. unfold na_kb, na_wk. destruct (Z.eqb_spec (idx nshape q) 7) as [E|_].
    + right. split; reflexivity.
    + left. destruct (mod_cases3 (idx nshape q)) as [->|[->| ->]]; apply Qc_is_canon; reflexivity.
  - intros d q _ _. left. cbn [sp_shape naP]. unfold na_kb, na_wb. destruct (mod_cases2 (idx nshape q)) as [->| ->]; apply Qc_is_canon; reflexivity.
Qed.
Definition na_en s := acoustic_energy 2 Qc_ops naP (qq 1 2) na_wk na_wb s.
(** Energies before and after three steps, computed; the pressure has changed. *)
Definition na_check : bool := match na_run 3 with Some (U, _, _) => Qeq_bool (this (na_en U)) (this (na_en na_u)) && nz (na_en na_u) && nz (mn U XP [1%Z; 1%Z] - mn na_u XP [1%Z; 1%Z])%Qc | None => false end.
Lemma na_check_ok : na_check = true. Proof. vm_compute. reflexivity. Qed.

(** Elastic: two dimensions, a fluid cell (no shear moduli) among solid ones. *)
Definition neP : spar (el_sys 2) Qc_ops :=
  @mkspar (el_sys 2) Qc_ops A2 nshape (fun d => qq 1 (Pos.of_succ_nat d)) (fun _ _ _ => qz 0) (fun _ _ _ => qz 0)
    (fun c => match c with CP => [6%Z] | CV _ => [] end) (fun c => match c with CP => [11%Z] | CV _ => [] end).
Definition ne_md (k : eM) : arr Qc_ops := fun i =>
  match k with ML => qz (1 + i mod 3) | MMU => qz (i mod 2) | MS _ _ => qq (i mod 4) 2 | EB d => qq (1 + i mod 2) 2 end.
Definition ne_en (i : nat) : field Qc_ops := fun q => qz (coord 0 q + Z.of_nat i).
Definition ne_es (i j : nat) : field Qc_ops := fun q => qz (coord 1 q - 3).
Definition ne_u : sst (el_sys 2) Qc_ops :=
  @mksst (el_sys 2) Qc_ops
    (fun x q => let m k := ne_md k (idx nshape q) in
       match x with
       | VL d => qz (2 - coord 1 q + Z.of_nat d)
       | Sg i j => if Nat.eqb i j then (m ML * (ne_en 0 q + ne_en 1 q) + qz 2 * m MMU * ne_en i q)%Qc else (m (MS i j) * ne_es i j q)%Qc
       end) (fun _ _ => qz 0).
Definition ne_f : krec (el_sys 2) Qc_ops := fun _ c => match c with CP => [qz 0] | CV _ => [] end.
Definition ne_vis A := svisits (el_sys 2) (el_kern 2) Qc_ops neP (fpml_b _ _ neP npw) (fpml_e _ _ neP npw) A.
Definition ne_run nt := elastic_forward 2 Qc_ops neP npw (qq 1 2) ne_md (ne_vis true) (ne_vis false) false false false 1 ne_f nt None (fun _ _ _ => qz 0) ne_u.
Lemma ne_geom : sgeom (el_sys 2) Qc_ops neP npw.
Proof. split; [intros [|[|d]] Hd; cbn in Hd |- *; lia|intros; split; reflexivity]. Qed.
Lemma ne_loc l y x : l = (y * 5 + x)%Z ->
  (forall z, In z (el_allX 2) -> cin (el_sys 2) CP z = true -> dom (el_sys 2) Qc_ops neP (xh (el_sys 2) z) [y; x] = true) ->
  inb (abox nshape) [y; x] = true -> sloc_ok (el_sys 2) Qc_ops neP CP l.
Proof. intros -> H1 H2. right. exists [y; x]. split; [cbn; lia|]. split; [exact H2|]. intros z Iz Hz. exact (H1 z Iz Hz). Qed.
Lemma ne_src : locs_ok (el_sys 2) Qc_ops neP (sp_src neP).
Proof. intros [d|] _; cbn [sp_src neP]; [constructor|]. constructor; [apply (ne_loc _ 1 1); [reflexivity|eex_cin|reflexivity]|constructor]. Qed.
Lemma ne_rec : locs_ok (el_sys 2) Qc_ops neP (sp_rec neP).
Proof. intros [d|] _; cbn [sp_rec neP]; [constructor|]. constructor; [apply (ne_loc _ 2 1); [reflexivity|eex_cin|reflexivity]|constructor]. Qed.
Lemma ne_zero t c : (0 <= t)%Z -> Forall (fun x => x = o0 Qc_ops) (ne_f t c).
Proof. intros _. destruct c; repeat constructor. Qed.
Lemma ne_cells : el_cells 2 Qc_ops neP ne_md na_wb ne_u.
Proof.
  intros d q _ _. left. cbn [sp_shape neP]. unfold ne_md, na_wb. destruct (mod_cases2 (idx nshape q)) as [->| ->]; apply Qc_is_canon; reflexivity.
Qed.
Lemma ne_strain : strain_of 2 Qc_ops neP ne_md ne_u ne_en ne_es.
Proof.
  split.
  - intros i q _ _. cbn [mn ne_u sp_shape neP]. rewrite Nat.eqb_refl. cbn [seq sumf].
    change (oadd Qc_ops) with Qcplus. change (omul Qc_ops) with Qcmult. change (o0 Qc_ops) with (Q2Qc 0).
    rewrite Qcplus_0_r. reflexivity.
  - intros i j q Hij _. cbn [mn ne_u sp_shape neP]. destruct (Nat.eqb_spec i j); [lia|reflexivity].
Qed.
Definition ne_energy s en es := elastic_energy 2 Qc_ops neP (qq 1 2) na_wb s en es.
Lemma ne_energy_nz : nz (ne_energy ne_u ne_en ne_es) = true. Proof. vm_compute. reflexivity. Qed.
Lemma na_some nt : (0 <= nt)%Z -> exists U R S, na_run nt = Some (U, R, S).
Proof.
  intros H. apply (run_some (ac_sys 2) (ac_kern 2) Qc_ops Qc_is_ring naP (ac_num 2 Qc_ops (qq 1 2) na_kb) (ac_kc (K := Qc_ops) (qq 1 2) na_kb) npw (ac_sys_ok 2) (ac_kern_ok 2) (ac_num_ok 2 Qc_ops Qc_is_ring (qq 1 2) na_kb) na_src na_rec na_geom
    (na_vis true) (na_vis false) (ac_flag false false) 1 na_f nt None (fun _ _ _ => qz 0) na_u (Permutation_refl _) (Permutation_refl _)).
  split; [lia|]. split; [exact H|lia].
Qed.
Lemma ne_some nt : (0 <= nt)%Z -> exists U R S, ne_run nt = Some (U, R, S).
Proof.
  intros H. apply (run_some (el_sys 2) (el_kern 2) Qc_ops Qc_is_ring neP (el_num 2 Qc_ops (qq 1 2) ne_md) (el_kc (K := Qc_ops) (qq 1 2) ne_md) npw (el_sys_ok 2) (el_kern_ok 2 Nat.lt_0_2) (el_num_ok 2 Qc_ops Qc_is_ring (qq 1 2) ne_md) ne_src ne_rec ne_geom
    (ne_vis true) (ne_vis false) (el_fq false false false) 1 ne_f nt None (fun _ _ _ => qz 0) ne_u (Permutation_refl _) (Permutation_refl _)).
  split; [lia|]. split; [exact H|lia].
Qed.
Definition ne_check : bool := match ne_run 3 with Some (U, _, _) => nz (mn U (Sg 0 0) [1%Z; 1%Z] - mn ne_u (Sg 0 0) [1%Z; 1%Z])%Qc | None => false end.
Lemma ne_check_ok : ne_check = true. Proof. vm_compute. reflexivity. Qed.
