(** * Concrete runs without PML, used by the examples of PropStagPhys. *)
From Coq Require Import List ZArith QArith Qcanon Lia Bool Permutation.
From Verif Require Import Ops Sums Grid Stencil DualNum ScalarModel ScalarRefine ScalarAdjoint ScalarMore ScalarApi ScalarEx
  Stag StagAdj StagKernel StagCell StagRefine StagGrad StagPy AcousticModel AcousticThm AcousticEx ElasticModel ElasticThm ElasticEx StagEqs StagRun StagRunInst
  StagEnergy StagEnergyEx StagPhys StagPhysRun StagPhysInst.
Import ListNotations.

Lemma sloc_check (S : sys) (K : ops) (P : spar S K) c l q : l = idx (sp_shape P) q -> inb (abox (sp_shape P)) q = true ->
  forallb (fun x => implb (cin S c x) (dom S K P (xh S x) q)) (allX S) = true -> sloc_ok S K P c l.
Proof.
  intros Hl Hq H. right. exists q. split; [exact Hl|]. split; [exact Hq|]. intros x Hx Hc.
  apply (proj1 (forallb_forall _ _)) with (x := x) in H; [|exact Hx]. rewrite Hc in H. exact H.
Qed.
Definition ph_s (t : Z) : Qc := qz (t + 1).

(** Acoustic, the models of [naP]: a source of kind [c1] at [l1], a receiver of kind [c2] at [l2]. *)
Definition pha c1 l1 c2 l2 nt := acoustic_forward 2 Qc_ops (with_lists naP (ac_at c1 l1) (ac_at c2 l2)) npw (qq 1 2) na_kb
  (na_vis true) (na_vis false) false false 1 (fun t => ac_prep (K := Qc_ops) (qq 1 2) na_kb (ac_at c1 l1) (ac_samp (K := Qc_ops) c1 ph_s t))
  nt None (fun _ _ _ => qz 0) (rest (ac_sys 2) Qc_ops).
Lemma pha_some c1 l1 c2 l2 nt : sloc_ok (ac_sys 2) Qc_ops naP c1 l1 -> sloc_ok (ac_sys 2) Qc_ops naP c2 l2 -> (0 <= nt)%Z ->
  exists U R S, pha c1 l1 c2 l2 nt = Some (U, R, S).
Proof.
  intros O1 O2 H.
  apply (run_some (ac_sys 2) (ac_kern 2) Qc_ops Qc_is_ring (with_lists naP (ac_at c1 l1) (ac_at c2 l2)) (ac_num 2 Qc_ops (qq 1 2) na_kb) (ac_kc (K := Qc_ops) (qq 1 2) na_kb) npw (ac_sys_ok 2) (ac_kern_ok 2) (ac_num_ok 2 Qc_ops Qc_is_ring (qq 1 2) na_kb)
    (one_ok (ac_sys 2) Qc_ops naP ac_ceq ac_ceq_spec c1 l1 O1) (one_ok (ac_sys 2) Qc_ops naP ac_ceq ac_ceq_spec c2 l2 O2)).
  - destruct na_geom as [g1 g2]. constructor; [exact g1|exact g2].
  - apply Permutation_refl.
  - apply Permutation_refl.
  - split; [lia|]. split; [exact H|lia].
Qed.
Lemma pa6 : sloc_ok (ac_sys 2) Qc_ops naP XP 6. Proof. apply (sloc_check _ _ naP XP 6 [1; 1]%Z); reflexivity. Qed.
Lemma pa11 : sloc_ok (ac_sys 2) Qc_ops naP XP 11. Proof. apply (sloc_check _ _ naP XP 11 [2; 1]%Z); reflexivity. Qed.
Lemma pa12 : sloc_ok (ac_sys 2) Qc_ops naP (XV 0) 12. Proof. apply (sloc_check _ _ naP (XV 0) 12 [2; 2]%Z); reflexivity. Qed.
Lemma pa8 : sloc_ok (ac_sys 2) Qc_ops naP (XV 1) 8. Proof. apply (sloc_check _ _ naP (XV 1) 8 [1; 3]%Z); reflexivity. Qed.
Definition pha_nz (r : option (sst (ac_sys 2) Qc_ops * krec (ac_sys 2) Qc_ops * (kQ (ac_kern 2) -> Z -> arr Qc_ops))) t c : bool :=
  match r with Some (_, R, _) => existsb nz (R t c) | None => false end.

(** Runs from a given state, without sources. *)
Definition na_from nt u := acoustic_forward 2 Qc_ops naP npw (qq 1 2) na_kb (na_vis true) (na_vis false) false false 1 na_f nt None (fun _ _ _ => qz 0) u.
Lemma na_from_some nt u : (0 <= nt)%Z -> exists U R S, na_from nt u = Some (U, R, S).
Proof.
  intros H. apply (run_some (ac_sys 2) (ac_kern 2) Qc_ops Qc_is_ring naP (ac_num 2 Qc_ops (qq 1 2) na_kb) (ac_kc (K := Qc_ops) (qq 1 2) na_kb) npw (ac_sys_ok 2) (ac_kern_ok 2) (ac_num_ok 2 Qc_ops Qc_is_ring (qq 1 2) na_kb) na_src na_rec na_geom
    (na_vis true) (na_vis false) (ac_flag false false) 1 na_f nt None (fun _ _ _ => qz 0) u (Permutation_refl _) (Permutation_refl _)).
  split; [lia|]. split; [exact H|lia].
Qed.
Definition ne_from nt u := elastic_forward 2 Qc_ops neP npw (qq 1 2) ne_md (ne_vis true) (ne_vis false) false false false 1 ne_f nt None (fun _ _ _ => qz 0) u.
Lemma ne_from_some nt u : (0 <= nt)%Z -> exists U R S, ne_from nt u = Some (U, R, S).
Proof.
  intros H. apply (run_some (el_sys 2) (el_kern 2) Qc_ops Qc_is_ring neP (el_num 2 Qc_ops (qq 1 2) ne_md) (el_kc (K := Qc_ops) (qq 1 2) ne_md) npw (el_sys_ok 2) (el_kern_ok 2 Nat.lt_0_2) (el_num_ok 2 Qc_ops Qc_is_ring (qq 1 2) ne_md) ne_src ne_rec ne_geom
    (ne_vis true) (ne_vis false) (el_fq false false false) 1 ne_f nt None (fun _ _ _ => qz 0) u (Permutation_refl _) (Permutation_refl _)).
  split; [lia|]. split; [exact H|lia].
Qed.
(** Final state with the velocities of a run one step longer, reversed. *)
Definition na_back (A B : sst (ac_sys 2) Qc_ops) : sst (ac_sys 2) Qc_ops :=
  @mksst (ac_sys 2) Qc_ops (fun x p => match x with XP => mn A XP p | XV d => (- mn B (XV d) p)%Qc end) (fun _ _ => qz 0).
Definition ne_back (A B : sst (el_sys 2) Qc_ops) : sst (el_sys 2) Qc_ops :=
  @mksst (el_sys 2) Qc_ops (fun x p => match x with Sg i j => mn A (Sg i j) p | VL d => (- mn B (VL d) p)%Qc end) (fun _ _ => qz 0).

(** Elastic. *)
Definition phe c1 l1 c2 l2 nt := elastic_forward 2 Qc_ops (with_lists neP (el_at c1 l1) (el_at c2 l2)) npw (qq 1 2) ne_md
  (ne_vis true) (ne_vis false) false false false 1 (fun t => el_prep (K := Qc_ops) (qq 1 2) ne_md (el_at c1 l1) (el_samp (K := Qc_ops) c1 ph_s t))
  nt None (fun _ _ _ => qz 0) (rest (el_sys 2) Qc_ops).
Lemma phe_some c1 l1 c2 l2 nt : sloc_ok (el_sys 2) Qc_ops neP c1 l1 -> sloc_ok (el_sys 2) Qc_ops neP c2 l2 -> (0 <= nt)%Z ->
  exists U R S, phe c1 l1 c2 l2 nt = Some (U, R, S).
Proof.
  intros O1 O2 H.
  apply (run_some (el_sys 2) (el_kern 2) Qc_ops Qc_is_ring (with_lists neP (el_at c1 l1) (el_at c2 l2)) (el_num 2 Qc_ops (qq 1 2) ne_md) (el_kc (K := Qc_ops) (qq 1 2) ne_md) npw (el_sys_ok 2) (el_kern_ok 2 Nat.lt_0_2) (el_num_ok 2 Qc_ops Qc_is_ring (qq 1 2) ne_md)
    (one_ok (el_sys 2) Qc_ops neP el_ceq el_ceq_spec c1 l1 O1) (one_ok (el_sys 2) Qc_ops neP el_ceq el_ceq_spec c2 l2 O2)).
  - destruct ne_geom as [g1 g2]. constructor; [exact g1|exact g2].
  - apply Permutation_refl.
  - apply Permutation_refl.
  - split; [lia|]. split; [exact H|lia].
Qed.
Lemma pe6 : sloc_ok (el_sys 2) Qc_ops neP CP 6. Proof. apply (sloc_check _ _ neP CP 6 [1; 1]%Z); reflexivity. Qed.
Lemma pe11 : sloc_ok (el_sys 2) Qc_ops neP CP 11. Proof. apply (sloc_check _ _ neP CP 11 [2; 1]%Z); reflexivity. Qed.
Lemma pe12 : sloc_ok (el_sys 2) Qc_ops neP (CV 0) 12. Proof. apply (sloc_check _ _ neP (CV 0) 12 [2; 2]%Z); reflexivity. Qed.
Lemma pe8 : sloc_ok (el_sys 2) Qc_ops neP (CV 1) 8. Proof. apply (sloc_check _ _ neP (CV 1) 8 [1; 3]%Z); reflexivity. Qed.
Definition phe_nz (r : option (sst (el_sys 2) Qc_ops * krec (el_sys 2) Qc_ops * (kQ (el_kern 2) -> Z -> arr Qc_ops))) t c : bool :=
  match r with Some (_, R, _) => existsb nz (R t c) | None => false end.

Definition list_nz (l m : list Qc) : bool := existsb (fun ab => nz (fst ab - snd ab)%Qc) (combine l m).
(** The two traces of the pressure sources at 6 and 11 differ. *)
Definition phe_check : bool := match phe CP 6 CP 11 4, phe CP 11 CP 6 4 with
  Some (_, R1, _), Some (_, R2, _) => list_nz (el_post (K := Qc_ops) 2 R1 3%Z CP) (el_post (K := Qc_ops) 2 R2 3%Z CP) | _, _ => false end.
Lemma list_nz_ne l m : list_nz l m = true -> l <> m.
Proof.
  intros H ->. unfold list_nz in H. apply existsb_exists in H. destruct H as ([a b] & Hin & Hn). apply nz_spec in Hn. apply Hn. cbn [fst snd].
  assert (E : a = b). { clear Hn. induction m as [|x m IH]; [destruct Hin|]. destruct Hin as [Hin|Hin]; [congruence|auto]. }
  rewrite E. apply Qcplus_opp_r.
Qed.
Lemma phe_differ : exists U1 R1 S1 U2 R2 S2, phe CP 6 CP 11 4 = Some (U1, R1, S1) /\ phe CP 11 CP 6 4 = Some (U2, R2, S2) /\
  el_post (K := Qc_ops) 2 R1 3%Z CP <> el_post (K := Qc_ops) 2 R2 3%Z CP.
Proof.
  destruct (phe_some CP 6 CP 11 4 pe6 pe11) as (U1 & R1 & S1 & E1); [lia|]. destruct (phe_some CP 11 CP 6 4 pe11 pe6) as (U2 & R2 & S2 & E2); [lia|].
  exists U1, R1, S1, U2, R2, S2. split; [exact E1|]. split; [exact E2|]. apply list_nz_ne.
  assert (H : phe_check = true) by (vm_compute; reflexivity). unfold phe_check in H. rewrite E1, E2 in H. exact H.
Qed.
