(** * The launches over the cells of a phase on the device do what the CPU loops do, in any order of the loops. *)
From Coq Require Import List ZArith QArith Lia Bool Permutation.
From Verif Require Import Ops Sums Grid Stencil ScalarModel ScalarRefine ScalarForward Param ShotsModel Shots Loop Stag StagAdj StagKernel StagCell StagRefine StagParam
  StagShotsModel StagShots StagShotsRun Threads GpuModel GpuLaunch StagGpuModel StagGpuCell StagGpuLaunch StagGpuFoot.
Import ListNotations.
Local Open Scope K_scope.

Section Any.
Variable S : sys.
Variable N : kern S.
Variable K : ops.
Variable P : spar S K.
Notation shape := (sp_shape P).
Notation fd := (fd_pad (sp_acc P)).
Notation nd := (length shape).
Notation kvar := (svar (sX S) (sE S) (kQ N) (kM N)).
Notation kgp := (grp S (kQ N) (kM N)).
Notation kmem := (kmem S N K).
Hypothesis Sok : sys_ok S nd.
Hypothesis Hk : kern_ok S N nd.
Variable A : bool.
Variable cell : kmem -> kgp * (list Z * pt) -> kmem.
Variable own : kgp -> kvar -> Prop.
Variable W : kvar -> Prop.
Variables b e : nat -> Z.
Hypothesis Hbe : forall d, (d < nd)%nat -> (fd <= b d <= e d /\ e d <= nth d shape 0 - fd + 1 /\ b d <= nth d shape 0 - fd)%Z.
Hypothesis Hframe : forall m g r p w j, In g (kgrp N A) -> j <> idx shape p \/ ~ own g w -> cell m (g, (r, p)) w j = m w j.
Hypothesis HW : forall g w, In g (kgrp N A) -> own g w -> W w.
Hypothesis Hloc : forall m m' g r p w, In g (kgrp N A) -> own g w ->
  (forall y i, ~ W y -> m y i = m' y i) -> (forall y, own g y -> m y (idx shape p) = m' y (idx shape p)) ->
  cell m (g, (r, p)) w (idx shape p) = cell m' (g, (r, p)) w (idx shape p).
Hypothesis Huniq : forall g g' w, In g (kgrp N A) -> In g' (kgrp N A) -> own g w -> own g' w -> g = g'.
Hypothesis Odec : forall g w, {own g w} + {~ own g w}.
Hypothesis Hpos : Forall (fun x => (0 < x)%Z) shape.

Lemma fold_any vis vis' m w i : Permutation (svisits S N K P b e A) vis -> Permutation (svisits S N K P b e A) vis' ->
  (0 <= i < prodZ shape)%Z -> fold_left cell vis m w i = fold_left cell vis' m w i.
Proof.
  intros H H' Hi. rewrite <- (idx_unidx shape i Hpos Hi). set (p := unidx shape i).
  assert (Hp : inb (abox shape) p = true) by (apply unidx_in_array; assumption).
  destruct (Exists_dec (fun g => own g w /\ dom S K P (g_h g) p = true) (kgrp N A)) as [E|E].
  { intros g. destruct (Odec g w); [|right; tauto]. destruct (dom S K P (g_h g) p); [left; auto|right; intros [_ D]; discriminate]. }
  - apply Exists_exists in E. destruct E as (g & Hg & Ho & Hd).
    destruct (loop_own S N K P Sok Hk A cell own W b e Hbe Hframe HW Hloc Huniq vis H g p m Hg Hd) as (r & R1 & R2 & R3).
    destruct (loop_own S N K P Sok Hk A cell own W b e Hbe Hframe HW Hloc Huniq vis' H' g p m Hg Hd) as (r' & R1' & R2' & R3').
    rewrite (R3 w Ho), (R3' w Ho). rewrite (reg_unique S K P b e Hbe (g_h g) r r' p); auto.
  - assert (F : forall g, In g (kgrp N A) -> own g w -> dom S K P (g_h g) p = false).
    { intros g Hg Ho. destruct (dom S K P (g_h g) p) eqn:D; [|reflexivity]. exfalso. apply E, Exists_exists. exists g. auto. }
    rewrite (loop_frame S N K P A cell own b e Hbe Hframe vis H w p m Hp F), (loop_frame S N K P A cell own b e Hbe Hframe vis' H' w p m Hp F). reflexivity.
Qed.
End Any.

Section SGPhase.
Variable S : sys.
Variable N : kern S.
Variable K : ops.
Variable C_dec : forall a b : sC S, {a = b} + {a <> b}.
Variable P0 : spar S K.
Variable num : (kM N -> arr K) -> knum S N K.
Variable kc : (kM N -> arr K) -> sX S -> sE S -> arr K.
Variable pw : nat -> Z * Z.
Variable NS : Z.
Variable bt : kM N -> bool.
Variable md : kM N -> arr K.
Notation shape := (sp_shape P0).
Notation n := (prodZ shape).
Notation nd := (length shape).
Notation fd := (fd_pad (sp_acc P0)).
Notation kvar := (svar (sX S) (sE S) (kQ N) (kM N)).
Notation kgp := (grp S (kQ N) (kM N)).
Notation kmem := (kmem S N K).
Notation mem := (mem (sgloc S N) K).
Notation U k := (num (sshot_md S N K P0 bt md k)).
Hypothesis Sok : sys_ok S nd.
Hypothesis Hk : kern_ok S N nd.
Hypothesis Hu : forall md, num_ok S N K (num md) (kc md).
Hypothesis HU : forall md, numrel S N K K eq n (num md) (num md).
Hypothesis Hgeo : sgeom S K P0 pw.
Hypothesis Hsz : sizes_ok fd (map Z.succ shape) NS.
Variable cnt : sC S -> Z.
Notation ginv := (ginv S N K P0 NS cnt).

Lemma pos_shape : Forall (fun x => (0 < x)%Z) shape.
Proof.
  apply Forall_nth. intros d x Hd. rewrite (nth_indep _ x 0%Z) by exact Hd.
  pose proof (sg_dims S K P0 pw Hgeo d Hd). pose proof (fd_pad_pos (sp_acc P0)). lia.
Qed.
Lemma own_dec (l : list kvar) (w : kvar) : {In w l} + {~ In w l}.
Proof. apply in_dec. apply kvar_dec. Qed.
Lemma f_own_dec si g w : {f_own S N si g w} + {~ f_own S N si g w}.
Proof.
  destruct w as [x|e|e|q s|q]; cbn; try (right; tauto); [exact (in_dec (kX_dec N) x (g_X g))|exact (in_dec (kE_dec N) e (g_E g))|]. destruct (in_dec (kQ_dec N) q (g_Q g)); [|right; tauto]. destruct (Z.eq_dec s si); [left; auto|right; tauto].
Qed.
Lemma bA_own_dec g w : {bA_own S N g w} + {~ bA_own S N g w}.
Proof. destruct w; cbn; try (right; tauto); apply in_dec; first [exact (kX_dec N)|exact (kE_dec N)|exact (kM_dec N)]. Qed.
Lemma bB_own_dec g w : {bB_own S N g w} + {~ bB_own S N g w}.
Proof. destruct w; cbn; try (right; tauto); apply in_dec; first [exact (kX_dec N)|exact (kE_dec N)|exact (kM_dec N)]. Qed.

Lemma f_phase A oQ sw sto si vis lg M M' fam : Permutation (svisits S N K P0 (fpml_b S K P0 pw) (fpml_e S K P0 pw) A) vis ->
  launch_phase S N K C_dec P0 NS A (fun it => g_fcell S N K P0 oQ (U (fst it)) (fpml_b S K P0 pw) (fpml_e S K P0 pw) sw (fst it) sto si (snd it)) M M' ->
  ginv sw lg M fam -> ginv sw lg M' (fun k => (fold_left (f_cell S N K P0 (U k) sto si) vis (fst (fam k)), snd (fam k))).
Proof.
  intros Hv HL HI.
  eapply ginv_peq; [|apply (phase_launch S N K C_dec P0 NS Sok Hk Hsz cnt A sw _ (fpml_b S K P0 pw) (fpml_e S K P0 pw) (f_own S N si) (f_W S N A) (fun k => f_cell S N K P0 (U k) sto si)) with (6 := HL) (7 := HI)].
  - intros k Hk0. split; [|reflexivity]. intros v i Hi. cbn [fst].
    apply (fold_any S N K P0 Sok Hk A (f_cell S N K P0 (U k) sto si) (f_own S N si) (f_W S N A) (fpml_b S K P0 pw) (fpml_e S K P0 pw) (fbounds S K P0 pw Hgeo)).
    + exact (f_h1 S N K P0 (U k) (kc _) Sok Hk (Hu _) A sto si).
    + exact (f_h2 S N K P0 Hk A si).
    + exact (f_h3 S N K P0 (U k) (kc _) pw Sok Hk (Hu _) A sto si vis Hv).
    + exact (f_h4 S N K P0 Sok Hk A sto si).
    + exact (f_own_dec si).
    + exact pos_shape.
    + apply (gvis_perm S N K P0 NS Sok Hk Hsz _ _ (fbounds S K P0 pw Hgeo) A k Hk0).
    + exact Hv.
    + exact Hi.
  - intros k g p Hg _. apply (fcell_foot' S N K P0 Sok Hk _ _ _ sw k g p A oQ sto si Hg).
  - exact (f_h2 S N K P0 Hk A si).
  - exact (f_h4 S N K P0 Sok Hk A sto si).
  - intros k g p M0 m Hg Hd HV. apply (run_fcell S N K C_dec P0 (U k) Sok Hk _ _ sw k g _ p A Hg); [|exact HV]. intros d Hd0. apply tag_pml, Hd0.
  - intros k c m1 m2 Hc Hm v i Hi.
    apply (f_cell_rel S N K K eq (oprel_eq K) P0 P0 (sprel_refl S K P0) (U k) (U k) (HU _) Sok Hk (allv S N) (fun _ => I) (fun _ => I) A sto si c m1 m2 Hc); [|exact I|exact Hi].
    intros v' _ i' Hi'. apply Hm, Hi'.
Qed.

Hypothesis Hroom : sroom S K P0 pw.
Notation bb := (fun d => bbounds S K P0 pw Hgeo d Hroom).
Lemma bA_phase sw fm sr si vis lg M M' fam : Permutation (svisits S N K P0 (bpml_b S K P0 pw) (bpml_e S K P0 pw) true) vis ->
  launch_phase S N K C_dec P0 NS true (fun it => g_bAcell S N K P0 (U (fst it)) (bpml_b S K P0 pw) (bpml_e S K P0 pw) sw (fst it) fm sr si (snd it)) M M' ->
  ginv sw lg M fam -> ginv sw lg M' (fun k => (fold_left (bA_cell S N K P0 (U k) fm sr si) vis (fst (fam k)), snd (fam k))).
Proof.
  intros Hv HL HI.
  eapply ginv_peq; [|apply (phase_launch S N K C_dec P0 NS Sok Hk Hsz cnt true sw _ (bpml_b S K P0 pw) (bpml_e S K P0 pw) (bA_own S N) (bA_W S N) (fun k => bA_cell S N K P0 (U k) fm sr si)) with (6 := HL) (7 := HI)].
  - intros k Hk0. split; [|reflexivity]. intros v i Hi. cbn [fst].
    apply (fold_any S N K P0 Sok Hk true (bA_cell S N K P0 (U k) fm sr si) (bA_own S N) (bA_W S N) (bpml_b S K P0 pw) (bpml_e S K P0 pw) bb).
    + exact (bA_h1 S N K P0 (U k) (kc _) Sok Hk (Hu _) fm sr si).
    + exact (bA_h2 S N K P0 Hk).
    + exact (bA_h3 S N K P0 (U k) (kc _) Sok Hk (Hu _) fm sr si).
    + exact (bA_h4 S N K P0 Sok Hk).
    + exact bA_own_dec.
    + exact pos_shape.
    + apply (gvis_perm S N K P0 NS Sok Hk Hsz _ _ bb true k Hk0).
    + exact Hv.
    + exact Hi.
  - intros k g p Hg _. apply (bAcell_foot S N K P0 Sok Hk _ _ _ sw k g p fm sr si Hg).
  - exact (bA_h2 S N K P0 Hk).
  - exact (bA_h4 S N K P0 Sok Hk).
  - intros k g p M0 m Hg Hd HV. apply (run_bAcell S N K C_dec P0 (U k) (kc _) Sok Hk (Hu _) _ _ sw k g _ p true Hg); [|exact HV]. intros d Hd0. apply tag_pml, Hd0.
  - intros k c m1 m2 Hc Hm v i Hi.
    apply (bA_cell_rel S N K K eq (oprel_eq K) P0 P0 (sprel_refl S K P0) (U k) (U k) (HU _) Sok Hk (allv S N) (fun _ => I) (fun _ => I)) with (A := true) (m1 := m1) (m2 := m2); try exact I; try exact Hc; try exact Hi; try (intros; exact I).
    intros v' _ i' Hi'. apply Hm, Hi'.
Qed.
Lemma bB_phase oM sw fm sr si vis lg M M' fam : Permutation (svisits S N K P0 (bpml_b S K P0 pw) (bpml_e S K P0 pw) false) vis ->
  launch_phase S N K C_dec P0 NS false (fun it => g_bBcell S N K P0 oM (U (fst it)) (bpml_b S K P0 pw) (bpml_e S K P0 pw) sw (fst it) fm sr si (snd it)) M M' ->
  ginv sw lg M fam -> ginv sw lg M' (fun k => (fold_left (bB_cell S N K P0 (U k) fm sr si) vis (fst (fam k)), snd (fam k))).
Proof.
  intros Hv HL HI.
  eapply ginv_peq; [|apply (phase_launch S N K C_dec P0 NS Sok Hk Hsz cnt false sw _ (bpml_b S K P0 pw) (bpml_e S K P0 pw) (bB_own S N) (bB_W S N) (fun k => bB_cell S N K P0 (U k) fm sr si)) with (6 := HL) (7 := HI)].
  - intros k Hk0. split; [|reflexivity]. intros v i Hi. cbn [fst].
    apply (fold_any S N K P0 Sok Hk false (bB_cell S N K P0 (U k) fm sr si) (bB_own S N) (bB_W S N) (bpml_b S K P0 pw) (bpml_e S K P0 pw) bb).
    + exact (bB_h1 S N K P0 (U k) (kc _) Sok Hk (Hu _) fm sr si).
    + exact (bB_h2 S N K P0 Hk).
    + exact (bB_h3 S N K P0 (U k) (kc _) Sok Hk (Hu _) fm sr si).
    + exact (bB_h4 S N K P0 Sok Hk).
    + exact bB_own_dec.
    + exact pos_shape.
    + apply (gvis_perm S N K P0 NS Sok Hk Hsz _ _ bb false k Hk0).
    + exact Hv.
    + exact Hi.
  - intros k g p Hg _. apply (bBcell_foot S N K P0 Sok Hk _ _ _ sw k g p oM fm sr si Hg).
  - exact (bB_h2 S N K P0 Hk).
  - exact (bB_h4 S N K P0 Sok Hk).
  - intros k g p M0 m Hg Hd HV. apply (run_bBcell S N K C_dec P0 (U k) (kc _) Sok Hk (Hu _) _ _ sw k g _ p false Hg); [|exact HV]. intros d Hd0. apply tag_pml, Hd0.
  - intros k c m1 m2 Hc Hm v i Hi.
    apply (bB_cell_rel S N K K eq (oprel_eq K) P0 P0 (sprel_refl S K P0) (U k) (U k) (HU _) Sok Hk (allv S N) (fun _ => I) (fun _ => I)) with (A := false) (m1 := m1) (m2 := m2); try exact I; try exact Hc; try exact Hi; try (intros; exact I).
    intros v' _ i' Hi'. apply Hm, Hi'.
Qed.
End SGPhase.
