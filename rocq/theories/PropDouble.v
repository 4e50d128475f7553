(** * Properties C37 and C38: double backward of the scalar propagator. *)
From Coq Require Import List ZArith QArith Qcanon Lia Permutation.
From Verif Require Import Ops Sums Grid Stencil DualNum ScalarModel ScalarRefine ScalarForward
  ScalarBackward ScalarAdjoint ScalarFunc ScalarApi ScalarGrad ScalarEx BornModel BornEx DoubleModel DoubleBack DoubleStore DoubleEx.
Import ListNotations.
Local Open Scope K_scope.

(** C37: the first gradients [(gv, gf, G0)], computed from perturbed inputs (wavespeed, sources,
    initial wavefields, upstream gradients), are paired with directions [(ggv, ggf, ggu)].  The eps
    part of that number is what the double backward pass returns, paired with the perturbations.
    Every step is stored. *)
Theorem C37_double_backward_exact (K : ops) (Kr : is_ring K) (P : par K) (pw : nat -> Z * Z) :
  geom_ok K P pw -> Forall (loc_ok K P) (p_src P) -> Forall (loc_ok K P) (p_rec P) ->
  forall (V : arr (dual K)) (F : Z -> list (dual K)) (U g : st (dual K)) (gr : Z -> list (dual K))
    (ggv : arr K) (ggf : Z -> list K) (ggu : st K) nt visF1 visB1 visF visB cb1 cb2 sto1 w0 wsc0,
  oq K (inject_Z 1) = 1 ->
  (forall t, length (ggf t) = length (F t)) ->
  (0 <= nt)%Z -> cb_ok nt 1 cb1 -> cb_ok nt 1 cb2 ->
  fvis K P pw visF1 -> bvis K P pw visB1 -> fvis K P pw visF -> bvis K P pw visB ->
  exists U1 R1 S1 G0 gf gv,
    scalar_forward (dual K) (dpar P) pw V visF1 true 1 F nt cb1 sto1 U = Some (U1, R1, S1) /\
    scalar_backward (dual K) (dpar P) pw V visB1 S1 true 1 gr nt cb2 g = Some (G0, gf, gv) /\
    let D := scalar_double_backward K P pw (are V) ggv visF visB true 1 (fun t => lre (F t)) ggf nt w0 wsc0 (sre U) ggu
               (fun t => lre (gr t)) (sre g) in
    adot (prodZ (p_shape P)) ggv (aep gv) + tdot nt ggf (fun t => lep (gf t)) + udot K P ggu (sep G0)
    = tdot nt (db_r K D) (fun t => lep (gr t)) + udot K P (db_g K D) (sep g)
      + adot (prodZ (p_shape P)) (db_v K D) (aep V) + tdot nt (db_f K D) (fun t => lep (F t)) + udot K P (db_u K D) (sep U).
Proof. exact (double_backward_exact K Kr P pw). Qed.
Print Assumptions C37_double_backward_exact.

(** The hypotheses hold for the example, and each part of the derivative there is not zero. *)
Example C37_example : exists U1 R1 S1 G0 gf gv,
  scalar_forward (dual Qc_ops) (dpar exP) expw ex_V ex_visF true 1 ex_DF 3 None (fun _ _ => o0 (dual Qc_ops)) ex_DU = Some (U1, R1, S1) /\
  scalar_backward (dual Qc_ops) (dpar exP) expw ex_V ex_visB S1 true 1 exd_gr 3 (Some 1%Z) exd_g = Some (G0, gf, gv) /\
  adot (K := Qc_ops) 8 exb_scat (aep gv) <> qz 0 /\ tdot (K := Qc_ops) 3 exd_ggf (fun t => lep (gf t)) <> qz 0 /\
  udot Qc_ops exP exb_usc (sep G0) <> qz 0.
Proof.
  destruct (C37_double_backward_exact Qc_ops Qc_is_ring exP expw ex_geom ex_src ex_rec
    ex_V ex_DF ex_DU exd_g exd_gr exb_scat exd_ggf exb_usc 3 ex_visF ex_visB ex_visF ex_visB None (Some 1%Z)
    (fun _ _ => o0 (dual Qc_ops)) (fun _ _ => o0 Qc_ops) (fun _ _ => o0 Qc_ops))
    as (U1 & R1 & S1 & G0 & gf & gv & E1 & E2 & _);
    try (cbn; lia); try apply Permutation_refl; try reflexivity.
  exists U1, R1, S1, G0, gf, gv. split; [exact E1|]. split; [exact E2|].
  assert (H : match scalar_forward (dual Qc_ops) (dpar exP) expw ex_V ex_visF true 1 ex_DF 3 None (fun _ _ => o0 (dual Qc_ops)) ex_DU with
    | Some (_, _, S1) => match scalar_backward (dual Qc_ops) (dpar exP) expw ex_V ex_visB S1 true 1 exd_gr 3 (Some 1%Z) exd_g with
      | Some (G0, gf, gv) => (nz (adot (K := Qc_ops) 8 exb_scat (aep gv)) && nz (tdot (K := Qc_ops) 3 exd_ggf (fun t => lep (gf t)))
         && nz (udot Qc_ops exP exb_usc (sep G0)))%bool
      | None => false end | None => false end = true) by (vm_compute; reflexivity).
  rewrite E1, E2 in H. apply andb_prop in H. destruct H as [H H3]. apply andb_prop in H. destruct H as [H1 H2].
  repeat split; apply nz_spec; assumption.
Qed.

(** C37 fails when the gradient sampling interval does not divide the number of steps: the first
    backward pass stops at the last multiple, its result does not depend on the later receiver
    gradients, yet the double backward pass runs all steps and returns a nonzero derivative with
    respect to them. *)
Theorem C37_truncated_refuted : exists (K : ops) (P : par K) pw (v ggv : arr K) visF visB (sr nt : Z) f ggf w0 u ggu gr g,
  is_ring K /\ geom_ok K P pw /\ Forall (loc_ok K P) (p_src P) /\ Forall (loc_ok K P) (p_rec P) /\
  fvis K P pw visF /\ bvis K P pw visB /\ (0 < sr)%Z /\ (0 < nt)%Z /\
  (forall sto gr', (forall t, t <> (nt - 1)%Z -> gr t = gr' t) ->
   exists U1 f1 g1 U2 f2 g2,
     scalar_backward K P pw v visB sto true sr gr nt None g = Some (U1, f1, g1) /\
     scalar_backward K P pw v visB sto true sr gr' nt None g = Some (U2, f2, g2) /\
     ueq K P U1 U2 /\ (forall i, (0 <= i < prodZ (p_shape P))%Z -> g1 i = g2 i) /\
     (forall t, (0 <= t < nt / sr * sr)%Z -> f1 t = f2 t)) /\
  nth 0 (db_r K (scalar_double_backward K P pw v ggv visF visB true sr f ggf nt w0 w0 u ggu gr g) (nt - 1)%Z) 0 <> 0.
Proof.
  exists Qc_ops, exP, expw, ex_v, exb_scat, ex_visF, ex_visB, 2%Z, 3%Z, ex_F, exd_ggf, (fun _ _ => qz 0), ex_U, exb_usc, ex_gr, ex_G.
  split; [exact Qc_is_ring|]. split; [exact ex_geom|]. split; [exact ex_src|]. split; [exact ex_rec|].
  split; [apply Permutation_refl|]. split; [apply Permutation_refl|]. split; [lia|]. split; [lia|]. split.
  - intros sto gr' Hg'.
    pose proof (backward_ignores_tail Qc_ops exP expw ex_geom ex_src ex_rec ex_v ex_visB sto true 2 ex_gr gr' 3 None ex_G
      (Permutation_refl _) ltac:(lia) ltac:(lia) ltac:(cbn; lia)
      ltac:(intros t Ht; apply Hg'; change (3 / 2 * 2)%Z with 2%Z in Ht; lia)) as X.
    destruct (scalar_backward Qc_ops exP expw ex_v ex_visB sto true 2 ex_gr 3 None ex_G) as [[[U1 f1] g1]|] eqn:E1;
      destruct (scalar_backward Qc_ops exP expw ex_v ex_visB sto true 2 gr' 3 None ex_G) as [[[U2 f2] g2]|]; try contradiction.
    + exists U1, f1, g1, U2, f2, g2. destruct X as (X1 & X2 & X3). repeat (split; [reflexivity || assumption|]). exact X2.
    + discriminate E1.
  - apply nz_spec. vm_compute. reflexivity.
Qed.
Print Assumptions C37_truncated_refuted.

(** C38, writes: [nt / sr] slots are allocated (common.py:187); when [sr] divides [nt] no other
    slot of either buffer is written. *)
Theorem C38_writes_inside_partial (K : ops) (P : par K) (pw : nat -> Z * Z)
    (v ggv : arr K) visF visB vrg sr f ggf nt w0 wsc0 u ggu gr g :
  (0 < sr)%Z -> (nt mod sr = 0)%Z ->
  let D := scalar_double_backward K P pw v ggv visF visB vrg sr f ggf nt w0 wsc0 u ggu gr g in
  forall s, ~ (0 <= s < nt / sr)%Z -> db_w K D s = w0 s /\ db_wsc K D s = wsc0 s.
Proof. exact (double_writes_inside K P pw v ggv visF visB vrg sr f ggf nt w0 wsc0 u ggu gr g). Qed.
Print Assumptions C38_writes_inside_partial.

(** C38, reads: ... and the second half does not depend on any other slot. *)
Theorem C38_reads_inside_partial (K : ops) (P : par K) (pw : nat -> Z * Z)
    (v ggv : arr K) vis vrg sr gr nt g (w w' wsc wsc' : Z -> arr K) :
  (0 < sr)%Z -> (nt mod sr = 0)%Z ->
  (forall s, (0 <= s < nt / sr)%Z -> w s = w' s /\ wsc s = wsc' s) ->
  db_backward K P pw v ggv vis w wsc vrg sr gr nt g = db_backward K P pw v ggv vis w' wsc' vrg sr gr nt g.
Proof. exact (double_reads_inside K P pw v ggv vis vrg sr gr nt g w w' wsc wsc'). Qed.
Print Assumptions C38_reads_inside_partial.

(** Slot 1 of 2 is used, slots 2 and -1 are not. *)
Example C38_example :
  db_w _ (exd_run 4 2 (fun _ _ => qz 0)) 2 = (fun _ => qz 0) /\ db_w _ (exd_run 4 2 (fun _ _ => qz 0)) (-1) = (fun _ => qz 0) /\
  db_w _ (exd_run 4 2 (fun _ _ => qz 0)) 1 3%Z <> qz 0.
Proof.
  pose proof (C38_writes_inside_partial Qc_ops exP expw ex_v exb_scat ex_visF ex_visB true 2 ex_F exd_ggf 4 (fun _ _ => qz 0) (fun _ _ => qz 0)
    ex_U exb_usc ex_gr ex_G ltac:(lia) eq_refl) as X.
  split; [exact (proj1 (X 2%Z ltac:(change (4 / 2)%Z with 2%Z; lia)))|].
  split; [exact (proj1 (X (-1)%Z ltac:(change (4 / 2)%Z with 2%Z; lia)))|].
  apply nz_spec. vm_compute. reflexivity.
Qed.

(** C38 is false in general: 3 steps with interval 2, one slot is allocated, slot 1 is written, and
    read (the returned gradient changes with its content). *)
Theorem C38_refuted :
  let D := exd_run 3 2 (fun _ _ => qz 0) in
  (3 / 2 = 1)%Z /\ db_w _ D 1 3%Z <> qz 0 /\
  exists w', (forall s, (s <> 1)%Z -> w' s = db_w _ D s) /\
    g_v _ (h_bg _ (db_backward Qc_ops exP expw ex_v exb_scat ex_visB w' (db_wsc _ D) true 2 ex_gr 3 ex_G)) 3%Z <> db_v _ D 3%Z.
Proof.
  intros D. split; [reflexivity|]. split; [apply nz_spec; vm_compute; reflexivity|].
  exists (fun s => if (s =? 1)%Z then (fun _ => qz 0) else db_w _ D s).
  split; [intros s Hs; apply Z.eqb_neq in Hs; rewrite Hs; reflexivity|].
  assert (H : (fun D => let w := db_w _ D in nz (g_v _ (h_bg _ (db_backward Qc_ops exP expw ex_v exb_scat ex_visB
     (fun s => if (s =? 1)%Z then (fun _ => qz 0) else w s) (db_wsc _ D) true 2 ex_gr 3 ex_G)) 3%Z - db_v _ D 3%Z)%Qc)
     (exd_run 3 2 (fun _ _ => qz 0)) = true) by (vm_compute; reflexivity).
  intros X. apply nz_spec in H. cbv beta zeta in H. change (exd_run 3 2 (fun _ _ => qz 0)) with D in H. apply H. refine (eq_trans (f_equal (fun z : Qc => (z - db_v _ D 3%Z)%Qc) X) _). apply Qcplus_opp_r.
Qed.
Print Assumptions C38_refuted.
