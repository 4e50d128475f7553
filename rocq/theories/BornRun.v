(** * Runs of the Born propagator (proofs): the theorems about runs of the scalar propagator, over
    dual numbers, are theorems about [born_forward]. *)
From Coq Require Import List ZArith QArith Ring Ring_theory Lia Bool Permutation.
From Verif Require Import Ops Sums Grid Stencil DualNum ScalarModel ScalarRefine ScalarForward
  ScalarBackward ScalarAdjoint ScalarFunc ScalarApi ScalarGrad ScalarMore ScalarMore2 ScalarPhys
  ScalarReach ScalarUser Safety Param BornModel BornSim BornBack BornThm BornPy.
Import ListNotations.
Local Open Scope K_scope.

Local Arguments d1 : simpl never.
Local Arguments d2 : simpl never.
Local Arguments gather : simpl never.

(** ** Scalar runs from pointwise equal initial wavefields and sources *)
Section Ext.
Variable K : ops.
Hypothesis Kr : is_ring K.
Variable P : par K.
Variable pw : nat -> Z * Z.
Hypothesis Hg : geom_ok K P pw.
Hypothesis Hsrc : Forall (loc_ok K P) (p_src P).
Hypothesis Hrec : Forall (loc_ok K P) (p_rec P).

Lemma forward_ext v f f' u u' nt sr vis1 vis2 vrg1 vrg2 cb1 cb2 st1 st2 U1 R1 S1 U2 R2 S2 :
  fvis K P pw vis1 -> fvis K P pw vis2 -> (0 < sr)%Z -> cb_ok nt sr cb1 -> cb_ok nt sr cb2 ->
  (forall t, (0 <= t < nt)%Z -> f t = f' t) ->
  (forall q, s_wfc K u q = s_wfc K u' q /\ s_wfp K u q = s_wfp K u' q) ->
  (forall d q, s_psi K u d q = s_psi K u' d q /\ s_zeta K u d q = s_zeta K u' d q) ->
  scalar_forward K P pw v vis1 vrg1 sr f nt cb1 st1 u = Some (U1, R1, S1) ->
  scalar_forward K P pw v vis2 vrg2 sr f' nt cb2 st2 u' = Some (U2, R2, S2) ->
  ueq K P U1 U2 /\ (forall t, R1 t = R2 t).
Proof.
  intros V1 V2 Hs C1 C2 Hf Hu Hd E1 E2.
  destruct (fwd_out K Kr P pw Hg Hsrc Hrec _ _ _ _ _ _ _ _ _ _ _ _ V1 Hs C1 E1) as (A1 & A2 & A3 & _).
  destruct (fwd_out K Kr P pw Hg Hsrc Hrec _ _ _ _ _ _ _ _ _ _ _ _ V2 Hs C2 E2) as (B1 & B2 & B3 & _).
  assert (Hi : steq (length (p_shape P)) (uinit K P pw u) (uinit K P pw u')).
  { apply (uinit_ueq K P pw). intros q _. destruct (Hu q) as [-> ->]. split; [reflexivity|]. split; [reflexivity|]. intros d _. apply Hd. }
  assert (HE : forall k, (k <= nsteps nt sr)%nat ->
     steq (length (p_shape P)) (state K P (fun _ p => v (idx (p_shape P) p)) f k 0 (uinit K P pw u))
       (state K P (fun _ p => v (idx (p_shape P) p)) f' k 0 (uinit K P pw u'))).
  { intros k Hk. apply (state_ext_f K P); [reflexivity| |exact Hi].
    intros t Ht. apply Hf. unfold nsteps in Hk.
    assert (0 <= nt / sr * sr)%Z by (assert (0 < k)%nat by lia; lia).
    pose proof (Z.mul_div_le nt sr Hs). lia. }
  split.
  - eapply ueq_trans; [exact A1|]. apply ueq_sym. eapply ueq_trans; [exact B1|]. apply ueq_sym.
    destruct (HE _ (le_n _)) as (H1 & H2 & H3 & H4). intros q Hq. cbn. rewrite H1, H2.
    split; [reflexivity|]. split; [reflexivity|]. intros d Hd'. rewrite (H3 d _ Hd'), (H4 d _ Hd'). split; reflexivity.
  - eapply (R_eq K P); [reflexivity| | exact A2 | exact A3 | exact B2 | exact B3].
    intros k Hk. unfold rec_amps. apply (gather_ext K P). intros p. destruct (HE k) as (H1 & _); [lia|]. apply H1.
Qed.
End Ext.

(** ** The bridge *)
Section Bridge.
Variable K : ops.
Hypothesis Kr : is_ring K.

(** A pair of Born outputs is a dual number output. *)
Definition bdual (P : par K) (B : born_out K) (U : st (dual K)) (R : Z -> list (dual K)) : Prop :=
  (forall q, s_wfc _ U q = (s_wfc K (bo_u K B) q, s_wfc K (bo_usc K B) q) /\
             s_wfp _ U q = (s_wfp K (bo_u K B) q, s_wfp K (bo_usc K B) q)) /\
  (forall d q, s_psi _ U d q = (s_psi K (bo_u K B) d q, s_psi K (bo_usc K B) d q) /\
               s_zeta _ U d q = (s_zeta K (bo_u K B) d q, s_zeta K (bo_usc K B) d q)) /\
  (forall t, bo_r K B t = firstn (length (p_rec P)) (lre (R t))) /\
  (forall t, bo_rsc K B t = skipn (length (p_rec P)) (lep (R t))).

(** Same receiver data and same wavefields. *)
Definition bsame (P : par K) (B1 B2 : born_out K) : Prop :=
  ueq K P (bo_u K B1) (bo_u K B2) /\ ueq K P (bo_usc K B1) (bo_usc K B2) /\
  (forall t, bo_r K B1 t = bo_r K B2 t) /\ (forall t, bo_rsc K B1 t = bo_rsc K B2 t).

Lemma bdual_ueq P recsc B1 B2 U1 U2 R1 R2 : bdual P B1 U1 R1 -> bdual P B2 U2 R2 ->
  ueq (dual K) (dpar (P2 K P recsc)) U1 U2 -> ueq K P (bo_u K B1) (bo_u K B2) /\ ueq K P (bo_usc K B1) (bo_usc K B2).
Proof.
  intros (A1 & A2 & _) (B3 & B4 & _) H.
  split; intros q Hq; destruct (H q Hq) as (X1 & X2 & X3); destruct (A1 q) as [Y1 Y2]; destruct (B3 q) as [Y3 Y4];
    rewrite Y1, Y3 in X1; rewrite Y2, Y4 in X2; injection X1 as E1 E2; injection X2 as E3 E4;
    (split; [assumption|]); (split; [assumption|]); intros d Hd; destruct (X3 d Hd) as [X5 X6];
    destruct (A2 d q) as [Z1 Z2]; destruct (B4 d q) as [Z3 Z4]; rewrite Z1, Z3 in X5; rewrite Z2, Z4 in X6;
    injection X5 as F1 F2; injection X6 as F3 F4; split; assumption.
Qed.

Lemma bdual_same P recsc B1 B2 U1 U2 R1 R2 : bdual P B1 U1 R1 -> bdual P B2 U2 R2 ->
  ueq (dual K) (dpar (P2 K P recsc)) U1 U2 -> (forall t, R1 t = R2 t) -> bsame P B1 B2.
Proof.
  intros D1 D2 H HR. destruct (bdual_ueq P recsc _ _ _ _ _ _ D1 D2 H) as [X1 X2].
  destruct D1 as (_ & _ & A3 & A4). destruct D2 as (_ & _ & B3 & B4).
  split; [exact X1|]. split; [exact X2|]. split; intros t; rewrite ?A3, ?B3, ?A4, ?B4, HR; reflexivity.
Qed.

Lemma born_dual P recsc pw v scatter f fsc nt sr vis vrg srg cb w0 wsc0 u usc :
  (forall t, length (fsc t) = length (f t)) ->
  let D := dstore K P v scatter w0 wsc0 in
  match born_forward K P recsc pw v scatter vis vrg srg sr f fsc nt cb w0 wsc0 u usc,
        scalar_forward (dual K) (dpar (P2 K P recsc)) pw (perturb v scatter) vis true sr
          (fun t => dlist (f t) (fsc t)) nt cb D (dstate u usc) with
  | Some B, Some (U, R, _) => bdual P B U R
  | None, None => True
  | _, _ => False
  end.
Proof.
  intros Hl D.
  pose proof (born_forward_sim K Kr P recsc v scatter vrg srg vis sr (fun t => dlist (f t) (fsc t)) f fsc
     ltac:(intros; symmetry; apply lre_dlist; auto) ltac:(intros; symmetry; apply lep_dlist; auto) pw nt cb w0 wsc0
     D (dstate u usc) (dstore_rel K Kr P v scatter vrg srg w0 wsc0)) as H.
  change (born_forward K P recsc pw v scatter vis vrg srg sr f fsc nt cb w0 wsc0 (sre (dstate u usc)) (sep (dstate u usc)))
    with (born_forward K P recsc pw v scatter vis vrg srg sr f fsc nt cb w0 wsc0 u usc) in H.
  destruct (born_forward _ _ _ _ _ _ _ _ _ _ _ _ _ _ _ _ _ _) as [B|], (scalar_forward _ _ _ _ _ _ _ _ _ _ _ _) as [[[U R] ?]|]; auto.
  destruct H as (B1 & B2 & B3 & B4 & B5 & _).
  split; [auto|]. split; [auto|].
  split; intros t; destruct (B5 t) as (Ra & Rb & E1 & E2 & E3 & E4); rewrite E1; [rewrite E3|rewrite E4]; unfold lre, lep;
    rewrite map_app, <- E2; [rewrite <- (map_length fst Ra) at 1 | rewrite <- (map_length snd Ra) at 1];
    [rewrite firstn_app, Nat.sub_diag, firstn_all; cbn; rewrite app_nil_r | rewrite skipn_app, Nat.sub_diag, skipn_all; cbn]; reflexivity.
Qed.

Lemma born_dual_some P recsc pw v scatter f fsc nt sr vis vrg srg cb w0 wsc0 u usc B :
  (forall t, length (fsc t) = length (f t)) ->
  born_forward K P recsc pw v scatter vis vrg srg sr f fsc nt cb w0 wsc0 u usc = Some B ->
  exists U R S,
    scalar_forward (dual K) (dpar (P2 K P recsc)) pw (perturb v scatter) vis true sr
      (fun t => dlist (f t) (fsc t)) nt cb (dstore K P v scatter w0 wsc0) (dstate u usc) = Some (U, R, S) /\
    bdual P B U R.
Proof.
  intros Hl E. pose proof (born_dual P recsc pw v scatter f fsc nt sr vis vrg srg cb w0 wsc0 u usc Hl) as H.
  cbv zeta in H. rewrite E in H. destruct (scalar_forward _ _ _ _ _ _ _ _ _ _ _ _) as [[[U R] ?]|]; [|contradiction]. eauto.
Qed.
Lemma born_of_dual P recsc pw v scatter f fsc nt sr vis vrg srg cb w0 wsc0 u usc U R S :
  (forall t, length (fsc t) = length (f t)) ->
  scalar_forward (dual K) (dpar (P2 K P recsc)) pw (perturb v scatter) vis true sr
      (fun t => dlist (f t) (fsc t)) nt cb (dstore K P v scatter w0 wsc0) (dstate u usc) = Some (U, R, S) ->
  exists B, born_forward K P recsc pw v scatter vis vrg srg sr f fsc nt cb w0 wsc0 u usc = Some B /\ bdual P B U R.
Proof.
  intros Hl E. pose proof (born_dual P recsc pw v scatter f fsc nt sr vis vrg srg cb w0 wsc0 u usc Hl) as H.
  cbv zeta in H. rewrite E in H. destruct (born_forward _ _ _ _ _ _ _ _ _ _ _ _ _ _ _ _ _ _) as [B|]; [|contradiction]. eauto.
Qed.
End Bridge.

Section Run.
Variable K : ops.
Hypothesis Kr : is_ring K.
Add Ring KRing : Kr.
Variable P : par K.
Variable recsc : list Z.
Variable pw : nat -> Z * Z.
Notation shape := (p_shape P).
Notation nd := (length shape).
Hypothesis Hg : geom_ok K P pw.
Hypothesis Hsrc : Forall (loc_ok K P) (p_src P).
Hypothesis Hrec : Forall (loc_ok K P) (p_rec P).
Hypothesis Hrecsc : Forall (loc_ok K P) recsc.
Notation PB := (P2 K P recsc).
Notation DPB := (dpar PB).
Notation BF := (born_forward K P recsc pw).
Notation Dr := (dual_is_ring K Kr).

Let DHg : geom_ok (dual K) DPB pw := geom_dual K Kr PB pw (geom_2 K P recsc pw Hg).
Let DHsrc : Forall (loc_ok (dual K) DPB) (p_src DPB) := Hsrc.
Let DHrec : Forall (loc_ok (dual K) DPB) (p_rec DPB) := rec_2 K P recsc Hrec Hrecsc.

Lemma born_exists v scatter f fsc u usc nt sr vis vrg srg cb w0 wsc0 :
  (forall t, length (fsc t) = length (f t)) -> fvis K P pw vis -> (0 < sr)%Z -> cb_ok nt sr cb ->
  exists B, BF v scatter vis vrg srg sr f fsc nt cb w0 wsc0 u usc = Some B.
Proof.
  intros Hl V Hs C.
  destruct (born_forward_spec K Kr P recsc pw Hg Hsrc Hrec Hrecsc v scatter vis vrg srg sr (fun t => dlist (f t) (fsc t)) f fsc nt cb w0 wsc0 u usc V Hs C
    ltac:(intros; symmetry; apply lre_dlist; auto) ltac:(intros; symmetry; apply lep_dlist; auto)) as (B & E & _). eauto.
Qed.

(** C09: the outputs depend on the model, the sources and the initial wavefields only: not on
    callbacks, visiting order, storage. *)
Lemma born_same v scatter f fsc u usc nt sr vis1 vis2 vrg1 srg1 vrg2 srg2 cb1 cb2 w1 x1 w2 x2 B1 B2 :
  (forall t, length (fsc t) = length (f t)) ->
  fvis K P pw vis1 -> fvis K P pw vis2 -> (0 < sr)%Z -> cb_ok nt sr cb1 -> cb_ok nt sr cb2 ->
  BF v scatter vis1 vrg1 srg1 sr f fsc nt cb1 w1 x1 u usc = Some B1 ->
  BF v scatter vis2 vrg2 srg2 sr f fsc nt cb2 w2 x2 u usc = Some B2 ->
  bsame K P B1 B2.
Proof.
  intros Hl V1 V2 Hs C1 C2 E1 E2.
  destruct (born_dual_some K Kr _ _ _ _ _ _ _ _ _ _ _ _ _ _ _ _ _ _ Hl E1) as (U1 & R1 & S1 & F1 & D1).
  destruct (born_dual_some K Kr _ _ _ _ _ _ _ _ _ _ _ _ _ _ _ _ _ _ Hl E2) as (U2 & R2 & S2 & F2 & D2).
  destruct (forward_same (dual K) Dr DPB pw DHg DHsrc DHrec _ _ _ _ _ _ _ _ _ _ _ _ _ _ _ _ _ _ _ V1 V2 Hs C1 C2 F1 F2) as (X1 & X2 & _).
  exact (bdual_same K P recsc _ _ _ _ _ _ D1 D2 X1 X2).
Qed.

Lemma born_callbacks_passive v scatter f fsc u usc nt sr c vis vrg srg w0 wsc0 :
  (forall t, length (fsc t) = length (f t)) ->
  fvis K P pw vis -> (0 < sr)%Z -> (0 < c)%Z -> (nt = 0 \/ sr <= nt)%Z ->
  exists B B',
    BF v scatter vis vrg srg sr f fsc nt None w0 wsc0 u usc = Some B /\
    BF v scatter vis vrg srg sr f fsc nt (Some c) w0 wsc0 u usc = Some B' /\
    ueq K P (bo_u K B) (bo_u K B') /\ ueq K P (bo_usc K B) (bo_usc K B') /\
    (forall t, bo_r K B t = bo_r K B' t) /\ (forall t, bo_rsc K B t = bo_rsc K B' t).
Proof.
  intros Hl V Hs Hc Hn.
  assert (C1 : cb_ok nt sr None) by (cbn; lia). assert (C2 : cb_ok nt sr (Some c)) by (cbn; lia).
  destruct (born_exists v scatter f fsc u usc nt sr vis vrg srg None w0 wsc0 Hl V Hs C1) as [B E].
  destruct (born_exists v scatter f fsc u usc nt sr vis vrg srg (Some c) w0 wsc0 Hl V Hs C2) as [B' E'].
  exists B, B'. split; [exact E|]. split; [exact E'|].
  exact (born_same _ _ _ _ _ _ _ _ _ _ _ _ _ _ _ _ _ _ _ _ _ _ Hl V V Hs C1 C2 E E').
Qed.

(** C12 *)
Lemma born_truncated v scatter f fsc u usc nt sr vis1 vis2 vrg1 srg1 vrg2 srg2 cb1 cb2 w1 x1 w2 x2 B1 B2 :
  (forall t, length (fsc t) = length (f t)) ->
  fvis K P pw vis1 -> fvis K P pw vis2 -> (0 < sr)%Z -> (0 <= nt)%Z -> cb_ok nt sr cb1 -> cb_ok (nt / sr * sr) 1 cb2 ->
  BF v scatter vis1 vrg1 srg1 sr f fsc nt cb1 w1 x1 u usc = Some B1 ->
  BF v scatter vis2 vrg2 srg2 1 f fsc (nt / sr * sr) cb2 w2 x2 u usc = Some B2 ->
  bsame K P B1 B2.
Proof.
  intros Hl V1 V2 Hs Hn C1 C2 E1 E2.
  destruct (born_dual_some K Kr _ _ _ _ _ _ _ _ _ _ _ _ _ _ _ _ _ _ Hl E1) as (U1 & R1 & S1 & F1 & D1).
  destruct (born_dual_some K Kr _ _ _ _ _ _ _ _ _ _ _ _ _ _ _ _ _ _ Hl E2) as (U2 & R2 & S2 & F2 & D2).
  destruct (forward_truncated (dual K) Dr DPB pw DHg DHsrc DHrec _ _ _ _ _ _ _ _ _ _ _ _ _ _ _ _ _ _ _ V1 V2 Hs Hn C1 C2 F1 F2) as (X1 & X2).
  exact (bdual_same K P recsc _ _ _ _ _ _ D1 D2 X1 X2).
Qed.

Lemma born_short_raises v scatter f fsc u usc nt sr vis vrg srg w0 wsc0 :
  (0 < nt < sr)%Z -> BF v scatter vis vrg srg sr f fsc nt None w0 wsc0 u usc = None.
Proof.
  intros H. unfold born_forward, n_fwd_driver. destruct (Z.leb_spec nt 0); [lia|].
  rewrite Z.div_small by lia. reflexivity.
Qed.

Lemma born_all_steps v scatter f fsc u usc nt sr vis vis1 vrg srg vrg1 srg1 cb cb1 w0 x0 w1 x1 :
  (forall t, length (fsc t) = length (f t)) ->
  fvis K P pw vis -> fvis K P pw vis1 -> (0 < sr)%Z -> (0 <= nt)%Z -> (nt mod sr = 0)%Z ->
  cb_ok nt sr cb -> cb_ok nt 1 cb1 ->
  exists B B1,
    BF v scatter vis vrg srg sr f fsc nt cb w0 x0 u usc = Some B /\
    BF v scatter vis1 vrg1 srg1 1 f fsc nt cb1 w1 x1 u usc = Some B1 /\
    bsame K P B B1 /\
    (forall t, (0 <= t < nt)%Z -> exists Bt,
       BF v scatter vis1 vrg1 srg1 1 f fsc t None w1 x1 u usc = Some Bt /\
       bo_r K B t = at_receivers P (s_wfc K (bo_u K Bt)) /\
       bo_rsc K B t = at_receivers (withrec P recsc) (s_wfc K (bo_usc K Bt))).
Proof.
  intros Hl V V1 Hs Hn Hm C C1.
  destruct (all_steps (dual K) Dr DPB pw DHg DHsrc DHrec (perturb v scatter) (fun t => dlist (f t) (fsc t)) (dstate u usc) nt sr vis vis1
    true true cb cb1 (dstore K P v scatter w0 x0) (dstore K P v scatter w1 x1) V V1 Hs Hn Hm C C1) as (U & R & S & U1 & R1 & S1 & F & F1 & X1 & X2 & X3).
  destruct (born_of_dual K Kr P recsc pw v scatter f fsc nt sr vis vrg srg cb w0 x0 u usc _ _ _ Hl F) as (B & E & D).
  destruct (born_of_dual K Kr P recsc pw v scatter f fsc nt 1 vis1 vrg1 srg1 cb1 w1 x1 u usc _ _ _ Hl F1) as (B1 & E1 & D1).
  exists B, B1. split; [exact E|]. split; [exact E1|]. split; [exact (bdual_same K P recsc _ _ _ _ _ _ D D1 X1 X2)|].
  intros t Ht. destruct (X3 t Ht) as (Ut & Rt & St & Ft & HR).
  destruct (born_of_dual K Kr P recsc pw v scatter f fsc t 1 vis1 vrg1 srg1 None w1 x1 u usc _ _ _ Hl Ft) as (Bt & Et & Dt).
  exists Bt. split; [exact Et|].
  destruct D as (_ & _ & Dr1 & Dr2). destruct Dt as (Dw & _). rewrite Dr1, Dr2, HR.
  unfold at_receivers, lre, lep. change (p_rec DPB) with (p_rec P ++ recsc). rewrite !map_app, !map_map.
  split.
  - rewrite <- (map_length (fun x => fst (if (0 <=? x)%Z then s_wfc (dual K) Ut (unpad (dual K) DPB (unidx (p_shape DPB) x)) else o0 (dual K))) (p_rec P)) at 1.
    rewrite firstn_app, Nat.sub_diag, firstn_all. cbn [firstn]. rewrite app_nil_r.
    apply map_ext. intros l. destruct (0 <=? l)%Z; [|reflexivity]. rewrite (proj1 (Dw _)). reflexivity.
  - rewrite <- (map_length (fun x => snd (if (0 <=? x)%Z then s_wfc (dual K) Ut (unpad (dual K) DPB (unidx (p_shape DPB) x)) else o0 (dual K))) (p_rec P)) at 1.
    rewrite skipn_app, Nat.sub_diag, skipn_all. cbn [skipn app]. cbn [withrec p_rec].
    apply map_ext. intros l. destruct (0 <=? l)%Z; [|reflexivity]. rewrite (proj1 (Dw _)). reflexivity.
Qed.

(** C15 *)
Lemma born_restart v scatter f fsc u usc n1 n2 sr vis1 vis2 vis vrg1 srg1 vrg2 srg2 vrg srg cb1 cb2 cb w1 x1 w2 x2 w0 x0 B1 B2 B :
  (forall t, length (fsc t) = length (f t)) ->
  fvis K P pw vis1 -> fvis K P pw vis2 -> fvis K P pw vis -> (0 < sr)%Z -> (0 <= n1)%Z -> (0 <= n2)%Z -> (n1 mod sr = 0)%Z ->
  cb_ok n1 sr cb1 -> cb_ok n2 sr cb2 -> cb_ok (n1 + n2) sr cb ->
  BF v scatter vis1 vrg1 srg1 sr f fsc n1 cb1 w1 x1 u usc = Some B1 ->
  BF v scatter vis2 vrg2 srg2 sr (fun t => f (n1 + t)%Z) (fun t => fsc (n1 + t)%Z) n2 cb2 w2 x2 (bo_u K B1) (bo_usc K B1) = Some B2 ->
  BF v scatter vis vrg srg sr f fsc (n1 + n2) cb w0 x0 u usc = Some B ->
  ueq K P (bo_u K B) (bo_u K B2) /\ ueq K P (bo_usc K B) (bo_usc K B2) /\
  (forall t, (0 <= t < n1)%Z -> bo_r K B t = bo_r K B1 t /\ bo_rsc K B t = bo_rsc K B1 t) /\
  (forall t, (0 <= t)%Z -> bo_r K B (n1 + t) = bo_r K B2 t /\ bo_rsc K B (n1 + t) = bo_rsc K B2 t).
Proof.
  intros Hl V1 V2 V Hs H1 H2 Hm C1 C2 C E1 E2 E.
  destruct (born_dual_some K Kr _ _ _ _ _ _ _ _ _ _ _ _ _ _ _ _ _ _ Hl E1) as (U1 & R1 & S1 & F1 & D1).
  destruct (born_dual_some K Kr _ _ _ _ _ _ _ _ _ _ _ _ _ _ _ _ _ _ (fun t => Hl (n1 + t)%Z) E2) as (U2 & R2 & S2 & F2 & D2).
  destruct (born_dual_some K Kr _ _ _ _ _ _ _ _ _ _ _ _ _ _ _ _ _ _ Hl E) as (U & R & S & F & D).
  destruct (forward_exists (dual K) Dr DPB pw DHg DHsrc DHrec (perturb v scatter) (fun t => dlist (f (n1 + t)%Z) (fsc (n1 + t)%Z)) U1 n2 sr vis2 true cb2
     (dstore K P v scatter w2 x2) V2 Hs C2) as (U3 & R3 & S3 & F3).
  destruct (forward_restart (dual K) Dr DPB pw DHg DHsrc DHrec (perturb v scatter) (fun t => dlist (f t) (fsc t)) (dstate u usc) n1 n2 sr
     vis1 vis2 vis true true true cb1 cb2 cb _ _ _ _ _ _ _ _ _ _ _ _ V1 V2 V Hs H1 H2 Hm C1 C2 C F1 F3 F) as (X1 & X2 & X3).
  destruct (forward_ext (dual K) Dr DPB pw DHg DHsrc DHrec _ _ (fun t => dlist (f (n1 + t)%Z) (fsc (n1 + t)%Z)) U1 (dstate (bo_u K B1) (bo_usc K B1)) n2 sr _ _ _ _ _ _ _ _ _ _ _ _ _ _ V2 V2 Hs C2 C2
     (fun t _ => eq_refl) (proj1 D1) (proj1 (proj2 D1)) F3 F2) as (Y1 & Y2).
  destruct (bdual_ueq K P recsc _ _ _ _ _ _ D D2 (ueq_trans _ _ _ _ _ X1 Y1)) as [Z1 Z2].
  split; [exact Z1|]. split; [exact Z2|].
  destruct D as (_ & _ & A3 & A4). destruct D1 as (_ & _ & A5 & A6). destruct D2 as (_ & _ & A7 & A8).
  split; intros t Ht.
  - rewrite A3, A4, A5, A6, (X2 t Ht). split; reflexivity.
  - rewrite A3, A4, A7, A8, (X3 t Ht), Y2. split; reflexivity.
Qed.

(** C13: joint superposition, background and scattered fields together. *)
Lemma lc_lre (a b : K) (x y : list (dual K)) : length x = length y ->
  lre (lc_l (dconst a : dual K) (dconst b) x y) = lc_l a b (lre x) (lre y).
Proof.
  unfold lre, lc_l, dconst. revert y. induction x as [|p x IH]; intros [|q y] H; cbn in *; try discriminate; auto.
  rewrite IH by lia. reflexivity.
Qed.
Lemma lc_lep (a b : K) (x y : list (dual K)) : length x = length y ->
  lep (lc_l (dconst a : dual K) (dconst b) x y) = lc_l a b (lep x) (lep y).
Proof.
  unfold lep, lc_l, dconst. revert y. induction x as [|p x IH]; intros [|q y] H; cbn in *; try discriminate; auto.
  rewrite IH by lia. f_equal. ring.
Qed.
Lemma dlist_len (f fsc : list K) : length (dlist f fsc) = Nat.min (length f) (length fsc).
Proof. exact (combine_length f fsc). Qed.
Lemma lc_dlist (a b : K) f fsc g gsc : length fsc = length f -> length gsc = length g -> length f = length g ->
  dlist (lc_l a b f g) (lc_l a b fsc gsc) = lc_l (dconst a : dual K) (dconst b) (dlist f fsc) (dlist g gsc).
Proof.
  unfold dlist, lc_l, dconst. revert fsc g gsc.
  induction f as [|x f IH]; intros [|x' fsc] [|y g] [|y' gsc] H1 H2 H3; cbn in *; try discriminate; auto.
  rewrite IH by lia. f_equal. apply dual_eq; cbn; ring.
Qed.
Lemma lc_length (a b : K) x y : length x = length y -> length (lc_l a b x y) = length x.
Proof. intros H. unfold lc_l. rewrite map_length, combine_length. lia. Qed.
Lemma lc_firstn (a b : K) n x y : firstn n (lc_l a b x y) = lc_l a b (firstn n x) (firstn n y).
Proof. unfold lc_l. rewrite firstn_map, combine_firstn. reflexivity. Qed.
Lemma skipn_combine {A B} n (x : list A) (y : list B) : skipn n (combine x y) = combine (skipn n x) (skipn n y).
Proof.
  revert x y. induction n as [|n IH]; intros [|a x] [|b y]; try reflexivity; cbn; auto.
  destruct (skipn n x); reflexivity.
Qed.
Lemma lc_skipn (a b : K) n x y : skipn n (lc_l a b x y) = lc_l a b (skipn n x) (skipn n y).
Proof. unfold lc_l. rewrite skipn_map, skipn_combine. reflexivity. Qed.

Lemma forward_r_length v f nt sr vis vrg cb st0 (u : st (dual K)) U R S :
  fvis K P pw vis -> (0 < sr)%Z -> cb_ok nt sr cb ->
  scalar_forward (dual K) DPB pw v vis vrg sr f nt cb st0 u = Some (U, R, S) ->
  forall t, length (R t) = length (p_rec P ++ recsc).
Proof.
  intros V Hs C E t.
  destruct (fwd_out (dual K) Dr DPB pw DHg DHsrc DHrec _ _ _ _ _ _ _ _ _ _ _ _ V Hs C E) as (_ & A2 & A3 & _).
  destruct (Z_lt_dec t 0); [rewrite A3 by lia; apply map_length|].
  destruct (Z_lt_dec t (Z.of_nat (nsteps nt sr))); [|rewrite A3 by lia; apply map_length].
  rewrite <- (Z2Nat.id t) by lia. rewrite A2 by lia. unfold rec_amps, gather. apply map_length.
Qed.

Lemma born_superposition (a b : K) v scatter f fsc g gsc x xsc y ysc nt sr vis1 vis2 vis vrg1 srg1 vrg2 srg2 vrg srg cb1 cb2 cb
    w1 x1 w2 x2 w0 x0 B1 B2 B :
  fvis K P pw vis1 -> fvis K P pw vis2 -> fvis K P pw vis -> (0 < sr)%Z -> (0 <= nt)%Z ->
  cb_ok nt sr cb1 -> cb_ok nt sr cb2 -> cb_ok nt sr cb ->
  (forall t, length (f t) = length (p_src P) /\ length (fsc t) = length (p_src P) /\
             length (g t) = length (p_src P) /\ length (gsc t) = length (p_src P)) ->
  BF v scatter vis1 vrg1 srg1 sr f fsc nt cb1 w1 x1 x xsc = Some B1 ->
  BF v scatter vis2 vrg2 srg2 sr g gsc nt cb2 w2 x2 y ysc = Some B2 ->
  BF v scatter vis vrg srg sr (fun t => lc_l a b (f t) (g t)) (fun t => lc_l a b (fsc t) (gsc t)) nt cb w0 x0
    (lc_st a b x y) (lc_st a b xsc ysc) = Some B ->
  ueq K P (bo_u K B) (lc_st a b (bo_u K B1) (bo_u K B2)) /\
  ueq K P (bo_usc K B) (lc_st a b (bo_usc K B1) (bo_usc K B2)) /\
  (forall t, bo_r K B t = lc_l a b (bo_r K B1 t) (bo_r K B2 t)) /\
  (forall t, bo_rsc K B t = lc_l a b (bo_rsc K B1 t) (bo_rsc K B2 t)).
Proof.
  intros V1 V2 V Hs Hn C1 C2 C Hl E1 E2 E.
  destruct (born_dual_some K Kr P recsc pw _ _ _ _ _ _ _ _ _ _ _ _ _ _ _ (fun t => eq_trans (proj1 (proj2 (Hl t))) (eq_sym (proj1 (Hl t)))) E1) as (U1 & R1 & S1 & F1 & D1).
  destruct (born_dual_some K Kr P recsc pw _ _ _ _ _ _ _ _ _ _ _ _ _ _ _ (fun t => eq_trans (proj2 (proj2 (proj2 (Hl t)))) (eq_sym (proj1 (proj2 (proj2 (Hl t)))))) E2) as (U2 & R2 & S2 & F2 & D2).
  destruct (born_dual_some K Kr P recsc pw v scatter (fun t => lc_l a b (f t) (g t)) (fun t => lc_l a b (fsc t) (gsc t)) _ _ _ _ _ _ _ _ _ _ _
    ltac:(intros t; destruct (Hl t) as (L1 & L2 & L3 & L4); rewrite !lc_length; lia) E) as (U3 & R3 & S3 & F3 & D3).
  destruct (forward_exists (dual K) Dr DPB pw DHg DHsrc DHrec (perturb v scatter)
     (fun t => lc_l (dconst a : dual K) (dconst b) (dlist (f t) (fsc t)) (dlist (g t) (gsc t)))
     (lc_st (dconst a : dual K) (dconst b) (dstate x xsc) (dstate y ysc)) nt sr vis true cb
     (dstore K P v scatter w0 x0) V Hs C) as (U & R & S & F).
  assert (Hlen : forall t, (0 <= t < nt)%Z -> length (dlist (f t) (fsc t)) = length (p_src DPB) /\ length (dlist (g t) (gsc t)) = length (p_src DPB)).
  { intros t _. destruct (Hl t) as (L1 & L2 & L3 & L4). rewrite !dlist_len, L1, L2, L3, L4, !Nat.min_id. split; reflexivity. }
  destruct (forward_superposition (dual K) Dr DPB pw DHg DHsrc DHrec _ _ _ _ _ _ _ _ _ _ _ _ _ _ _ _ _ _ _ _ _ _ _ _ _ _ _ _ _ _
     V1 V2 V Hs Hn C1 C2 C Hlen F1 F2 F) as (X1 & X2).
  assert (Hx : forall a1 a2 b1 b2 : K, ((a * a1 + b * a2, a * b1 + b * b2) : dual K) = (dconst a : dual K) * ((a1, b1) : dual K) + (dconst b : dual K) * ((a2, b2) : dual K)).
  { intros. unfold dconst. apply dual_eq; cbn; ring. }
  destruct (forward_ext (dual K) Dr DPB pw DHg DHsrc DHrec (perturb v scatter) (fun t => dlist (lc_l a b (f t) (g t)) (lc_l a b (fsc t) (gsc t)))
     (fun t => lc_l (dconst a : dual K) (dconst b) (dlist (f t) (fsc t)) (dlist (g t) (gsc t)))
     (dstate (lc_st a b x y) (lc_st a b xsc ysc)) (lc_st (dconst a : dual K) (dconst b) (dstate x xsc) (dstate y ysc))
     nt sr vis vis true true cb cb _ _ _ _ _ _ _ _ V V Hs C C
     ltac:(intros t _; destruct (Hl t) as (L1 & L2 & L3 & L4); apply lc_dlist; lia)
     ltac:(intros q; split; apply Hx) ltac:(intros d q; split; apply Hx) F3 F) as (Y1 & Y2).
  destruct D1 as (A1 & A2 & A3 & A4). destruct D2 as (G1 & G2 & G3 & G4). destruct D3 as (I1 & I2 & I3 & I4).
  assert (Hq : forall q, In q (upts K P) ->
     (s_wfc K (bo_u K B) q, s_wfc K (bo_usc K B) q) = (s_wfc K (lc_st a b (bo_u K B1) (bo_u K B2)) q, s_wfc K (lc_st a b (bo_usc K B1) (bo_usc K B2)) q) /\
     (s_wfp K (bo_u K B) q, s_wfp K (bo_usc K B) q) = (s_wfp K (lc_st a b (bo_u K B1) (bo_u K B2)) q, s_wfp K (lc_st a b (bo_usc K B1) (bo_usc K B2)) q) /\
     forall d, (d < nd)%nat ->
     (s_psi K (bo_u K B) d q, s_psi K (bo_usc K B) d q) = (s_psi K (lc_st a b (bo_u K B1) (bo_u K B2)) d q, s_psi K (lc_st a b (bo_usc K B1) (bo_usc K B2)) d q) /\
     (s_zeta K (bo_u K B) d q, s_zeta K (bo_usc K B) d q) = (s_zeta K (lc_st a b (bo_u K B1) (bo_u K B2)) d q, s_zeta K (lc_st a b (bo_usc K B1) (bo_usc K B2)) d q)).
  { intros q Hq. destruct (ueq_trans _ _ _ _ _ Y1 X1 q Hq) as (W1 & W2 & W3).
    cbn [lc_st s_wfc s_wfp s_psi s_zeta] in *.
    split; [|split].
    - rewrite Hx. rewrite <- (proj1 (I1 q)), <- (proj1 (A1 q)), <- (proj1 (G1 q)). exact W1.
    - rewrite Hx. rewrite <- (proj2 (I1 q)), <- (proj2 (A1 q)), <- (proj2 (G1 q)). exact W2.
    - intros d Hd. destruct (W3 d Hd) as [W4 W5]. rewrite !Hx. split.
      + rewrite <- (proj1 (I2 d q)), <- (proj1 (A2 d q)), <- (proj1 (G2 d q)). exact W4.
      + rewrite <- (proj2 (I2 d q)), <- (proj2 (A2 d q)), <- (proj2 (G2 d q)). exact W5. }
  split; [|split; [|split]].
  - intros q Hin. destruct (Hq q Hin) as (W1 & W2 & W3). split; [exact (f_equal fst W1)|]. split; [exact (f_equal fst W2)|].
    intros d Hd. destruct (W3 d Hd) as [W4 W5]. split; [exact (f_equal fst W4)|exact (f_equal fst W5)].
  - intros q Hin. destruct (Hq q Hin) as (W1 & W2 & W3). split; [exact (f_equal snd W1)|]. split; [exact (f_equal snd W2)|].
    intros d Hd. destruct (W3 d Hd) as [W4 W5]. split; [exact (f_equal snd W4)|exact (f_equal snd W5)].
  - intros t. rewrite I3, A3, G3, Y2, X2, lc_lre, lc_firstn; [reflexivity|].
    rewrite (forward_r_length _ _ _ _ _ _ _ _ _ _ _ _ V1 Hs C1 F1), (forward_r_length _ _ _ _ _ _ _ _ _ _ _ _ V2 Hs C2 F2). reflexivity.
  - intros t. rewrite I4, A4, G4, Y2, X2, lc_lep, lc_skipn; [reflexivity|].
    rewrite (forward_r_length _ _ _ _ _ _ _ _ _ _ _ _ V1 Hs C1 F1), (forward_r_length _ _ _ _ _ _ _ _ _ _ _ _ V2 Hs C2 F2). reflexivity.
Qed.

(** C18 *)
Lemma nth_error_combine {A B} (x : list A) (y : list B) k :
  nth_error (combine x y) k = match nth_error x k, nth_error y k with Some a, Some b => Some (a, b) | _, _ => None end.
Proof.
  revert y k. induction x as [|a x IH]; intros [|b y] [|k]; cbn; auto. destruct (nth_error x k); reflexivity.
Qed.

Lemma born_ignored_source v scatter f fsc f' fsc' u usc nt sr vis1 vis2 vrg1 srg1 vrg2 srg2 cb1 cb2 w1 x1 w2 x2 B1 B2 :
  fvis K P pw vis1 -> fvis K P pw vis2 -> (0 < sr)%Z -> (0 <= nt)%Z -> cb_ok nt sr cb1 -> cb_ok nt sr cb2 ->
  (forall t, length (f t) = length (p_src P) /\ length (fsc t) = length (p_src P) /\
             length (f' t) = length (p_src P) /\ length (fsc' t) = length (p_src P)) ->
  (forall t, (0 <= t < nt)%Z -> forall k l, nth_error (p_src P) k = Some l -> (0 <= l)%Z ->
     nth_error (f t) k = nth_error (f' t) k /\ nth_error (fsc t) k = nth_error (fsc' t) k) ->
  BF v scatter vis1 vrg1 srg1 sr f fsc nt cb1 w1 x1 u usc = Some B1 ->
  BF v scatter vis2 vrg2 srg2 sr f' fsc' nt cb2 w2 x2 u usc = Some B2 ->
  bsame K P B1 B2.
Proof.
  intros V1 V2 Hs Hn C1 C2 Hl Hf E1 E2.
  destruct (born_dual_some K Kr P recsc pw _ _ _ _ _ _ _ _ _ _ _ _ _ _ _ (fun t => eq_trans (proj1 (proj2 (Hl t))) (eq_sym (proj1 (Hl t)))) E1) as (U1 & R1 & S1 & F1 & D1).
  destruct (born_dual_some K Kr P recsc pw _ _ _ _ _ _ _ _ _ _ _ _ _ _ _ (fun t => eq_trans (proj2 (proj2 (proj2 (Hl t)))) (eq_sym (proj1 (proj2 (proj2 (Hl t)))))) E2) as (U2 & R2 & S2 & F2 & D2).
  assert (Hq : forall t, (0 <= t < nt)%Z -> length (dlist (f t) (fsc t)) = length (p_src DPB) /\ length (dlist (f' t) (fsc' t)) = length (p_src DPB) /\
     forall k l, nth_error (p_src DPB) k = Some l -> (0 <= l)%Z -> nth_error (dlist (f t) (fsc t)) k = nth_error (dlist (f' t) (fsc' t)) k).
  { intros t Ht. destruct (Hl t) as (L1 & L2 & L3 & L4). rewrite !dlist_len, L1, L2, L3, L4, !Nat.min_id.
    split; [reflexivity|]. split; [reflexivity|]. intros k l Hk H0. unfold dlist.
    destruct (Hf t Ht k l Hk H0) as [Y1 Y2].
    transitivity (match nth_error (f t) k, nth_error (fsc t) k with Some a, Some b => Some ((a, b) : dual K) | _, _ => None end);
      [exact (nth_error_combine (f t) (fsc t) k)|]. rewrite Y1, Y2. symmetry. exact (nth_error_combine (f' t) (fsc' t) k). }
  destruct (forward_ignored_source (dual K) Dr DPB pw DHg DHsrc DHrec (perturb v scatter) (fun t => dlist (f t) (fsc t)) (fun t => dlist (f' t) (fsc' t)) (dstate u usc)
    nt sr vis1 vis2 true true cb1 cb2 _ _ _ _ _ _ _ _ V1 V2 Hs Hn C1 C2 Hq F1 F2) as (X1 & X2).
  exact (bdual_same K P recsc _ _ _ _ _ _ D1 D2 X1 X2).
Qed.

Lemma nth_error_firstn {A} n (l : list A) k : (k < n)%nat -> nth_error (firstn n l) k = nth_error l k.
Proof. revert l k. induction n as [|n IH]; intros [|x l] [|k] H; try lia; cbn; auto. apply IH. lia. Qed.
Lemma nth_error_skipn {A} n (l : list A) k : nth_error (skipn n l) k = nth_error l (n + k).
Proof. revert l. induction n as [|n IH]; intros [|x l]; cbn; auto. destruct k; reflexivity. Qed.

Lemma born_ignored_receiver v scatter f fsc u usc nt sr vis vrg srg cb w0 x0 B :
  (forall t, length (fsc t) = length (f t)) -> fvis K P pw vis -> (0 < sr)%Z -> cb_ok nt sr cb ->
  BF v scatter vis vrg srg sr f fsc nt cb w0 x0 u usc = Some B ->
  (forall k l, nth_error (p_rec P) k = Some l -> (l < 0)%Z -> forall t, nth_error (bo_r K B t) k = Some 0) /\
  (forall k l, nth_error recsc k = Some l -> (l < 0)%Z -> forall t, nth_error (bo_rsc K B t) k = Some 0).
Proof.
  intros Hl V Hs C E. destruct (born_dual_some K Kr _ _ _ _ _ _ _ _ _ _ _ _ _ _ _ _ _ _ Hl E) as (U & R & S & F & D).
  pose proof (forward_ignored_receiver (dual K) Dr DPB pw DHg DHsrc DHrec _ _ _ _ _ _ _ _ _ _ _ _ V Hs C F) as H.
  destruct D as (_ & _ & A3 & A4). split; intros k l Hk Hneg t.
  - rewrite A3, nth_error_firstn by (apply nth_error_Some; rewrite Hk; discriminate).
    unfold lre. rewrite nth_error_map. rewrite (H k l); [reflexivity| |exact Hneg].
    change (p_rec DPB) with (p_rec P ++ recsc). rewrite nth_error_app1; [exact Hk|]. apply nth_error_Some. rewrite Hk. discriminate.
  - rewrite A4, nth_error_skipn. unfold lep. rewrite nth_error_map, (H (length (p_rec P) + k)%nat l); [reflexivity| |exact Hneg].
    change (p_rec DPB) with (p_rec P ++ recsc). rewrite nth_error_app2 by lia. rewrite <- Hk. f_equal. lia.
Qed.

(** C28, causality. *)
Lemma born_causality v scatter f1 fsc1 f2 fsc2 u usc nt sr vis1 vis2 vrg1 srg1 vrg2 srg2 cb1 cb2 w1 x1 w2 x2 B1 B2 t0 :
  (forall t, length (fsc1 t) = length (f1 t)) -> (forall t, length (fsc2 t) = length (f2 t)) ->
  fvis K P pw vis1 -> fvis K P pw vis2 -> (0 < sr)%Z -> cb_ok nt sr cb1 -> cb_ok nt sr cb2 ->
  BF v scatter vis1 vrg1 srg1 sr f1 fsc1 nt cb1 w1 x1 u usc = Some B1 ->
  BF v scatter vis2 vrg2 srg2 sr f2 fsc2 nt cb2 w2 x2 u usc = Some B2 ->
  (forall t, (0 <= t < t0)%Z -> f1 t = f2 t /\ fsc1 t = fsc2 t) ->
  forall t, (t <= t0)%Z -> bo_r K B1 t = bo_r K B2 t /\ bo_rsc K B1 t = bo_rsc K B2 t.
Proof.
  intros L1 L2 V1 V2 Hs C1 C2 E1 E2 Hf t Ht.
  destruct (born_dual_some K Kr _ _ _ _ _ _ _ _ _ _ _ _ _ _ _ _ _ _ L1 E1) as (U1 & R1 & S1 & F1 & D1).
  destruct (born_dual_some K Kr _ _ _ _ _ _ _ _ _ _ _ _ _ _ _ _ _ _ L2 E2) as (U2 & R2 & S2 & F2 & D2).
  assert (Hd : forall t, (0 <= t < t0)%Z -> dlist (f1 t) (fsc1 t) = dlist (f2 t) (fsc2 t)).
  { intros s H. destruct (Hf s H) as [-> ->]. reflexivity. }
  pose proof (causality (dual K) Dr DPB pw DHg DHsrc DHrec _ _ _ _ _ _ _ _ _ _ _ _ _ _ _ _ _ _ _ _ _ V1 V2 Hs C1 C2 F1 F2 Hd t Ht) as X.
  destruct D1 as (_ & _ & A3 & A4). destruct D2 as (_ & _ & G3 & G4). rewrite A3, A4, G3, G4, X. split; reflexivity.
Qed.

(** C14 *)
Lemma no_pml_dual (Q : par K) : no_pml Q -> no_pml (dpar Q).
Proof. intros H d y. destruct (H d y) as (H1 & H2 & H3). cbn. unfold dconst. rewrite H1, H2, H3. repeat split. Qed.

Lemma born_time_reversal v scatter f1 fsc1 f2 fsc2 u usc x xsc nt sr vis1 vis2 vrg1 srg1 vrg2 srg2 cb1 cb2 w1 x1 w2 x2 B1 B2 :
  no_pml P ->
  (forall t, length (fsc1 t) = length (f1 t)) -> (forall t, length (fsc2 t) = length (f2 t)) ->
  fvis K P pw vis1 -> fvis K P pw vis2 -> (0 < sr)%Z -> (0 <= nt)%Z -> cb_ok nt sr cb1 -> cb_ok nt sr cb2 ->
  (forall t, Forall (fun x => x = 0) (f1 t) /\ Forall (fun x => x = 0) (fsc1 t)) ->
  (forall t, Forall (fun x => x = 0) (f2 t) /\ Forall (fun x => x = 0) (fsc2 t)) ->
  BF v scatter vis1 vrg1 srg1 sr f1 fsc1 nt cb1 w1 x1 u usc = Some B1 ->
  (forall q, In q (upts K P) ->
     s_wfc K x q = s_wfp K (bo_u K B1) q /\ s_wfp K x q = s_wfc K (bo_u K B1) q /\
     s_wfc K xsc q = s_wfp K (bo_usc K B1) q /\ s_wfp K xsc q = s_wfc K (bo_usc K B1) q) ->
  BF v scatter vis2 vrg2 srg2 sr f2 fsc2 nt cb2 w2 x2 x xsc = Some B2 ->
  forall q, In q (upts K P) ->
    s_wfc K (bo_u K B2) q = s_wfp K u q /\ s_wfp K (bo_u K B2) q = s_wfc K u q /\
    s_wfc K (bo_usc K B2) q = s_wfp K usc q /\ s_wfp K (bo_usc K B2) q = s_wfc K usc q.
Proof.
  intros Hp L1 L2 V1 V2 Hs Hn C1 C2 Z1 Z2 E1 Hx E2 q Hq.
  destruct (born_dual_some K Kr _ _ _ _ _ _ _ _ _ _ _ _ _ _ _ _ _ _ L1 E1) as (U1 & R1 & S1 & F1 & D1).
  destruct (born_dual_some K Kr _ _ _ _ _ _ _ _ _ _ _ _ _ _ _ _ _ _ L2 E2) as (U2 & R2 & S2 & F2 & D2).
  assert (Hz : forall a b : list K, Forall (fun x => x = 0) a -> Forall (fun x => x = 0) b -> Forall (fun x => x = o0 (dual K)) (dlist a b)).
  { unfold dlist. induction a as [|y a IH]; intros [|z b] H1 H2; cbn; constructor.
    - inversion H1; inversion H2; subst. reflexivity.
    - inversion H1; inversion H2; subst. apply IH; assumption. }
  destruct D1 as (A1 & _). destruct D2 as (G1 & _).
  assert (Hx' : forall p, In p (upts (dual K) DPB) -> s_wfc _ (dstate x xsc) p = s_wfp _ U1 p /\ s_wfp _ (dstate x xsc) p = s_wfc _ U1 p).
  { intros p Hp'. destruct (Hx p Hp') as (W1 & W2 & W3 & W4). destruct (A1 p) as [Y1 Y2]. rewrite Y1, Y2.
    cbn [dstate s_wfc s_wfp]. unfold dpair. rewrite W1, W2, W3, W4. split; reflexivity. }
  destruct (time_reversal (dual K) Dr DPB (no_pml_dual PB Hp) pw DHg DHsrc DHrec (perturb v scatter) (fun t => dlist (f1 t) (fsc1 t)) (fun t => dlist (f2 t) (fsc2 t))
     (dstate u usc) (dstate x xsc) nt sr vis1 vis2 true true cb1 cb2 _ _ _ _ _ _ _ _ V1 V2 Hs Hn C1 C2
     (fun t => Hz _ _ (proj1 (Z1 t)) (proj2 (Z1 t))) (fun t => Hz _ _ (proj1 (Z2 t)) (proj2 (Z2 t))) F1 Hx' F2 q Hq) as [X1 X2].
  destruct (G1 q) as [Y1 Y2]. rewrite Y1 in X1. rewrite Y2 in X2. cbn [dstate s_wfc s_wfp] in X1, X2. unfold dpair in X1, X2.
    injection X1 as I1 I2. injection X2 as I3 I4. repeat split; assumption.
Qed.

(** C41 *)
Lemma born_zero_steps v scatter f fsc u usc sr vis vrg srg cb w0 x0 B :
  (forall t, length (fsc t) = length (f t)) -> (0 < sr)%Z -> cb_ok 0 sr cb -> fvis K P pw vis ->
  BF v scatter vis vrg srg sr f fsc 0 cb w0 x0 u usc = Some B ->
  forall q, In q (upts K P) ->
    let keep d (x : K) := if ((fst (pw d) <=? nth d q 0) && (nth d q 0 <? nth d (p_shape P) 0 - 2 * fd_pad (p_acc P) - snd (pw d)))%Z then 0 else x in
    s_wfc K (bo_u K B) q = s_wfc K u q /\ s_wfp K (bo_u K B) q = s_wfp K u q /\
    s_wfc K (bo_usc K B) q = s_wfc K usc q /\ s_wfp K (bo_usc K B) q = s_wfp K usc q /\
    forall d, (d < nd)%nat ->
      s_psi K (bo_u K B) d q = keep d (s_psi K u d q) /\ s_zeta K (bo_u K B) d q = keep d (s_zeta K u d q) /\
      s_psi K (bo_usc K B) d q = keep d (s_psi K usc d q) /\ s_zeta K (bo_usc K B) d q = keep d (s_zeta K usc d q).
Proof.
  intros Hl Hs C V E q Hq keep. destruct (born_dual_some K Kr _ _ _ _ _ _ _ _ _ _ _ _ _ _ _ _ _ _ Hl E) as (U & R & S & F & D).
  destruct (forward_zero_user (dual K) Dr DPB pw DHg DHsrc DHrec _ _ _ _ _ _ _ _ _ _ _ Hs C V F q Hq) as (X1 & X2 & X3).
  destruct D as (A1 & A2 & _). destruct (A1 q) as [Y1 Y2]. rewrite Y1 in X1. rewrite Y2 in X2.
  cbn [dstate s_wfc s_wfp] in X1, X2. unfold dpair in X1, X2.
  injection X1 as I1 I2. injection X2 as I3 I4. do 4 (split; [assumption|]).
  intros d Hd. destruct (X3 d Hd) as [W1 W2]. destruct (A2 d q) as [Y3 Y4]. rewrite Y3 in W1. rewrite Y4 in W2.
  cbn [dstate s_psi s_zeta] in W1, W2. unfold dpair in W1, W2. unfold keep.
  change (p_shape DPB) with shape in W1, W2. change (p_acc DPB) with (p_acc P) in W1, W2.
  destruct ((fst (pw d) <=? nth d q 0) && _)%Z; injection W1 as J1 J2; injection W2 as J3 J4; repeat split; assumption.
Qed.
End Run.
