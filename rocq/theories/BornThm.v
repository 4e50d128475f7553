(** * Theorems about the Born propagator (proofs). *)
From Coq Require Import List ZArith QArith Ring Ring_theory Lia Bool Permutation.
From Verif Require Import Ops Sums Grid Stencil DualNum ScalarModel ScalarRefine ScalarForward
  ScalarBackward ScalarAdjoint ScalarFunc ScalarApi ScalarGrad ScalarMore Param BornModel BornSim BornBack.
Import ListNotations.
Local Open Scope K_scope.

(** [a + eps b] for lists. *)
Definition dlist {K : ops} (a b : list K) : list (dual K) := combine a b.

Lemma lre_dlist {K : ops} (a b : list K) : length a = length b -> lre (dlist a b) = a.
Proof. unfold lre, dlist. revert b. induction a as [|x a IH]; intros [|y b] H; cbn in *; try discriminate; auto. rewrite IH by lia. reflexivity. Qed.
Lemma lep_dlist {K : ops} (a b : list K) : length a = length b -> lep (dlist a b) = b.
Proof. unfold lep, dlist. revert b. induction a as [|x a IH]; intros [|y b] H; cbn in *; try discriminate; auto. rewrite IH by lia. reflexivity. Qed.

Lemma app_inj {A} (a a' b b' : list A) : length a = length a' -> a ++ b = a' ++ b' -> a = a' /\ b = b'.
Proof.
  revert a'. induction a as [|x a IH]; intros [|y a'] H E; cbn in *; try discriminate; auto.
  injection E as -> E. destruct (IH a' ltac:(lia) E) as [-> ->]. auto.
Qed.

Section Fwd.
Variable K : ops.
Hypothesis Kr : is_ring K.
Add Ring KRing : Kr.
Variable P : par K.
Variable recsc : list Z.
Variable pw : nat -> Z * Z.
Notation shape := (p_shape P).
Notation nd := (length shape).
Notation inint p := (interior K P p = true).
Hypothesis Hg : geom_ok K P pw.
Hypothesis Hsrc : Forall (loc_ok K P) (p_src P).
Hypothesis Hrec : Forall (loc_ok K P) (p_rec P).
Hypothesis Hrecsc : Forall (loc_ok K P) recsc.
Notation PB := (P2 K P recsc).
Notation DPB := (dpar PB).

Lemma geom_2 : geom_ok K PB pw.
Proof. exact Hg. Qed.
Lemma rec_2 : Forall (loc_ok K PB) (p_rec PB).
Proof. cbn. apply Forall_app. split; assumption. Qed.

(** The state of the run over dual numbers. *)
Definition dstt (v scatter : arr K) (F : Z -> list (dual K)) (U : st (dual K)) (k : nat) : st (dual K) :=
  state (dual K) (dpar P) (fun _ p => perturb v scatter (idx shape p)) F k 0 (uinit (dual K) (dpar P) pw U).

Lemma born_forward_spec v scatter vis vrg srg sr (F : Z -> list (dual K)) f fsc nt cb w0 wsc0 u usc :
  fvis K P pw vis -> (0 < sr)%Z -> cb_ok nt sr cb ->
  (forall t, f t = lre (F t)) -> (forall t, fsc t = lep (F t)) ->
  let N := nsteps nt sr in
  let s := dstt v scatter F (dstate u usc) in
  exists B,
    born_forward K P recsc pw v scatter vis vrg srg sr f fsc nt cb w0 wsc0 u usc = Some B /\
    ueq K P (bo_u K B) (ucrop K P (sre (s N))) /\ ueq K P (bo_usc K B) (ucrop K P (sep (s N))) /\
    (forall k, (k < N)%nat -> bo_r K B (Z.of_nat k) = gather K P (p_rec P) (s_wfc K (sre (s k)))
                              /\ bo_rsc K B (Z.of_nat k) = gather K P recsc (s_wfc K (sep (s k)))) /\
    (forall t, ~ (0 <= t < Z.of_nat N)%Z -> bo_r K B t = map (fun _ => 0) (p_rec P)
                                            /\ bo_rsc K B t = map (fun _ => 0) recsc).
Proof.
  intros Hv Hsr Hcb Hf Hfsc N s.
  pose proof (born_forward_sim K Kr P recsc v scatter vrg srg vis sr F f fsc Hf Hfsc pw nt cb w0 wsc0
     (dstore K P v scatter w0 wsc0) (dstate u usc) (dstore_rel K Kr P v scatter vrg srg w0 wsc0)) as H.
  destruct (scalar_forward_spec (dual K) (dual_is_ring K Kr) DPB pw (geom_dual K Kr PB pw geom_2) Hsrc rec_2
     (perturb v scatter) vis true sr F nt cb (dstore K P v scatter w0 wsc0) (dstate u usc) Hv Hsr Hcb)
    as (U' & R' & S' & E & A1 & A2 & A3 & _).
  rewrite E in H.
  change (born_forward K P recsc pw v scatter vis vrg srg sr f fsc nt cb w0 wsc0 (sre (dstate u usc)) (sep (dstate u usc)))
    with (born_forward K P recsc pw v scatter vis vrg srg sr f fsc nt cb w0 wsc0 u usc) in H.
  destruct (born_forward _ _ _ _ _ _ _ _ _ _ _ _ _ _ _ _ _ _) as [B|]; [|contradiction].
  exists B. split; [reflexivity|]. destruct H as (B1 & B2 & B3 & B4 & B5 & _).
  assert (Hs : forall k, state (dual K) DPB (fun _ p => perturb v scatter (idx shape p)) F k 0 (uinit (dual K) DPB pw (dstate u usc)) = s k)
    by reflexivity.
  fold N in A1, A2, A3.
  split; [|split; [|split]].
  - intros q Hq. destruct (A1 q Hq) as (X1 & X2 & X3). rewrite Hs in *. cbn [sre ucrop s_wfc s_wfp s_psi s_zeta] in *.
    change (topad (dual K) DPB) with (topad K P) in *.
    unfold fre. rewrite <- X1, <- X2, B1, B2. split; [reflexivity|]. split; [reflexivity|]. intros d Hd.
    destruct (X3 d Hd) as [Y1 Y2]. rewrite <- Y1, <- Y2, B3, B4. split; reflexivity.
  - intros q Hq. destruct (A1 q Hq) as (X1 & X2 & X3). rewrite Hs in *. cbn [sep ucrop s_wfc s_wfp s_psi s_zeta] in *.
    change (topad (dual K) DPB) with (topad K P) in *.
    unfold fep. rewrite <- X1, <- X2, B1, B2. split; [reflexivity|]. split; [reflexivity|]. intros d Hd.
    destruct (X3 d Hd) as [Y1 Y2]. rewrite <- Y1, <- Y2, B3, B4. split; reflexivity.
  - intros k Hk. destruct (B5 (Z.of_nat k)) as (Ra & Rb & E1 & E2 & E3 & E4). rewrite E3, E4.
    rewrite (A2 k Hk), Hs in E1. unfold rec_amps, gather in E1. cbn [dpar P2 withrec p_rec p_shape] in E1.
    rewrite map_app in E1. symmetry in E1. apply app_inj in E1; [|rewrite map_length; exact E2].
    destruct E1 as [-> ->]. unfold gather. rewrite !map_map.
    split; apply map_ext; intros l; cbn [sre sep s_wfc]; unfold fre, fep; destruct (0 <=? l)%Z; reflexivity.
  - intros t Ht. destruct (B5 t) as (Ra & Rb & E1 & E2 & E3 & E4). rewrite E3, E4.
    rewrite (A3 t Ht) in E1. cbn [dpar P2 withrec p_rec] in E1. rewrite map_app in E1. symmetry in E1.
    apply app_inj in E1; [|rewrite map_length; exact E2]. destruct E1 as [-> ->]. rewrite !map_map. split; reflexivity.
Qed.

(** C04 *)
Lemma born_is_derivative v scatter f fsc u usc nt sr vis vis1 vis2 vrg srg vrg1 vrg2 cb cb1 cb2 w0 wsc0 st1 st2 :
  (forall t, length (fsc t) = length (f t)) ->
  (0 < sr)%Z -> cb_ok nt sr cb -> cb_ok nt sr cb1 -> cb_ok nt sr cb2 ->
  fvis K P pw vis -> fvis K P pw vis1 -> fvis K P pw vis2 ->
  exists B U1 R1 S1 U2 R2 S2,
    born_forward K P recsc pw v scatter vis vrg srg sr f fsc nt cb w0 wsc0 u usc = Some B /\
    scalar_forward K P pw v vis1 vrg1 sr f nt cb1 st1 u = Some (U1, R1, S1) /\
    scalar_forward (dual K) (dpar (withrec P recsc)) pw (perturb v scatter) vis2 vrg2 sr
      (fun t => dlist (f t) (fsc t)) nt cb2 st2 (dstate u usc) = Some (U2, R2, S2) /\
    ueq K P (bo_u K B) U1 /\ (forall t, bo_r K B t = R1 t) /\
    ueq K P (bo_usc K B) (sep U2) /\ (forall t, bo_rsc K B t = lep (R2 t)).
Proof.
  intros Hl Hsr C C1 C2 V0 V1 V2.
  destruct (born_forward_spec v scatter vis vrg srg sr (fun t => dlist (f t) (fsc t)) f fsc nt cb w0 wsc0 u usc V0 Hsr C
     ltac:(intros; symmetry; apply lre_dlist; auto) ltac:(intros; symmetry; apply lep_dlist; auto))
    as (B & EB & B1 & B2 & B3 & B4).
  destruct (scalar_forward_spec K Kr P pw Hg Hsrc Hrec v vis1 vrg1 sr f nt cb1 st1 u V1 Hsr C1)
    as (U1 & R1 & S1 & E1 & X1 & X2 & X3 & _).
  destruct (scalar_forward_spec (dual K) (dual_is_ring K Kr) (dpar (withrec P recsc)) pw (geom_dual K Kr (withrec P recsc) pw Hg) Hsrc Hrecsc
     (perturb v scatter) vis2 vrg2 sr (fun t => dlist (f t) (fsc t)) nt cb2 st2 (dstate u usc) V2 Hsr C2)
    as (U2 & R2 & S2 & E2 & Y1 & Y2 & Y3 & _).
  exists B, U1, R1, S1, U2, R2, S2. split; [exact EB|]. split; [exact E1|]. split; [exact E2|].
  set (N := nsteps nt sr) in *. set (F := fun t => dlist (f t) (fsc t)) in *.
  assert (Hs : forall k, steq nd (sre (dstt v scatter F (dstate u usc) k))
                (state K P (fun _ p => v (idx shape p)) f k 0 (uinit K P pw u))).
  { intros k. eapply steq_trans; [apply (sre_state K P)|].
    eapply steq_trans; [apply (state_ext K P); [|apply (sre_uinit K P pw)]; reflexivity|].
    apply (state_ext_f K P).
    - reflexivity.
    - intros t Ht. apply lre_dlist. auto.
    - repeat split. }
  assert (Hd : forall k, state (dual K) (dpar (withrec P recsc)) (fun _ p => perturb v scatter (idx shape p)) F k 0
                           (uinit (dual K) (dpar (withrec P recsc)) pw (dstate u usc)) = dstt v scatter F (dstate u usc) k)
    by reflexivity.
  split; [|split; [|split]].
  - eapply ueq_trans; [exact B1|]. apply ueq_sym. eapply ueq_trans; [exact X1|]. apply ueq_sym.
    apply ueq_crop. apply Hs.
  - intros t. destruct (Z_lt_dec t 0). { rewrite (proj1 (B4 t ltac:(lia))), X3 by lia. reflexivity. }
    destruct (Z_lt_dec t (Z.of_nat N)).
    + rewrite <- (Z2Nat.id t) by lia. rewrite (proj1 (B3 (Z.to_nat t) ltac:(lia))), X2 by lia. unfold rec_amps.
      apply (gather_ext K P). apply Hs.
    + rewrite (proj1 (B4 t ltac:(lia))), X3 by lia. reflexivity.
  - eapply ueq_trans; [exact B2|]. intros q Hq. destruct (Y1 q Hq) as (Z1 & Z2 & Z3).
    cbn [sep ucrop s_wfc s_wfp s_psi s_zeta] in *. unfold fep. rewrite Z1, Z2. split; [reflexivity|]. split; [reflexivity|].
    intros d Hdd. destruct (Z3 d Hdd) as [W1 W2]. rewrite W1, W2. split; reflexivity.
  - intros t. destruct (Z_lt_dec t 0). { rewrite (proj2 (B4 t ltac:(lia))), Y3 by lia. unfold lep. rewrite map_map. reflexivity. }
    destruct (Z_lt_dec t (Z.of_nat N)).
    + rewrite <- (Z2Nat.id t) by lia. rewrite (proj2 (B3 (Z.to_nat t) ltac:(lia))), Y2 by lia.
      unfold rec_amps. rewrite Hd. symmetry. apply (lep_gather K P).
    + rewrite (proj2 (B4 t ltac:(lia))), Y3 by lia. unfold lep. rewrite map_map. reflexivity.
Qed.

End Fwd.
