(** * The scattered wavefield of scalar_born is a derivative of a real function, and so are its gradients. *)
From Coq Require Import List ZArith QArith Qreals Reals Lia Lra Bool Permutation FunctionalExtensionality.
From Verif Require Import Ops Sums Grid Stencil StencilOrder DualNum ScalarModel ScalarRefine ScalarForward ScalarBackward ScalarAdjoint
  ScalarFunc ScalarApi ScalarGrad PyBackend Param ShotsThm BornModel BornSim BornBack BornThm BornGrad BornPy Deriv DerivScalar.
Import ListNotations.

(** ** Lists *)
Lemma dlist_rel {K1 K2 : ops} (Q : K1 -> K2 -> Prop) (Q2 : dual K1 -> dual K2 -> Prop) a b a' b' :
  (forall x y x' y', Q x x' -> Q y y' -> Q2 (x, y) (x', y')) -> Forall2 Q a a' -> Forall2 Q b b' -> Forall2 Q2 (dlist a b) (dlist a' b').
Proof.
  intros HQ H. revert b b'. induction H as [|x x' a a' Hx H IH]; intros b b' Hb; [constructor|].
  destruct Hb as [|y y' b b' Hy Hb]; [constructor|]. cbn. constructor; [apply HQ; assumption|apply IH; assumption].
Qed.

Lemma drow_dlist (r0 dr : Z -> list R) t : length (r0 t) = length (dr t) -> drow r0 dr t = dlist (K := R_ops) (r0 t) (dr t).
Proof.
  unfold drow, dlist. generalize (r0 t) as a, (dr t) as b. induction a as [|x a IH]; intros [|y b] E; cbn in *; try discriminate; [reflexivity|].
  f_equal. rewrite <- seq_shift, map_map. apply IH. lia.
Qed.

Lemma scale_amps_rel (K1 K2 : ops) (Q : K1 -> K2 -> Prop) (P1 : par K1) (P2 : par K2) (v1 : arr K1) (v2 : arr K2) src amps1 amps2 :
  oprel K1 K2 Q -> Q (p_dt2 P1) (p_dt2 P2) -> (forall i, Q (v1 i) (v2 i)) -> Forall2 Q amps1 amps2 ->
  Forall2 Q (scale_amps K1 P1 v1 src amps1) (scale_amps K2 P2 v2 src amps2).
Proof.
  intros [] Hd Hv H. unfold scale_amps. revert src. induction H as [|a a' l l' Ha H IH]; intros [|s src]; cbn; constructor; auto.
Qed.

(** ** Data *)
(** The wavefields [u + h usc]. *)
Definition line_st (u usc : st R_ops) (h : R) : st R_ops :=
  mkst R_ops (fun q => s_wfc R_ops u q + h * s_wfc R_ops usc q)%R (fun q => s_wfp R_ops u q + h * s_wfp R_ops usc q)%R
    (fun d q => s_psi R_ops u d q + h * s_psi R_ops usc d q)%R (fun d q => s_zeta R_ops u d q + h * s_zeta R_ops usc d q)%R.
Definition line (v s : arr R_ops) (h : R) : arr R_ops := fun i => (v i + h * s i)%R.

Lemma derivable_line (a b : R) : derivable_pt_lim (fun h => a + h * b)%R 0 b.
Proof.
  apply (derivable_eq _ _ (0 + (1 * b + 0 * 0))%R); [ring|].
  apply (derivable_pt_lim_plus (fun _ => a) (fun h => h * b)%R); [apply derivable_pt_lim_const|].
  apply (derivable_pt_lim_mult (fun h => h) (fun _ => b)); [apply derivable_pt_lim_id|apply derivable_pt_lim_const].
Qed.
Lemma plus_0h (a b : R) : (a + 0 * b = a)%R.
Proof. ring. Qed.
Lemma line_0 v s : line v s 0 = v.
Proof. apply functional_extensionality. intros i. apply plus_0h. Qed.
Lemma line_st_0 u s : line_st u s 0 = u.
Proof.
  destruct u, s. unfold line_st. cbn. f_equal; repeat (apply functional_extensionality; intros); apply plus_0h.
Qed.
Lemma line_st_curve P u s : scurve P (line_st u s) s.
Proof. split; intros; apply derivable_line. Qed.

Lemma scale_curve (P : par R_ops) v s src (amps : Z -> list R) nt :
  rcurve nt (fun h t => scale_amps R_ops P (line v s h) src (amps t)) (fun t => scale_amps_sc R_ops P v s src (amps t)).
Proof.
  intros t _.
  assert (E : scale_amps_sc R_ops P v s src (amps t) = lep (scale_amps (dual R_ops) (dpar P) (perturb (K := R_ops) v s) src (map (dconst (K := R_ops)) (amps t)))).
  { rewrite (scale_amps_dual R_ops R_is_ring P P v s src (amps t) eq_refl). symmetry. apply lep_dlist. unfold scale_amps, scale_amps_sc. rewrite !map_length. reflexivity. }
  rewrite E.
  apply (row_curve (scale_amps fun_ops (fpar P) (fun i h => line v s h i) src (map (fun a (_ : R) => a) (amps t)))).
  - intros h. apply (scale_amps_rel fun_ops R_ops (at_h h)); [apply at_h_op|reflexivity|reflexivity|].
    pose proof (Forall2_maps (at_h h) (fun a (_ : R) => a) (fun a : R => a) (amps t) (fun x _ => eq_refl)) as H. rewrite map_id in H. exact H.
  - apply (scale_amps_rel fun_ops (dual R_ops) has_deriv); [apply has_deriv_op|split; [reflexivity|apply derivable_pt_lim_const]| |].
    + intros i. split; [apply plus_0h|apply derivable_line].
    + apply Forall2_maps. intros x _. split; [reflexivity|apply derivable_pt_lim_const].
Qed.

Lemma ueq_curve P u du du' : ueq R_ops P du du' -> scurve P u du' -> scurve P u du.
Proof.
  intros E [sc_wfc0 sc_wfp0 sc_psi0 sc_zeta0]. split; intros; destruct (E q) as (A & B & C); auto.
  - eapply derivable_eq; [|apply sc_wfc0; assumption]. symmetry. exact A.
  - eapply derivable_eq; [|apply sc_wfp0; assumption]. symmetry. exact B.
  - eapply derivable_eq; [|apply sc_psi0; assumption]. symmetry. apply C. assumption.
  - eapply derivable_eq; [|apply sc_zeta0; assumption]. symmetry. apply C. assumption.
Qed.

Section Data.
Variable P : par R_ops.
Variable pw : nat -> Z * Z.
Variable recsc : list Z.
Hypothesis Hg : geom_ok R_ops P pw.
Hypothesis Hsrc : Forall (loc_ok R_ops P) (p_src P).
Hypothesis Hrec : Forall (loc_ok R_ops P) (p_rec P).
Hypothesis Hrecsc : Forall (loc_ok R_ops P) recsc.

Theorem born_data_real v scatter amps u usc nt sr vis vis1 vrg srg vrg1 cb cb1 w0 wsc0 st1 :
  (0 < sr)%Z -> cb_ok nt sr cb -> cb_ok nt sr cb1 -> fvis R_ops P pw vis -> fvis R_ops P pw vis1 ->
  exists B Uh Rh Sh,
    born_forward R_ops P recsc pw v scatter vis vrg srg sr
      (fun t => scale_amps R_ops P v (p_src P) (amps t)) (fun t => scale_amps_sc R_ops P v scatter (p_src P) (amps t)) nt cb w0 wsc0 u usc = Some B /\
    (forall h, scalar_forward R_ops (withrec P recsc) pw (line v scatter h) vis1 vrg1 sr
       (fun t => scale_amps R_ops P (line v scatter h) (p_src P) (amps t)) nt cb1 st1 (line_st u usc h) = Some (Uh h, Rh h, Sh h)) /\
    scurve P Uh (bo_usc R_ops B) /\ rcurve nt Rh (bo_rsc R_ops B).
Proof.
  intros Hsr C C1 V V1.
  set (F0 := fun t => scale_amps R_ops P v (p_src P) (amps t)). set (dF := fun t => scale_amps_sc R_ops P v scatter (p_src P) (amps t)).
  assert (L : forall t, length (dF t) = length (F0 t)) by (intros t; apply scale_length).
  destruct (born_is_derivative R_ops R_is_ring P recsc pw Hg Hsrc Hrec Hrecsc v scatter F0 dF u usc nt sr vis vis vis1 vrg srg vrg vrg1 cb cb cb1 w0 wsc0
     (fun _ _ => 0%R) (fun s i => dconst (K := R_ops) (st1 s i)) L Hsr C C C1 V V V1) as (B & U1 & R1 & S1 & U2 & R2 & S2 & E1 & _ & E3 & _ & _ & X3 & X4).
  destruct (forward_curve (withrec P recsc) pw (locs_lt R_ops P pw Hg _ Hsrc) (locs_lt R_ops P pw Hg _ Hrecsc) (line v scatter) scatter
     (fun h t => scale_amps R_ops P (line v scatter h) (p_src P) (amps t)) dF (line_st u usc) usc vis1 vrg1 sr nt cb1 st1 U2 R2 S2 Hsr
     (fun reg p Hi => fvis_in R_ops P pw Hg vis1 reg p V1 Hi) ltac:(intros c ->; exact C1)
     ltac:(intros i _; apply derivable_line) (scale_curve P v scatter (p_src P) amps nt) (line_st_curve _ u usc)) as (Uh & Rh & Sh & A1 & A2 & A3).
  { rewrite line_st_0. rewrite line_0. rewrite <- E3. unfold perturb. f_equal.
    apply functional_extensionality. intros t. rewrite drow_dlist; [reflexivity|]. symmetry. apply L. }
  exists B, Uh, Rh, Sh. split; [exact E1|]. split; [exact A1|]. split.
  - apply (ueq_curve P Uh _ (sep U2)); [exact X3|]. destruct A2; split; assumption.
  - intros t Ht. rewrite X4. apply A3. exact Ht.
Qed.
End Data.

(** ** Gradients *)
(** Relations on both components. *)
Definition both {K1 K2 : ops} (Q : K1 -> K2 -> Prop) (x : dual K1) (y : dual K2) : Prop := Q (fst x) (fst y) /\ Q (snd x) (snd y).
Lemma both_op (K1 K2 : ops) (Q : K1 -> K2 -> Prop) : oprel K1 K2 Q -> oprel (dual K1) (dual K2) (both Q).
Proof. intros []. split; unfold both; cbn; intros; intuition auto. Qed.
Lemma both_par (K1 K2 : ops) (Q : K1 -> K2 -> Prop) P1 P2 : oprel K1 K2 Q -> prel K1 K2 Q P1 P2 -> prel (dual K1) (dual K2) (both Q) (dpar P1) (dpar P2).
Proof. intros [] []. split; unfold both, dconst; cbn; auto. Qed.
Lemma lep_both {K1 K2 : ops} (Q : K1 -> K2 -> Prop) a b : Forall2 (both Q) a b -> Forall2 Q (lep a) (lep b).
Proof. induction 1 as [|x y a b H F IH]; cbn; constructor; [apply H|exact IH]. Qed.

Section Second.
Variable P : par R_ops.
Variable pw : nat -> Z * Z.
Notation n := (prodZ (p_shape P)).
Hypothesis Hsrc : Forall (fun l => (l < n)%Z) (p_src P).
Hypothesis Hrec : Forall (fun l => (l < n)%Z) (p_rec P).

(** As [forward_curve], of the eps parts. *)
Lemma forward_curve2 V dV S dS F dF Fs dFs U dU Us dUs vis vrg sr nt cb (store : Z -> arr R_ops) UD RD SD :
  (0 < sr)%Z -> (forall reg p, In (reg, p) vis -> interior R_ops P p = true) -> (forall c, cb = Some c -> (0 < c)%Z) ->
  acurve n V dV -> acurve n S dS -> rcurve nt F dF -> rcurve nt Fs dFs -> scurve P U dU -> scurve P Us dUs ->
  scalar_forward (dual (dual R_ops)) (dpar (dpar P)) pw (perturb (K := dual R_ops) (fun i => (V 0%R i, dV i)) (fun i => (S 0%R i, dS i))) vis vrg sr
    (fun t => dlist (K := dual R_ops) (drow (F 0%R) dF t) (drow (Fs 0%R) dFs t)) nt cb
    (fun s i => dconst (K := dual R_ops) (dconst (K := R_ops) (store s i))) (dstate (K := dual R_ops) (dst_of (U 0%R) dU) (dst_of (Us 0%R) dUs))
    = Some (UD, RD, SD) ->
  exists Uh Rh Sh,
    (forall h, scalar_forward (dual R_ops) (dpar P) pw (perturb (K := R_ops) (V h) (S h)) vis vrg sr (fun t => dlist (K := R_ops) (F h t) (Fs h t)) nt cb
       (fun s i => dconst (K := R_ops) (store s i)) (dstate (K := R_ops) (U h) (Us h)) = Some (Uh h, Rh h, Sh h)) /\
    scurve P (fun h => sep (Uh h)) (sep (sep UD)) /\ rcurve nt (fun h t => lep (Rh h t)) (fun t => lep (lep (RD t))).
Proof.
  intros Hsr Hvis Hcb HV HS HF HFs HU HUs ED.
  set (TW := fun t => (0 <= t < nt)%Z). set (SW := fun _ : Z => True).
  set (DF := dual fun_ops).
  set (PF := dpar (fpar P) : par DF).
  set (VF := perturb (K := fun_ops) (fun i h => V h i) (fun i h => S h i)).
  set (FF := fun t => dlist (K := fun_ops) (frow F dF t) (frow Fs dFs t)).
  set (UF := dstate (K := fun_ops) (fst_of U) (fst_of Us)).
  set (stF := fun s i => dconst (K := fun_ops) (fun _ : R => store s i)).
  assert (Hvis' : forall reg p, In (reg, p) vis -> interior DF PF p = true) by exact Hvis.
  assert (HTW : forall t, (0 <= t < nt / sr * sr)%Z -> TW t) by (intros t Ht; pose proof (Z.mul_div_le nt sr Hsr); unfold TW; nia).
  pose proof (scalar_forward_rel DF (dual (dual R_ops)) (both has_deriv) (both_op _ _ _ has_deriv_op) PF (dpar (dpar P))
     (both_par _ _ _ _ _ has_deriv_op (fpar_deriv P)) Hsrc Hrec TW SW pw
     VF (perturb (K := dual R_ops) (fun i => (V 0%R i, dV i)) (fun i => (S 0%R i, dS i))) vis vrg sr FF
     (fun t => dlist (K := dual R_ops) (drow (F 0%R) dF t) (drow (Fs 0%R) dFs t)) nt cb stF
     (fun s i => dconst (K := dual R_ops) (dconst (K := R_ops) (store s i))) UF (dstate (K := dual R_ops) (dst_of (U 0%R) dU) (dst_of (Us 0%R) dUs)) Hvis'
     ltac:(intros i Hi; split; (split; [reflexivity|]); [apply HV|apply HS]; exact Hi)
     ltac:(intros t Ht; apply (dlist_rel has_deriv); [intros; split; assumption|apply (frow_deriv F dF t nt HF Ht)|apply (frow_deriv Fs dFs t nt HFs Ht)])
     ltac:(intros t _; exact I)
     ltac:(intros s _ i _; split; (split; [reflexivity|apply derivable_pt_lim_const]))
     Hsr Hcb HTW
     ltac:(destruct HU, HUs; split; cbn; intros; split; (split; [reflexivity|cbn; auto]))) as HD.
  assert (HR : forall h, match scalar_forward DF PF pw VF vis vrg sr FF nt cb stF UF,
       scalar_forward (dual R_ops) (dpar P) pw (perturb (K := R_ops) (V h) (S h)) vis vrg sr (fun t => dlist (K := R_ops) (F h t) (Fs h t)) nt cb
       (fun s i => dconst (K := R_ops) (store s i)) (dstate (K := R_ops) (U h) (Us h)) with
     | Some (U1, r1, s1), Some (U2, r2, s2) => strel DF (dual R_ops) (both (at_h h)) PF U1 U2 /\ (forall t, TW t -> Forall2 (both (at_h h)) (r1 t) (r2 t)) /\
         (forall s, SW s -> arel DF (dual R_ops) (both (at_h h)) n (s1 s) (s2 s))
     | None, None => True | _, _ => False end).
  { intros h. apply (scalar_forward_rel DF (dual R_ops) (both (at_h h)) (both_op _ _ _ (at_h_op h)) PF (dpar P) (both_par _ _ _ _ _ (at_h_op h) (fpar_at P h)) Hsrc Hrec TW SW pw); auto.
    - intros i Hi. split; reflexivity.
    - intros t Ht. apply (dlist_rel (at_h h)); [intros; split; assumption|apply frow_at, (proj1 (HF t Ht))|apply frow_at, (proj1 (HFs t Ht))].
    - intros t _. exact I.
    - intros s _ i _. split; reflexivity.
    - split; intros; split; reflexivity. }
  rewrite ED in HD.
  destruct (scalar_forward DF PF pw VF vis vrg sr FF nt cb stF UF) as [[[Uf Rf] Sf]|]; [|contradiction].
  destruct HD as ([D1 D2 D3 D4] & DR & _).
  pose (run := fun h => scalar_forward (dual R_ops) (dpar P) pw (perturb (K := R_ops) (V h) (S h)) vis vrg sr (fun t => dlist (K := R_ops) (F h t) (Fs h t)) nt cb
       (fun s i => dconst (K := R_ops) (store s i)) (dstate (K := R_ops) (U h) (Us h))).
  exists (fun h => match run h with Some (a, _, _) => a | None => dstate (K := R_ops) (U h) (Us h) end),
    (fun h => match run h with Some (_, b, _) => b | None => fun _ => [] end),
    (fun h => match run h with Some (_, _, c) => c | None => fun s i => dconst (K := R_ops) (store s i) end).
  assert (HR' : forall h, exists a b c, run h = Some (a, b, c) /\
     strel DF (dual R_ops) (both (at_h h)) PF Uf a /\ (forall t, TW t -> Forall2 (both (at_h h)) (Rf t) (b t))).
  { intros h. specialize (HR h). fold (run h) in HR. destruct (run h) as [[[a b] c]|]; [|contradiction].
    exists a, b, c. split; [reflexivity|]. tauto. }
  clear HR. split; [|split].
  - intros h. fold (run h). destruct (HR' h) as (a & b & c & -> & _). reflexivity.
  - split.
    + intros q Hq. apply (derivable_ext (snd (s_wfc DF Uf q))); [|exact (proj2 (proj2 (D1 q Hq)))].
      intros h. destruct (HR' h) as (a & b & c & -> & [A1 A2 A3 A4] & _). exact (proj2 (A1 q Hq)).
    + intros q Hq. apply (derivable_ext (snd (s_wfp DF Uf q))); [|exact (proj2 (proj2 (D2 q Hq)))].
      intros h. destruct (HR' h) as (a & b & c & -> & [A1 A2 A3 A4] & _). exact (proj2 (A2 q Hq)).
    + intros d q Hd Hq. apply (derivable_ext (snd (s_psi DF Uf d q))); [|exact (proj2 (proj2 (D3 d q Hd Hq)))].
      intros h. destruct (HR' h) as (a & b & c & -> & [A1 A2 A3 A4] & _). exact (proj2 (A3 d q Hd Hq)).
    + intros d q Hd Hq. apply (derivable_ext (snd (s_zeta DF Uf d q))); [|exact (proj2 (proj2 (D4 d q Hd Hq)))].
      intros h. destruct (HR' h) as (a & b & c & -> & [A1 A2 A3 A4] & _). exact (proj2 (A4 d q Hd Hq)).
  - intros t Ht. apply (row_curve (lep (Rf t))); [|apply lep_both, DR; exact Ht].
    intros h. destruct (HR' h) as (a & b & c & -> & _ & A). apply lep_both, A. exact Ht.
Qed.
End Second.

Lemma scurve_ext P u u' du du' : (forall h, ueq R_ops P (u h) (u' h)) -> ueq R_ops P du du' -> scurve P u' du' -> scurve P u du.
Proof.
  intros E E' H. apply (ueq_curve P u _ du' E'). destruct H as [H1 H2 H3 H4]. split; intros.
  - eapply derivable_ext; [|apply H1; assumption]. intros h. symmetry. apply (E h q). assumption.
  - eapply derivable_ext; [|apply H2; assumption]. intros h. symmetry. apply (E h q). assumption.
  - eapply derivable_ext; [|apply H3; eassumption]. intros h. symmetry. apply (E h q); assumption.
  - eapply derivable_ext; [|apply H4; eassumption]. intros h. symmetry. apply (E h q); assumption.
Qed.
Lemma ueq_sep (P : par R_ops) a b : ueq (dual R_ops) (dpar P) a b -> ueq R_ops P (sep a) (sep b).
Proof.
  intros E q Hq. destruct (E q Hq) as (A & B & C). cbn. unfold fep. rewrite A, B. split; [reflexivity|]. split; [reflexivity|].
  intros d Hd. destruct (C d Hd) as [-> ->]. split; reflexivity.
Qed.
Lemma rcurve_ext nt (r r' : R -> Z -> list R) dr dr' : (forall h t, r h t = r' h t) -> (forall t, dr t = dr' t) -> rcurve nt r' dr' -> rcurve nt r dr.
Proof.
  intros E E' H t Ht. destruct (H t Ht) as [A B]. rewrite E'. split; [intros h; rewrite E; apply A|].
  intros j Hj. eapply derivable_ext; [|apply B; exact Hj]. intros h. cbn. rewrite E. reflexivity.
Qed.

(** [G], [gr], [Gsc], [grsc]: gradient of the objective function of the outputs at those of [B0]. *)
Definition born_obj_gradient (P : par R_ops) (nt : Z) (obj : st R_ops -> (Z -> list R) -> st R_ops -> (Z -> list R) -> R) (B0 : born_out R_ops)
    (G : st R_ops) (gr : Z -> list R) (Gsc : st R_ops) (grsc : Z -> list R) : Prop :=
  forall u r us rs du dr dus drs, u 0%R = bo_u R_ops B0 -> r 0%R = bo_r R_ops B0 -> us 0%R = bo_usc R_ops B0 -> rs 0%R = bo_rsc R_ops B0 ->
    scurve P u du -> rcurve nt r dr -> scurve P us dus -> rcurve nt rs drs ->
    derivable_pt_lim (fun h => obj (u h) (r h) (us h) (rs h)) 0
      (udot R_ops P G du + udot R_ops P Gsc dus + tdot (K := R_ops) nt gr dr + tdot (K := R_ops) nt grsc drs)%R.

Section BGrad.
Variable P : par R_ops.
Variable pw : nat -> Z * Z.
Variable recsc : list Z.
Hypothesis Hg : geom_ok R_ops P pw.
Hypothesis Hsrc : Forall (loc_ok R_ops P) (p_src P).
Hypothesis Hrec : Forall (loc_ok R_ops P) (p_rec P).
Hypothesis Hrecsc : Forall (loc_ok R_ops P) recsc.
Notation n := (prodZ (p_shape P)).

Theorem born_gradient_real obj V dV S dS F dF Fs dFs U dU Us dUs G Gsc gr grsc nt visF visB vrg srg cbF cbB w0 wsc0 B0 :
  (0 <= nt)%Z -> cb_ok nt 1 cbF -> cb_ok nt 1 cbB -> fvis R_ops P pw visF -> bvis R_ops P pw visB ->
  (forall h t, length (Fs h t) = length (F h t)) -> (forall t, length (gr t) = length (p_rec P)) ->
  acurve n V dV -> acurve n S dS -> rcurve nt F dF -> rcurve nt Fs dFs -> scurve P U dU -> scurve P Us dUs ->
  (vrg = false -> forall i, dV i = 0%R) -> (srg = false -> forall i, dS i = 0%R) ->
  born_forward R_ops P recsc pw (V 0%R) (S 0%R) visF vrg srg 1 (F 0%R) (Fs 0%R) nt cbF w0 wsc0 (U 0%R) (Us 0%R) = Some B0 ->
  born_obj_gradient P nt obj B0 G gr Gsc grsc ->
  exists J G0,
    (forall h, exists B, born_forward R_ops P recsc pw (V h) (S h) visF vrg srg 1 (F h) (Fs h) nt cbF w0 wsc0 (U h) (Us h) = Some B /\
       J h = obj (bo_u R_ops B) (bo_r R_ops B) (bo_usc R_ops B) (bo_rsc R_ops B)) /\
    born_backward R_ops P recsc pw (V 0%R) (S 0%R) visB (bo_w R_ops B0) (bo_wsc R_ops B0) vrg srg 1 gr grsc nt cbB G Gsc = Some G0 /\
    derivable_pt_lim J 0 (udot R_ops P (bg_u R_ops G0) dU + udot R_ops P (bg_usc R_ops G0) dUs
      + tdot (K := R_ops) nt (bg_f R_ops G0) dF + tdot (K := R_ops) nt (bg_fsc R_ops G0) dFs
      + adot (K := R_ops) n (bg_v R_ops G0) dV + adot (K := R_ops) n (bg_scatter R_ops G0) dS)%R.
Proof.
  intros Hnt HcF HcB HvF HvB HL HLg HV HS HF HFs HU HUs HvF0 HsF0 E0 Hobj.
  assert (HLd : forall t, length (drow (Fs 0%R) dFs t) = length (drow (F 0%R) dF t)) by (intros t; unfold drow; rewrite !map_length, !seq_length; apply HL).
  destruct (born_gradient_exact R_ops R_is_ring P recsc pw Hg Hsrc Hrec Hrecsc (fun i => (V 0%R i, dV i)) (fun i => (S 0%R i, dS i))
     (drow (F 0%R) dF) (drow (Fs 0%R) dFs) (dst_of (U 0%R) dU) (dst_of (Us 0%R) dUs) G Gsc gr grsc nt visF visF visB vrg srg vrg srg cbF cbF cbB
     (fun s i => dconst (K := R_ops) (w0 s i)) (fun s i => dconst (K := R_ops) (wsc0 s i)) w0 wsc0 oq1 HLd HLg Hnt HcF HcF HcB HvF HvF HvB HvF0 HsF0)
    as (BD & B & G0 & E1 & E2 & E3 & E4).
  assert (EF : (fun t => lre (drow (F 0%R) dF t)) = F 0%R) by (apply functional_extensionality; intros t; apply lre_drow).
  assert (EFs : (fun t => lre (drow (Fs 0%R) dFs t)) = Fs 0%R) by (apply functional_extensionality; intros t; apply lre_drow).
  change (are (fun i => (V 0%R i, dV i))) with (V 0%R) in E2, E3. change (are (fun i => (S 0%R i, dS i))) with (S 0%R) in E2, E3.
  rewrite EF, EFs in E2.
  assert (EU : forall u du, sre (dst_of u du) = u) by (intros [] ?; reflexivity).
  rewrite !EU, E0 in E2. injection E2 as <-.
  (* the dual run *)
  destruct (born_is_derivative (dual R_ops) (dual_is_ring R_ops R_is_ring) (dpar P) recsc pw (geom_dual R_ops R_is_ring P pw Hg) Hsrc Hrec Hrecsc
     (fun i => (V 0%R i, dV i)) (fun i => (S 0%R i, dS i)) (drow (F 0%R) dF) (drow (Fs 0%R) dFs) (dst_of (U 0%R) dU) (dst_of (Us 0%R) dUs)
     nt 1 visF visF visF vrg srg true true cbF cbF cbF (fun s i => dconst (K := R_ops) (w0 s i)) (fun s i => dconst (K := R_ops) (wsc0 s i))
     (fun s i => dconst (K := R_ops) (w0 s i)) (fun s i => dconst (K := dual R_ops) (dconst (K := R_ops) (w0 s i))) HLd ltac:(lia) HcF HcF HcF HvF HvF HvF)
    as (BD' & U1 & R1 & S1 & U2 & R2 & S2 & X1 & X2 & X3 & X4 & X5 & X6 & X7).
  pose proof (eq_trans (eq_sym E1) X1) as EB. injection EB as <-.
  assert (Hc : forall c, cbF = Some c -> (0 < c)%Z) by (intros c ->; exact HcF).
  assert (Hin : forall reg p, In (reg, p) visF -> interior R_ops P p = true) by (intros reg p Hi; exact (fvis_in R_ops P pw Hg visF reg p HvF Hi)).
  destruct (forward_curve P pw (locs_lt R_ops P pw Hg _ Hsrc) (locs_lt R_ops P pw Hg _ Hrec) V dV F dF U dU visF true 1 nt cbF w0 U1 R1 S1
     ltac:(lia) Hin Hc HV HF HU X2) as (Uh & Rh & Sh & C1 & C2 & C3).
  destruct (forward_curve2 (withrec P recsc) pw (locs_lt R_ops P pw Hg _ Hsrc) (locs_lt R_ops P pw Hg _ Hrecsc) V dV S dS F dF Fs dFs U dU Us dUs visF true 1 nt cbF w0 U2 R2 S2
     ltac:(lia) Hin Hc HV HS HF HFs ltac:(destruct HU; split; assumption) ltac:(destruct HUs; split; assumption) X3) as (Uh2 & Rh2 & Sh2 & D1 & D2 & D3).
  (* the runs at h *)
  assert (HB : forall h, exists B, born_forward R_ops P recsc pw (V h) (S h) visF vrg srg 1 (F h) (Fs h) nt cbF w0 wsc0 (U h) (Us h) = Some B /\
     ueq R_ops P (bo_u R_ops B) (Uh h) /\ (forall t, bo_r R_ops B t = Rh h t) /\ ueq R_ops P (bo_usc R_ops B) (sep (Uh2 h)) /\ (forall t, bo_rsc R_ops B t = lep (Rh2 h t))).
  { intros h.
    destruct (born_is_derivative R_ops R_is_ring P recsc pw Hg Hsrc Hrec Hrecsc (V h) (S h) (F h) (Fs h) (U h) (Us h)
     nt 1 visF visF visF vrg srg true true cbF cbF cbF w0 wsc0 w0 (fun s i => dconst (K := R_ops) (w0 s i)) (HL h) ltac:(lia) HcF HcF HcF HvF HvF HvF)
    as (B & U3 & R3 & S3 & U4 & R4 & S4 & Y1 & Y2 & Y3 & Y4 & Y5 & Y6 & Y7).
    pose proof (eq_trans (eq_sym Y2) (C1 h)) as EA. injection EA as -> -> ->.
    pose proof (eq_trans (eq_sym Y3) (D1 h)) as EA. injection EA as -> -> ->.
    exists B. auto. }
  pose (Bh := fun h => match born_forward R_ops P recsc pw (V h) (S h) visF vrg srg 1 (F h) (Fs h) nt cbF w0 wsc0 (U h) (Us h) with Some B => B | None => B0 end).
  assert (HB' : forall h, born_forward R_ops P recsc pw (V h) (S h) visF vrg srg 1 (F h) (Fs h) nt cbF w0 wsc0 (U h) (Us h) = Some (Bh h) /\
     ueq R_ops P (bo_u R_ops (Bh h)) (Uh h) /\ (forall t, bo_r R_ops (Bh h) t = Rh h t) /\ ueq R_ops P (bo_usc R_ops (Bh h)) (sep (Uh2 h)) /\
     (forall t, bo_rsc R_ops (Bh h) t = lep (Rh2 h t))).
  { intros h. destruct (HB h) as (B & Y & Z). unfold Bh. rewrite Y. split; [reflexivity|exact Z]. }
  exists (fun h => obj (bo_u R_ops (Bh h)) (bo_r R_ops (Bh h)) (bo_usc R_ops (Bh h)) (bo_rsc R_ops (Bh h))), G0.
  split; [|split].
  - intros h. exists (Bh h). split; [apply HB'|reflexivity].
  - exact E3.
  - assert (B00 : Bh 0%R = B0) by (unfold Bh; rewrite E0; reflexivity).
    pose proof (Hobj (fun h => bo_u R_ops (Bh h)) (fun h => bo_r R_ops (Bh h)) (fun h => bo_usc R_ops (Bh h)) (fun h => bo_rsc R_ops (Bh h))
      (sep (bo_u _ BD)) (fun t => lep (bo_r _ BD t)) (sep (bo_usc _ BD)) (fun t => lep (bo_rsc _ BD t))
      ltac:(cbn; rewrite B00; reflexivity) ltac:(cbn; rewrite B00; reflexivity) ltac:(cbn; rewrite B00; reflexivity) ltac:(cbn; rewrite B00; reflexivity)
      ltac:(apply (scurve_ext P _ Uh _ (sep U1)); [intros h; apply HB'|apply ueq_sep, X4|exact C2])
      ltac:(apply (rcurve_ext nt _ Rh _ (fun t => lep (R1 t))); [intros h; apply HB'|intros t; rewrite X5; reflexivity|exact C3])
      ltac:(apply (scurve_ext P _ (fun h => sep (Uh2 h)) _ (sep (sep U2))); [intros h; apply HB'|apply ueq_sep, X6|destruct D2; split; assumption])
      ltac:(apply (rcurve_ext nt _ (fun h t => lep (Rh2 h t)) _ (fun t => lep (lep (R2 t)))); [intros h; apply HB'|intros t; rewrite X7; reflexivity|exact D3])) as H.
    eapply derivable_eq; [|exact H]. etransitivity; [exact E4|]. cbn [oadd R_ops].
    f_equal. f_equal. f_equal; [f_equal|]; unfold tdot; apply sumf_ext; intros t Ht; apply In_zrange in Ht.
    + rewrite lep_drow by (apply (HF t Ht)). reflexivity.
    + rewrite lep_drow by (apply (HFs t Ht)). reflexivity.
Qed.
End BGrad.
