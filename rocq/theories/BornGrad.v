(** * Gradients of the Born propagator (proofs). *)
From Coq Require Import List ZArith QArith Ring Ring_theory Lia Bool Permutation.
From Verif Require Import Ops Sums Grid Stencil DualNum ScalarModel ScalarRefine ScalarForward
  ScalarBackward ScalarAdjoint ScalarFunc ScalarApi ScalarGrad ScalarMore Param ShotsModel Shots ShotsRun ShotsThm BornModel BornSim BornBack BornThm.
Import ListNotations.
Local Open Scope K_scope.

Section Lin.
Variable K : ops.
Hypothesis Kr : is_ring K.
Add Ring KRing : Kr.
Variable P : par K.
Variable recsc : list Z.
Notation PB := (P2 K P recsc).
Notation DPB := (dpar PB).
Notation shape := (p_shape P).

(** The eps part of inner products. *)
Lemma snd_dot (l : list pt) (a b : field (dual K)) :
  snd (dot l a b) = dot l (fre a) (fep b) + dot l (fep a) (fre b).
Proof.
  unfold dot. rewrite snd_sumf. rewrite <- (sumf_add K Kr). apply sumf_ext. intros p _. cbn. unfold fre, fep. ring.
Qed.

Lemma snd_udot (a b : st (dual K)) :
  snd (udot (dual K) DPB a b) = udot K P (sre a) (sep b) + udot K P (sep a) (sre b).
Proof.
  unfold udot. change (upts (dual K) DPB) with (upts K P). change (dims (dual K) DPB) with (dims K P).
  cbn [dual oadd fst snd car]. rewrite !snd_dot, snd_sumf.
  rewrite (sumf_ext K (dims K P) _ (fun d =>
     (dot (upts K P) (s_psi K (sre a) d) (s_psi K (sep b) d) + dot (upts K P) (s_zeta K (sre a) d) (s_zeta K (sep b) d))
     + (dot (upts K P) (s_psi K (sep a) d) (s_psi K (sre b) d) + dot (upts K P) (s_zeta K (sep a) d) (s_zeta K (sre b) d)))).
  2:{ intros d _. cbn [dual oadd fst snd car]. rewrite !snd_dot. cbn [sre sep s_psi s_zeta]. ring. }
  rewrite (sumf_add K Kr). cbn [sre sep s_wfc s_wfp]. ring.
Qed.

Lemma snd_ldot (a b : list (dual K)) : snd (ldot a b) = ldot (lre a) (lep b) + ldot (lep a) (lre b).
Proof.
  unfold ldot, lre, lep. revert b. induction a as [|x a IH]; intros [|y b]; cbn in *; try ring.
  rewrite IH. ring.
Qed.

Lemma snd_adot n (a b : arr (dual K)) : snd (adot n a b) = adot n (are a) (aep b) + adot n (aep a) (are b).
Proof.
  unfold adot. rewrite snd_sumf, <- (sumf_add K Kr). apply sumf_ext. intros i _. cbn. unfold are, aep. ring.
Qed.

Lemma ldot_app (a a' b b' : list K) : length a = length b -> ldot (a ++ a') (b ++ b') = ldot a b + ldot a' b'.
Proof. intros H. unfold ldot. rewrite combine_app by exact H. apply (sumf_app K Kr). Qed.

Lemma snd_drecs gr grsc (Ra Rb : list (dual K)) : length gr = length Ra ->
  snd (ldot (drecs gr grsc) (Ra ++ Rb)) = ldot gr (lre Ra) + ldot grsc (lep Rb).
Proof.
  intros H. rewrite snd_ldot, lre_drecs, lep_drecs. unfold lre, lep. rewrite !map_app.
  rewrite !ldot_app by (rewrite ?map_length; exact H).
  rewrite !(ldot_zero_l K Kr). change (car K * car K)%type with (car (dual K)). ring.
Qed.

Lemma tdot_ext nt (x y x' y' : Z -> list K) :
  (forall t, ldot (x t) (y t) = ldot (x' t) (y' t)) -> tdot nt x y = tdot nt x' y'.
Proof. intros H. apply sumf_ext. intros t _. apply H. Qed.

Lemma tdot_add nt (x y x' y' : Z -> list K) :
  tdot nt x y + tdot nt x' y' = sumf (zrange 0 nt) (fun t => ldot (x t) (y t) + ldot (x' t) (y' t)).
Proof. unfold tdot. symmetry. apply (sumf_add K Kr). Qed.

Lemma ueq_refl (s : st K) : ueq K P s s.
Proof. intros q Hq. repeat split. Qed.

Variable pw : nat -> Z * Z.
Hypothesis Hg : geom_ok K P pw.
Hypothesis Hsrc : Forall (loc_ok K P) (p_src P).
Hypothesis Hrec : Forall (loc_ok K P) (p_rec P).
Hypothesis Hrecsc : Forall (loc_ok K P) recsc.

(** C05, gradients of the wavefields and source amplitudes, any step ratio. *)
Lemma born_linear_gradient v scatter f fsc u usc g gsc gr grsc sr nt visF visB vrgF srgF vrgB srgB cbF cbB
    w0 wsc0 w wsc :
  (forall t, length (fsc t) = length (f t)) -> (forall t, length (gr t) = length (p_rec P)) ->
  (0 < sr)%Z -> (0 <= nt)%Z -> cb_ok nt sr cbF -> cb_ok nt sr cbB ->
  fvis K P pw visF -> bvis K P pw visB ->
  exists B G,
    born_forward K P recsc pw v scatter visF vrgF srgF sr f fsc nt cbF w0 wsc0 u usc = Some B /\
    born_backward K P recsc pw v scatter visB w wsc vrgB srgB sr gr grsc nt cbB g gsc = Some G /\
    udot K P g (bo_u K B) + udot K P gsc (bo_usc K B) + tdot nt gr (bo_r K B) + tdot nt grsc (bo_rsc K B)
    = udot K P (bg_u K G) u + udot K P (bg_usc K G) usc + tdot nt (bg_f K G) f + tdot nt (bg_fsc K G) fsc.
Proof.
  intros Hl Hlr Hsr Hnt CF CB VF VB.
  set (F := fun t => dlist (f t) (fsc t)).
  assert (Ef : forall t, f t = lre (F t)) by (intros; symmetry; apply lre_dlist; auto).
  assert (Efs : forall t, fsc t = lep (F t)) by (intros; symmetry; apply lep_dlist; auto).
  pose proof (born_forward_sim K Kr P recsc v scatter vrgF srgF visF sr F f fsc Ef Efs pw nt cbF w0 wsc0
     (dstore K P v scatter w0 wsc0) (dstate u usc) (dstore_rel K Kr P v scatter vrgF srgF w0 wsc0)) as HF.
  pose proof (born_backward_sim K Kr P recsc v scatter vrgB srgB w wsc (dstore K P v scatter w wsc)
     (dstore_rel K Kr P v scatter vrgB srgB w wsc) sr visB gr grsc Hlr pw nt cbB g gsc) as HB.
  destruct (scalar_linear_gradient (dual K) (dual_is_ring K Kr) DPB pw (geom_dual K Kr PB pw Hg) Hsrc
     (rec_2 K P recsc Hrec Hrecsc) (perturb v scatter) F (dstate u usc) (dstate gsc g) (fun t => drecs (gr t) (grsc t))
     sr nt visF visB true true cbF cbB (dstore K P v scatter w0 wsc0) (dstore K P v scatter w wsc) Hsr Hnt CF CB VF VB)
    as (U' & R' & S' & G0 & gf & gv & E1 & E2 & E3).
  rewrite E1 in HF. rewrite E2 in HB.
  change (born_forward K P recsc pw v scatter visF vrgF srgF sr f fsc nt cbF w0 wsc0 (sre (dstate u usc)) (sep (dstate u usc)))
    with (born_forward K P recsc pw v scatter visF vrgF srgF sr f fsc nt cbF w0 wsc0 u usc) in HF.
  destruct (born_forward _ _ _ _ _ _ _ _ _ _ _ _ _ _ _ _ _ _) as [B|]; [|contradiction].
  destruct (born_backward _ _ _ _ _ _ _ _ _ _ _ _ _ _ _ _ _ _) as [G|]; [|contradiction].
  exists B, G. split; [reflexivity|]. split; [reflexivity|].
  destruct HF as (F1 & F2 & F3 & F4 & F5 & _). destruct HB as (B1 & B2 & B3 & B4 & B5 & _).
  apply (f_equal snd) in E3. cbn [dual oadd snd car] in E3. rewrite !snd_udot in E3.
  rewrite (udot_ext K P (sre (dstate gsc g)) gsc (sep U') (bo_usc K B)) in E3;
    [|intros q Hq; repeat split|intros q Hq; cbn; unfold fep; rewrite F1, F2; repeat split; intros; rewrite ?F3, ?F4; reflexivity].
  rewrite (udot_ext K P (sep (dstate gsc g)) g (sre U') (bo_u K B)) in E3;
    [|intros q Hq; repeat split|intros q Hq; cbn; unfold fre; rewrite F1, F2; repeat split; intros; rewrite ?F3, ?F4; reflexivity].
  rewrite (udot_ext K P (sre G0) (bg_usc K G) (sep (dstate u usc)) usc) in E3;
    [|intros q Hq; cbn; unfold fre; rewrite B1, B2; repeat split; intros; rewrite ?B3, ?B4; reflexivity|intros q Hq; repeat split].
  rewrite (udot_ext K P (sep G0) (bg_u K G) (sre (dstate u usc)) u) in E3;
    [|intros q Hq; cbn; unfold fep; rewrite B1, B2; repeat split; intros; rewrite ?B3, ?B4; reflexivity|intros q Hq; repeat split].
  assert (ER : snd (tdot nt (fun t => drecs (gr t) (grsc t)) R') = tdot nt gr (bo_r K B) + tdot nt grsc (bo_rsc K B)).
  { rewrite tdot_add. unfold tdot. rewrite snd_sumf. apply sumf_ext. intros t _.
    destruct (F5 t) as (Ra & Rb & -> & X2 & -> & ->). apply snd_drecs. rewrite Hlr. symmetry. exact X2. }
  assert (ES : snd (tdot nt gf F) = tdot nt (bg_f K G) f + tdot nt (bg_fsc K G) fsc).
  { rewrite tdot_add. unfold tdot. rewrite snd_sumf. apply sumf_ext. intros t _. rewrite snd_ldot, <- Ef, <- Efs.
    destruct (B5 t) as [-> ->]. ring. }
  rewrite ER, ES in E3.
  match goal with |- ?a + ?b + ?c + ?d = _ => transitivity (b + a + (c + d)); [ring|] end.
  rewrite E3. ring.
Qed.

End Lin.

(** ** Perturbations of all inputs *)

(** Exchange of the two infinitesimals of [dual (dual K)]. *)
Definition swp {K : ops} (x : dual (dual K)) : dual (dual K) :=
  ((fst (fst x), fst (snd x)), (snd (fst x), snd (snd x))).

Section Exact.
Variable K : ops.
Hypothesis Kr : is_ring K.
Add Ring KRing2 : Kr.
Variable P : par K.
Variable recsc : list Z.
Notation PB := (P2 K P recsc).
Notation DPB := (dpar PB).
Notation DDPB := (dpar DPB).
Notation shape := (p_shape P).
Notation nd := (length shape).
Notation KK := (dual (dual K)).

Definition Rs (x y : KK) : Prop := y = swp x.

Lemma swp_oprel : oprel KK KK Rs.
Proof.
  split; unfold Rs, swp.
  - reflexivity.
  - reflexivity.
  - intros x x' y y' -> ->. reflexivity.
  - intros x x' y y' -> ->. apply dual_eq; apply dual_eq; cbn; ring.
  - intros x x' y y' -> ->. reflexivity.
  - intros x x' ->. reflexivity.
  - reflexivity.
Qed.

Lemma swp_prel : prel KK KK Rs DDPB DDPB.
Proof. split; try reflexivity; intros; reflexivity. Qed.

Definition swst (s : st KK) : st KK :=
  mkst KK (fun p => swp (s_wfc _ s p)) (fun p => swp (s_wfp _ s p))
    (fun d p => swp (s_psi _ s d p)) (fun d p => swp (s_zeta _ s d p)).

Lemma Forall2_map_swp (l : list KK) : Forall2 Rs l (map swp l).
Proof. induction l; cbn; constructor; auto. reflexivity. Qed.

Variable pw : nat -> Z * Z.

Lemma Forall2_swp_eq (l l' : list KK) : Forall2 Rs l l' -> l' = map swp l.
Proof. induction 1 as [|x y l l' H _ IH]; cbn; [reflexivity|]. rewrite IH, H. reflexivity. Qed.

Hypothesis Hg : geom_ok K P pw.
Hypothesis Hsrc : Forall (loc_ok K P) (p_src P).
Hypothesis Hrec : Forall (loc_ok K P) (p_rec P).
Hypothesis Hrecsc : Forall (loc_ok K P) recsc.


Lemma locs_lt l : Forall (loc_ok K P) l -> Forall (fun x => (x < prodZ shape)%Z) l.
Proof. apply Forall_impl. intros x. apply (loc_lt K P pw Hg). Qed.

Lemma lre_swp_re (f fsc : list (dual K)) : length fsc = length f -> lre (lre (map swp (dlist f fsc))) = lre f.
Proof.
  unfold lre, dlist. rewrite !map_map. revert fsc. induction f as [|x f IH]; intros [|y fsc] H; cbn in *; try discriminate; auto.
  rewrite IH by lia. reflexivity.
Qed.
Lemma lre_swp_ep (f fsc : list (dual K)) : length fsc = length f -> lep (lre (map swp (dlist f fsc))) = lre fsc.
Proof.
  unfold lre, lep, dlist. rewrite !map_map. revert fsc. induction f as [|x f IH]; intros [|y fsc] H; cbn in *; try discriminate; auto.
  rewrite IH by lia. reflexivity.
Qed.
Lemma lep_swp_re (f fsc : list (dual K)) : length fsc = length f -> lre (lep (map swp (dlist f fsc))) = lep f.
Proof.
  unfold lre, lep, dlist. rewrite !map_map. revert fsc. induction f as [|x f IH]; intros [|y fsc] H; cbn in *; try discriminate; auto.
  rewrite IH by lia. reflexivity.
Qed.
Lemma lep_swp_ep (f fsc : list (dual K)) : length fsc = length f -> lep (lep (map swp (dlist f fsc))) = lep fsc.
Proof.
  unfold lep, dlist. rewrite !map_map. revert fsc. induction f as [|x f IH]; intros [|y fsc] H; cbn in *; try discriminate; auto.
  rewrite IH by lia. reflexivity.
Qed.

Lemma adot_ext n (a a' b b' : arr K) : (forall i, a i * b i = a' i * b' i) -> adot n a b = adot n a' b'.
Proof. intros H. apply sumf_ext. intros i _. apply H. Qed.

(** C05; [f0], [fsc0]: the unperturbed sources. *)
Lemma born_gradient_exact_gen (v scatter : arr (dual K)) (f fsc : Z -> list (dual K)) (u usc : st (dual K))
    (f0 fsc0 : Z -> list K) (g gsc : st K) gr grsc nt visD visF visB vrgD srgD vrg srg cbD cbF cbB w0D wsc0D w0 wsc0 :
  oq K (inject_Z 1) = 1 ->
  (forall t, f0 t = lre (f t)) -> (forall t, fsc0 t = lre (fsc t)) ->
  (forall t, length (fsc t) = length (f t)) -> (forall t, length (gr t) = length (p_rec P)) ->
  (0 <= nt)%Z -> cb_ok nt 1 cbD -> cb_ok nt 1 cbF -> cb_ok nt 1 cbB ->
  fvis K P pw visD -> fvis K P pw visF -> bvis K P pw visB ->
  (vrg = false -> forall i, snd (v i) = 0) -> (srg = false -> forall i, snd (scatter i) = 0) ->
  exists BD B G,
    born_forward (dual K) (dpar P) recsc pw v scatter visD vrgD srgD 1 f fsc nt cbD w0D wsc0D u usc = Some BD /\
    born_forward K P recsc pw (are v) (are scatter) visF vrg srg 1 f0 fsc0
      nt cbF w0 wsc0 (sre u) (sre usc) = Some B /\
    born_backward K P recsc pw (are v) (are scatter) visB (bo_w K B) (bo_wsc K B) vrg srg 1 gr grsc nt cbB g gsc = Some G /\
    udot K P g (sep (bo_u _ BD)) + udot K P gsc (sep (bo_usc _ BD))
      + tdot nt gr (fun t => lep (bo_r _ BD t)) + tdot nt grsc (fun t => lep (bo_rsc _ BD t))
    = udot K P (bg_u K G) (sep u) + udot K P (bg_usc K G) (sep usc)
      + tdot nt (bg_f K G) (fun t => lep (f t)) + tdot nt (bg_fsc K G) (fun t => lep (fsc t))
      + adot (prodZ shape) (bg_v K G) (aep v) + adot (prodZ shape) (bg_scatter K G) (aep scatter).
Proof.
  intros Hq Hf0 Hfsc0 Hl Hlr Hnt CD CF CB VD VF VB Zv Zs.
  pose (FF := fun t => dlist (f t) (fsc t) : list KK).
  pose (V'' := (fun i => swp (perturb v scatter i)) : arr KK).
  pose (F'' := (fun t => map swp (FF t)) : Z -> list KK).
  pose (U'' := swst (dstate u usc)).
  pose (st1 := dstore (dual K) (dpar P) v scatter w0D wsc0D).
  pose (st2 := (fun s i => swp (st1 s i)) : Z -> arr KK).
  pose (st0 := dstore K P (are v) (are scatter) w0 wsc0).
  destruct (scalar_gradient_exact (dual K) (dual_is_ring K Kr) DPB pw (geom_dual K Kr PB pw Hg) Hsrc
     (rec_2 K P recsc Hrec Hrecsc) V'' F'' U'' (dstate gsc g) (fun t => drecs (gr t) (grsc t))
     nt visD visF visB true cbD cbF cbB st2 st0 ltac:(cbn; rewrite Hq; reflexivity) Hnt CD CF CB VD VF VB)
    as (U' & R' & SD & UK & RK & S' & G0 & gf & gv & E1 & E2 & E3 & E4).
  (* Born over dual numbers *)
  pose proof (born_forward_sim (dual K) (dual_is_ring K Kr) (dpar P) recsc v scatter vrgD srgD visD 1 FF f fsc
     ltac:(intros; symmetry; apply lre_dlist; auto) ltac:(intros; symmetry; apply lep_dlist; auto) pw nt cbD w0D wsc0D
     st1 (dstate u usc) (dstore_rel (dual K) (dual_is_ring K Kr) (dpar P) v scatter vrgD srgD w0D wsc0D)) as HD.
  pose proof (scalar_forward_rel KK KK Rs swp_oprel DDPB DDPB swp_prel (locs_lt _ Hsrc)
     (locs_lt _ (rec_2 K P recsc Hrec Hrecsc)) (fun _ => True) (fun _ => True) pw (perturb v scatter) V'' visD true 1 FF F''
     nt cbD st1 st2 (dstate u usc) U''
     (fun reg p Hi => fvis_in K P pw Hg visD reg p VD Hi)
     (fun i _ => eq_refl) (fun t _ => Forall2_map_swp (FF t)) (fun _ _ => I) (fun s _ i _ => eq_refl) ltac:(lia)
     ltac:(intros c ->; exact CD) (fun _ _ => I)
     ltac:(split; intros; reflexivity)) as HR.
  rewrite E1 in HR.
  change (dpar (P2 (dual K) (dpar P) recsc)) with DDPB in HD.
  destruct (scalar_forward KK DDPB pw (perturb v scatter) visD true 1 FF nt cbD st1 (dstate u usc)) as [[[U0 R0] S0]|];
    [|contradiction].
  change (born_forward (dual K) (dpar P) recsc pw v scatter visD vrgD srgD 1 f fsc nt cbD w0D wsc0D (sre (dstate u usc)) (sep (dstate u usc)))
    with (born_forward (dual K) (dpar P) recsc pw v scatter visD vrgD srgD 1 f fsc nt cbD w0D wsc0D u usc) in HD.
  destruct (born_forward (dual K) _ _ _ _ _ _ _ _ _ _ _ _ _ _ _ _ _) as [BD|]; [|contradiction].
  (* Born over K *)
  pose proof (born_forward_sim K Kr P recsc (are v) (are scatter) vrg srg visF 1 (fun t => lre (F'' t))
     f0 fsc0 (fun t => eq_trans (Hf0 t) (eq_sym (lre_swp_re (f t) (fsc t) (Hl t))))
     (fun t => eq_trans (Hfsc0 t) (eq_sym (lre_swp_ep (f t) (fsc t) (Hl t)))) pw nt cbF w0 wsc0 st0 (sre U'')
     (dstore_rel K Kr P (are v) (are scatter) vrg srg w0 wsc0)) as HF.
  change (are V'') with (perturb (are v) (are scatter)) in E2, E3.
  rewrite E2 in HF.
  change (born_forward K P recsc pw (are v) (are scatter) visF vrg srg 1 f0 fsc0 nt cbF w0 wsc0 (sre (sre U'')) (sep (sre U'')))
    with (born_forward K P recsc pw (are v) (are scatter) visF vrg srg 1 f0 fsc0 nt cbF w0 wsc0 (sre u) (sre usc)) in HF.
  destruct (born_forward K _ _ _ _ _ _ _ _ _ _ _ _ _ _ _ _ _) as [B|]; [|contradiction].
  destruct HF as (_ & _ & _ & _ & _ & HS).
  pose proof (born_backward_sim K Kr P recsc (are v) (are scatter) vrg srg (bo_w K B) (bo_wsc K B) S' HS 1 visB gr grsc Hlr
     pw nt cbB g gsc) as HB.
  rewrite E3 in HB.
  destruct (born_backward _ _ _ _ _ _ _ _ _ _ _ _ _ _ _ _ _ _) as [G|] eqn:EG; [|contradiction].
  exists BD, B, G. split; [reflexivity|]. split; [reflexivity|]. split; [exact EG|].
  destruct HD as (F1 & F2 & F3 & F4 & F5 & _). destruct HB as (B1 & B2 & B3 & B4 & B5 & B6 & B7).
  destruct HR as (HU & HRr & _). destruct HU as [U1 U2 U3 U4].
  apply (f_equal snd) in E4. cbn [dual oadd snd car] in E4. rewrite !snd_udot in E4 by exact Kr.
  rewrite (udot_ext K P (sre (dstate gsc g)) gsc (sep (sep U')) (sep (bo_usc _ BD))) in E4; [|intros q Hq'; repeat split|].
  2:{ intros q Hq'. cbn. unfold fep. rewrite (U1 q Hq'), (U2 q Hq'), F1, F2. split; [reflexivity|]. split; [reflexivity|]. intros d Hd.
      rewrite (U3 d q Hd Hq'), F3, (U4 d q Hd Hq'), F4. split; reflexivity. }
  rewrite (udot_ext K P (sep (dstate gsc g)) g (sre (sep U')) (sep (bo_u _ BD))) in E4; [|intros q Hq'; repeat split|].
  2:{ intros q Hq'. cbn. unfold fre, fep. rewrite (U1 q Hq'), (U2 q Hq'), F1, F2. split; [reflexivity|]. split; [reflexivity|]. intros d Hd.
      rewrite (U3 d q Hd Hq'), F3, (U4 d q Hd Hq'), F4. split; reflexivity. }
  rewrite (udot_ext K P (sre G0) (bg_usc K G) (sep (sep U'')) (sep usc)) in E4;
    [|intros q Hq'; cbn; unfold fre; rewrite B1, B2; repeat split; intros; rewrite ?B3, ?B4; reflexivity|intros q Hq'; repeat split].
  rewrite (udot_ext K P (sep G0) (bg_u K G) (sre (sep U'')) (sep u)) in E4;
    [|intros q Hq'; cbn; unfold fep; rewrite B1, B2; repeat split; intros; rewrite ?B3, ?B4; reflexivity|intros q Hq'; repeat split].
  assert (ER : snd (tdot nt (fun t => drecs (gr t) (grsc t)) (fun t => lep (R' t)))
               = tdot nt gr (fun t => lep (bo_r _ BD t)) + tdot nt grsc (fun t => lep (bo_rsc _ BD t))).
  { rewrite (tdot_add K Kr). unfold tdot. rewrite snd_sumf. apply sumf_ext. intros t _.
    pose proof (Forall2_swp_eq _ _ (HRr t I)) as X. rewrite X.
    destruct (F5 t) as (Ra & Rb & -> & X2 & -> & ->). unfold lep at 1. rewrite !map_app.
    rewrite (snd_drecs K Kr) by (rewrite !map_length, Hlr; symmetry; exact X2).
    unfold lre, lep. rewrite !map_map. reflexivity. }
  assert (ES : snd (tdot nt gf (fun t => lep (F'' t)))
               = tdot nt (bg_f K G) (fun t => lep (f t)) + tdot nt (bg_fsc K G) (fun t => lep (fsc t))).
  { rewrite (tdot_add K Kr). unfold tdot. rewrite snd_sumf. apply sumf_ext. intros t _. rewrite (snd_ldot K Kr).
    unfold F'', FF. rewrite lep_swp_re, lep_swp_ep by apply Hl. destruct (B5 t) as [-> ->]. ring. }
  assert (EA : snd (adot (prodZ (p_shape DPB)) gv (aep V''))
               = adot (prodZ shape) (bg_v K G) (aep v) + adot (prodZ shape) (bg_scatter K G) (aep scatter)).
  { rewrite (snd_adot K Kr). change (p_shape DPB) with shape.
    match goal with |- ?a + ?b = ?c + ?d => assert (Ha : a = d); [|assert (Hb : b = c); [|rewrite Ha, Hb; ring]] end.
    - apply adot_ext. intros i. unfold are, aep, V'', swp, perturb. cbn [fst snd]. destruct srg eqn:Es.
      + rewrite B6 by reflexivity. reflexivity.
      + rewrite (Zs eq_refl i). ring.
    - apply adot_ext. intros i. unfold are, aep, V'', swp, perturb. cbn [fst snd]. destruct vrg eqn:Es.
      + rewrite B7 by reflexivity. reflexivity.
      + rewrite (Zv eq_refl i). ring. }
  rewrite ER, ES, EA in E4.
  match goal with |- ?a + ?b + ?c + ?d = _ => transitivity (b + a + (c + d)); [ring|] end.
  rewrite E4. ring.
Qed.

(** C05 *)
Lemma born_gradient_exact (v scatter : arr (dual K)) (f fsc : Z -> list (dual K)) (u usc : st (dual K))
    (g gsc : st K) gr grsc nt visD visF visB vrgD srgD vrg srg cbD cbF cbB w0D wsc0D w0 wsc0 :
  oq K (inject_Z 1) = 1 ->
  (forall t, length (fsc t) = length (f t)) -> (forall t, length (gr t) = length (p_rec P)) ->
  (0 <= nt)%Z -> cb_ok nt 1 cbD -> cb_ok nt 1 cbF -> cb_ok nt 1 cbB ->
  fvis K P pw visD -> fvis K P pw visF -> bvis K P pw visB ->
  (vrg = false -> forall i, snd (v i) = 0) -> (srg = false -> forall i, snd (scatter i) = 0) ->
  exists BD B G,
    born_forward (dual K) (dpar P) recsc pw v scatter visD vrgD srgD 1 f fsc nt cbD w0D wsc0D u usc = Some BD /\
    born_forward K P recsc pw (are v) (are scatter) visF vrg srg 1 (fun t => lre (f t)) (fun t => lre (fsc t))
      nt cbF w0 wsc0 (sre u) (sre usc) = Some B /\
    born_backward K P recsc pw (are v) (are scatter) visB (bo_w K B) (bo_wsc K B) vrg srg 1 gr grsc nt cbB g gsc = Some G /\
    udot K P g (sep (bo_u _ BD)) + udot K P gsc (sep (bo_usc _ BD))
      + tdot nt gr (fun t => lep (bo_r _ BD t)) + tdot nt grsc (fun t => lep (bo_rsc _ BD t))
    = udot K P (bg_u K G) (sep u) + udot K P (bg_usc K G) (sep usc)
      + tdot nt (bg_f K G) (fun t => lep (f t)) + tdot nt (bg_fsc K G) (fun t => lep (fsc t))
      + adot (prodZ shape) (bg_v K G) (aep v) + adot (prodZ shape) (bg_scatter K G) (aep scatter).
Proof. intros Hq. apply born_gradient_exact_gen; auto. Qed.

End Exact.
