(** * Second derivatives of the scalar propagator (proofs). *)
From Coq Require Import List ZArith QArith Ring Ring_theory Lia Bool Permutation.
From Verif Require Import Ops Sums Grid Stencil DualNum ScalarModel ScalarRefine ScalarForward
  ScalarBackward ScalarAdjoint ScalarFunc ScalarApi ScalarGrad ScalarMore Param ShotsModel Shots ShotsRun ShotsThm
  BornModel BornSim BornBack BornThm BornGrad DoubleModel.
Import ListNotations.
Local Open Scope K_scope.

Section Dbl.
Variable K : ops.
Hypothesis Kr : is_ring K.
Add Ring KRing : Kr.
Variable P : par K.
Variable pw : nat -> Z * Z.
Notation Pd := (db_par K P).
Notation shape := (p_shape P).
Notation nd := (length shape).
Notation KD := (dual K).
Notation KK := (dual (dual K)).

(** *** The calls are those of the Born functions when [sr] divides [nt] *)
Lemma range_up_one n : (0 < n)%Z -> range_up n n = [0%Z].
Proof.
  intros H. unfold range_up. replace ((n + n - 1) / n)%Z with 1%Z; [reflexivity|].
  apply Z.div_unique with (n - 1)%Z; lia.
Qed.
Lemma range_down_one n : (0 < n)%Z -> range_down n n = [n].
Proof.
  intros H. unfold range_down. replace ((n + n - 1) / n)%Z with 1%Z; [change (zrange 0 1) with [0%Z]; cbn [map]; f_equal; lia|].
  apply Z.div_unique with (n - 1)%Z; lia.
Qed.

Lemma db_forward_driver v ggv vis vrg sr f ggf nt w0 wsc0 u ggu : (0 < sr)%Z -> (0 <= nt)%Z -> (nt mod sr = 0)%Z ->
  n_fwd_driver K Pd (p_rec P) v ggv vis vrg false sr f ggf nt None (n_fwd_init K Pd (p_rec P) pw w0 wsc0 u ggu)
  = Some (db_forward K P pw v ggv vis vrg sr f ggf nt w0 wsc0 u ggu).
Proof.
  intros Hs Hn Hm. unfold n_fwd_driver, db_forward. destruct (Z.leb_spec nt 0).
  - replace nt with 0%Z by lia. reflexivity.
  - assert (E : (nt = nt / sr * sr)%Z) by (rewrite (Z.div_mod nt sr) at 1 by lia; lia).
    assert (0 < nt / sr)%Z by nia. destruct (Z.eqb_spec (nt / sr) 0); [lia|].
    rewrite range_up_one by assumption. cbn [fold_left]. unfold n_fwd_chunk.
    rewrite Z.min_r by lia. rewrite Z.mul_0_l, <- E. reflexivity.
Qed.

Lemma db_backward_driver v ggv vis w wsc sr gr nt g : (0 < sr)%Z -> (0 <= nt)%Z -> (nt mod sr = 0)%Z ->
  h_bwd_driver K Pd (p_rec P) v ggv vis w wsc true false sr (fun _ => []) gr nt None
    (mkhmem K (bwd_init K Pd pw (zero_st K)) (bwd_init K Pd pw g))
  = Some (db_backward K P pw v ggv vis w wsc true sr gr nt g).
Proof.
  intros Hs Hn Hm. unfold h_bwd_driver, db_backward. cbn [negb]. rewrite orb_false_r. destruct (Z.leb_spec nt 0).
  - replace nt with 0%Z by lia. reflexivity.
  - assert (E : (nt = nt / sr * sr)%Z) by (rewrite (Z.div_mod nt sr) at 1 by lia; lia).
    assert (0 < nt / sr)%Z by nia. destruct (Z.eqb_spec (nt / sr) 0); [lia|].
    rewrite range_down_one by assumption. cbn [fold_left]. unfold h_bwd_chunk.
    rewrite Z.min_id, <- E. reflexivity.
Qed.

Lemma double_is_born v ggv visF visB sr f ggf nt w0 wsc0 u ggu gr g :
  (0 < sr)%Z -> (0 <= nt)%Z -> (nt mod sr = 0)%Z ->
  let D := scalar_double_backward K P pw v ggv visF visB true sr f ggf nt w0 wsc0 u ggu gr g in
  exists B G,
    born_forward K Pd (p_rec P) pw v ggv visF true false sr f ggf nt None w0 wsc0 u ggu = Some B /\
    born_backward K Pd (p_rec P) pw v ggv visB (bo_w K B) (bo_wsc K B) true false sr (fun _ => []) gr nt None (zero_st K) g = Some G /\
    db_r K D = bo_rsc K B /\ db_g K D = bo_usc K B /\ db_v K D = bg_v K G /\ db_f K D = bg_f K G /\ db_u K D = bg_u K G /\
    db_w K D = bo_w K B /\ db_wsc K D = bo_wsc K B.
Proof.
  intros Hs Hn Hm D. unfold born_forward, born_backward.
  rewrite db_forward_driver by assumption. eexists. 
  rewrite db_backward_driver by assumption. eexists.
  split; [reflexivity|]. split; [reflexivity|]. repeat split.
Qed.

(** *** Extensionality *)
Hypothesis Hg : geom_ok K P pw.
Hypothesis Hsrc : Forall (loc_ok K P) (p_src P).
Hypothesis Hrec : Forall (loc_ok K P) (p_rec P).

Lemma Forall2_eq {A} (a b : list A) : Forall2 eq a b -> a = b.
Proof. induction 1; congruence. Qed.
Lemma Forall2_refl {A} (a : list A) : Forall2 eq a a.
Proof. induction a; constructor; auto. Qed.
Lemma prel_refl (L : ops) (Q : par L) : Param.prel L L eq Q Q.
Proof. split; reflexivity. Qed.

(** The first gradient, from forward and backward runs over dual numbers. *)
Definition dcst (s : st K) : st KD :=
  mkst KD (fun q => dconst (s_wfc K s q)) (fun q => dconst (s_wfp K s q))
    (fun d q => dconst (s_psi K s d q)) (fun d q => dconst (s_zeta K s d q)).

Definition Rf (x : KK) (y : KD) : Prop := y = (fst (fst x), fst (snd x)).
Lemma Rf_oprel : oprel KK KD Rf.
Proof.
  split; unfold Rf.
  - reflexivity.
  - reflexivity.
  - intros x x' y y' -> ->. reflexivity.
  - intros x x' y y' -> ->. apply dual_eq; cbn; ring.
  - intros x x' y y' -> ->. reflexivity.
  - intros x x' ->. reflexivity.
  - reflexivity.
Qed.
Lemma Rf_prel : Param.prel KK KD Rf (dpar (dpar P)) (dpar P).
Proof. split; try reflexivity; intros; reflexivity. Qed.

Lemma lre_dconst (l : list K) : lre (map dconst l) = l.
Proof. unfold lre. rewrite map_map. apply map_id. Qed.
Lemma lep_dconst (l : list K) : lep (map dconst l) = map (fun _ => 0) l.
Proof. unfold lep. rewrite map_map. reflexivity. Qed.

Lemma Forall2_Rf (a : list KD) (b : list K) : length b = length a ->
  Forall2 Rf (dlist a (map dconst b)) (dlist (lre a) b).
Proof.
  unfold dlist, lre. revert b. induction a as [|x a IH]; intros [|y b] H; cbn in *; try discriminate; constructor.
  - reflexivity.
  - apply IH. lia.
Qed.
Lemma Forall2_Rf_ep (a : list KK) (b : list KD) : Forall2 Rf a b -> lre (lep a) = lep b.
Proof.
  unfold lre, lep. induction 1 as [|x y a b H _ IH]; [reflexivity|]. cbn [map].
  f_equal; [rewrite H; reflexivity|exact IH].
Qed.

Lemma ldot_zero_r (a : list K) {A} (b : list A) : ldot a (map (fun _ => 0) b) = 0.
Proof. revert b. unfold ldot. induction a as [|x a IH]; intros [|y b]; cbn in *; try ring. rewrite IH. ring. Qed.
Lemma tdot_zero nt (x y : Z -> list K) : (forall t, ldot (x t) (y t) = 0) -> tdot nt x y = 0.
Proof. intros H. unfold tdot. apply (sumf_zero K Kr). intros; apply H. Qed.
Lemma udot_zero_r (a : st K) : udot K P a (zero_st K) = 0.
Proof.
  unfold udot, dot. cbn [zero_st s_wfc s_wfp s_psi s_zeta].
  rewrite !(sumf_zero K Kr); [ring|intros d _; rewrite !(sumf_zero K Kr) by (intros; ring); ring|intros; ring|intros; ring].
Qed.
Lemma udot_zero_l (a : st K) : udot K P (zero_st K) a = 0.
Proof.
  unfold udot, dot. cbn [zero_st s_wfc s_wfp s_psi s_zeta].
  rewrite !(sumf_zero K Kr); [ring|intros d _; rewrite !(sumf_zero K Kr) by (intros; ring); ring|intros; ring|intros; ring].
Qed.
Lemma dot_comm (l : list pt) (a b : pt -> K) : dot l a b = dot l b a.
Proof. unfold dot. apply sumf_ext. intros. ring. Qed.
Lemma udot_comm (a b : st K) : udot K P a b = udot K P b a.
Proof.
  unfold udot. rewrite (dot_comm _ (s_wfc K a)), (dot_comm _ (s_wfp K a)). f_equal.
  apply sumf_ext. intros d _. rewrite (dot_comm _ (s_psi K a d)), (dot_comm _ (s_zeta K a d)). reflexivity.
Qed.
Lemma adot_comm n (a b : arr K) : adot n a b = adot n b a.
Proof. unfold adot. apply sumf_ext. intros. ring. Qed.
Lemma ldot_comm (a b : list K) : ldot a b = ldot b a.
Proof. unfold ldot. revert b. induction a as [|x a IH]; intros [|y b]; cbn in *; try reflexivity. rewrite IH. ring. Qed.
Lemma tdot_comm nt (x y : Z -> list K) : tdot nt x y = tdot nt y x.
Proof. unfold tdot. apply sumf_ext. intros. apply ldot_comm. Qed.
Lemma adot_zero_r n (a b : arr K) : (forall i, b i = 0) -> adot n a b = 0.
Proof. intros H. unfold adot. apply (sumf_zero K Kr). intros. rewrite H. ring. Qed.

(** C37 *)
Lemma double_backward_exact (V : arr KD) (F : Z -> list KD) (U g : st KD) (gr : Z -> list KD)
    (ggv : arr K) (ggf : Z -> list K) (ggu : st K) nt visF1 visB1 visF visB cb1 cb2 sto1 w0 wsc0 :
  oq K (inject_Z 1) = 1 ->
  (forall t, length (ggf t) = length (F t)) ->
  (0 <= nt)%Z -> cb_ok nt 1 cb1 -> cb_ok nt 1 cb2 ->
  fvis K P pw visF1 -> bvis K P pw visB1 -> fvis K P pw visF -> bvis K P pw visB ->
  exists U1 R1 S1 G0 gf gv,
    scalar_forward KD (dpar P) pw V visF1 true 1 F nt cb1 sto1 U = Some (U1, R1, S1) /\
    scalar_backward KD (dpar P) pw V visB1 S1 true 1 gr nt cb2 g = Some (G0, gf, gv) /\
    let D := scalar_double_backward K P pw (are V) ggv visF visB true 1 (fun t => lre (F t)) ggf nt w0 wsc0 (sre U) ggu
               (fun t => lre (gr t)) (sre g) in
    adot (prodZ shape) ggv (aep gv) + tdot nt ggf (fun t => lep (gf t)) + udot K P ggu (sep G0)
    = tdot nt (db_r K D) (fun t => lep (gr t)) + udot K P (db_g K D) (sep g)
      + adot (prodZ shape) (db_v K D) (aep V) + tdot nt (db_f K D) (fun t => lep (F t)) + udot K P (db_u K D) (sep U).
Proof.
  intros Hq Hl Hnt C1 C2 V1 B1 VF VB.
  assert (HlD : forall t, length (F t) = length (map dconst (ggf t))) by (intros; rewrite map_length; symmetry; apply Hl).
  assert (Hc0 : cb_ok nt 1 None).
  { unfold cb_ok. destruct (Z.eq_dec nt 0); [left|right]; lia. }
  pose (V2 := perturb V (fun i => dconst (ggv i)) : arr KK).
  pose (F2 := (fun t => dlist (F t) (map dconst (ggf t))) : Z -> list KK).
  pose (U2 := dstate U (dcst ggu) : st KK).
  pose (sto2 := (fun _ _ => 0) : Z -> arr KK).
  pose proof (geom_dual K Kr P pw Hg) as HgD.
  (* first gradient: C02 over dual numbers *)
  destruct (scalar_gradient_exact KD (dual_is_ring K Kr) (dpar P) pw HgD Hsrc Hrec V2 F2 U2 g gr nt visF visF1 visB1 true
     None cb1 cb2 sto2 sto1 ltac:(cbn; rewrite Hq; reflexivity) Hnt Hc0 C1 C2 VF V1 B1)
    as (U' & R' & SD & UK & RK & S' & G0 & gf & gv & E1 & E2 & E3 & E4).
  change (are V2) with V in E2, E3.
  (* the same with the sources as given *)
  pose proof (scalar_forward_rel KD KD eq (oprel_eq KD) (dpar P) (dpar P) (prel_refl _ _) (locs_lt K P pw Hg _ Hsrc)
     (locs_lt K P pw Hg _ Hrec) (fun _ => True) (fun _ => True) pw V V visF1 true 1 (fun t => lre (F2 t)) F
     nt cb1 sto1 sto1 (sre U2) U
     (fun reg p Hi => fvis_in K P pw Hg visF1 reg p V1 Hi)
     (fun i _ => eq_refl)
     ltac:(intros t _; unfold F2; rewrite lre_dlist by apply HlD; apply Forall2_refl)
     (fun _ _ => I) (fun s _ i _ => eq_refl) ltac:(lia)
     ltac:(intros c ->; exact C1) (fun _ _ => I)
     ltac:(split; intros; reflexivity)) as HR1.
  rewrite E2 in HR1.
  destruct (scalar_forward KD (dpar P) pw V visF1 true 1 F nt cb1 sto1 U) as [[[U1 R1] S1]|] eqn:EF; [|contradiction].
  destruct HR1 as (_ & _ & HS).
  pose proof (scalar_backward_rel KD KD eq (oprel_eq KD) (dpar P) (dpar P) (prel_refl _ _) (locs_lt K P pw Hg _ Hsrc)
     (locs_lt K P pw Hg _ Hrec) (fun _ => True) (fun _ => True) pw V V visB1 true 1 S' S1 gr gr
     nt cb2 g g
     (fun reg p Hi => bvis_in K P pw Hg visB1 reg p B1 Hi)
     (fun i _ => eq_refl) (fun t _ => Forall2_refl _) (fun _ _ => I) HS ltac:(lia)
     ltac:(intros c ->; exact C2) (fun _ _ => I)
     ltac:(split; intros; reflexivity)) as HR2.
  rewrite E3 in HR2.
  destruct (scalar_backward KD (dpar P) pw V visB1 S1 true 1 gr nt cb2 g) as [[[G0' gf'] gv']|] eqn:EB; [|contradiction].
  destruct HR2 as ([T1 T2 T3 T4] & Tf & Tv).
  exists U1, R1, S1, G0', gf', gv'. split; [reflexivity|]. split; [exact EB|]. intros D.
  (* Born over dual numbers *)
  destruct (born_is_derivative KD (dual_is_ring K Kr) (dpar Pd) (p_rec P) pw HgD Hsrc (Forall_nil _) Hrec
     V (fun i => dconst (ggv i)) F (fun t => map dconst (ggf t)) U (dcst ggu) nt 1 visF visF visF false false true true None None None
     (fun _ _ => 0) (fun _ _ => 0) (fun _ _ => 0) sto2 (fun t => eq_sym (HlD t)) ltac:(lia) Hc0 Hc0 Hc0 VF VF VF)
    as (BD & U1b & R1b & S1b & U2b & R2b & S2b & X1 & _ & X3 & _ & _ & X6 & X7).
  change (dpar (withrec (dpar Pd) (p_rec P))) with (dpar (dpar P)) in X3.
  change (scalar_forward KK (dpar (dpar P)) pw V2 visF true 1 F2 nt None sto2 U2 = Some (U2b, R2b, S2b)) in X3.
  rewrite E1 in X3. injection X3 as <- <- <-.
  (* Born gradient: C05 *)
  destruct (born_gradient_exact_gen K Kr Pd (p_rec P) pw Hg Hsrc (Forall_nil _) Hrec V (fun i => dconst (ggv i)) F (fun t => map dconst (ggf t))
     U (dcst ggu) (fun t => lre (F t)) ggf (zero_st K) (sre g) (fun _ => []) (fun t => lre (gr t)) nt visF visF visB false false true false
     None None None (fun _ _ => 0) (fun _ _ => 0) w0 wsc0 Hq (fun _ => eq_refl) (fun t => eq_sym (lre_dconst (ggf t))) (fun t => eq_sym (HlD t))
     (fun _ => eq_refl) Hnt Hc0 Hc0 Hc0 VF VF VB ltac:(discriminate) (fun _ _ => eq_refl))
    as (BD' & B & G & Y1 & Y2 & Y3 & Y4).
  rewrite X1 in Y1. injection Y1 as <-.
  destruct (double_is_born (are V) ggv visF visB 1 (fun t => lre (F t)) ggf nt w0 wsc0 (sre U) ggu (fun t => lre (gr t)) (sre g)
    ltac:(lia) Hnt (Z.mod_1_r nt)) as (B' & G' & Z1 & Z2 & D1 & D2 & D3 & D4 & D5 & _).
  change (born_forward K Pd (p_rec P) pw (are V) (are (fun i => dconst (ggv i))) visF true false 1 (fun t => lre (F t)) ggf nt None w0 wsc0 (sre U) (sre (dcst ggu)) = Some B)
    with (born_forward K Pd (p_rec P) pw (are V) ggv visF true false 1 (fun t => lre (F t)) ggf nt None w0 wsc0 (sre U) ggu = Some B) in Y2.
  rewrite Y2 in Z1. injection Z1 as <-.
  change (are (fun i => dconst (ggv i))) with ggv in Y3.
  rewrite Y3 in Z2. injection Z2 as <-.
  fold D in D1, D2, D3, D4, D5. rewrite D1, D2, D3, D4, D5. clear D1 D2 D3 D4 D5 D.
  (* real parts of the scattered outputs *)
  destruct (born_is_derivative K Kr Pd (p_rec P) pw Hg Hsrc (Forall_nil _) Hrec (are V) ggv (fun t => lre (F t)) ggf
     (sre U) ggu nt 1 visF visF visF true false true true None None None w0 wsc0 (fun _ _ => 0) (fun _ _ => 0)
     ltac:(intros t; unfold lre; rewrite map_length; apply Hl) ltac:(lia) Hc0 Hc0 Hc0 VF VF VF)
    as (B0 & U3b & R3b & S3b & U3 & R3 & S3 & W1 & _ & W3 & _ & _ & W6 & W7).
  rewrite Y2 in W1. injection W1 as <-.
  change (dpar (withrec Pd (p_rec P))) with (dpar P) in W3.
  pose proof (scalar_forward_rel KK KD Rf Rf_oprel (dpar (dpar P)) (dpar P) Rf_prel (locs_lt K P pw Hg _ Hsrc)
     (locs_lt K P pw Hg _ Hrec) (fun _ => True) (fun _ => True) pw V2 (perturb (are V) ggv) visF true 1 F2 (fun t => dlist (lre (F t)) (ggf t))
     nt None sto2 (fun _ _ => 0) U2 (dstate (sre U) ggu)
     (fun reg p Hi => fvis_in K P pw Hg visF reg p VF Hi)
     (fun i _ => eq_refl) (fun t _ => Forall2_Rf (F t) (ggf t) (Hl t)) (fun _ _ => I) (fun s _ i _ => eq_refl) ltac:(lia)
     ltac:(discriminate) (fun _ _ => I)
     ltac:(split; intros; reflexivity)) as HR3.
  rewrite E1, W3 in HR3. destruct HR3 as ([P1 P2' P3 P4] & PR & _).
  (* assemble *)
  apply (f_equal snd) in E4. cbn [dual oadd snd car] in E4.
  pose proof (snd_udot K Kr Pd (p_rec P) g (sep U')) as Q1.
  pose proof (snd_udot K Kr Pd (p_rec P) G0 (sep U2)) as Q2.
  change (dpar (P2 K Pd (p_rec P))) with (dpar P) in Q1, Q2.
  rewrite Q1, Q2 in E4. clear Q1 Q2.
  change (udot K Pd) with (udot K P) in *.
  rewrite (udot_ext K P (sre g) (sre g) (sep (sep U')) (sep (bo_usc _ BD))) in E4; [|apply ueq_refl|].
  2:{ intros q Hi. destruct (X6 q Hi) as (A1 & A2 & A3). cbn [sep s_wfc s_wfp s_psi s_zeta]. unfold fep.
      rewrite A1, A2. split; [reflexivity|]. split; [reflexivity|]. intros d Hd. destruct (A3 d Hd) as (-> & ->). split; reflexivity. }
  rewrite (udot_ext K P (sep g) (sep g) (sre (sep U')) (bo_usc K B)) in E4; [|apply ueq_refl|].
  2:{ intros q Hi. destruct (W6 q Hi) as (A1 & A2 & A3). rewrite A1, A2. cbn [sep sre s_wfc s_wfp s_psi s_zeta]. unfold fep, fre.
      rewrite (P1 q Hi), (P2' q Hi). split; [reflexivity|]. split; [reflexivity|].
      intros d Hd. destruct (A3 d Hd) as (-> & ->). cbn. unfold fep. rewrite (P3 d q Hd Hi), (P4 d q Hd Hi). split; reflexivity. }
  assert (ER : snd (tdot nt gr (fun t => lep (R' t)))
               = tdot nt (fun t => lre (gr t)) (fun t => lep (bo_rsc _ BD t)) + tdot nt (fun t => lep (gr t)) (bo_rsc K B)).
  { rewrite (tdot_add K Kr). unfold tdot. rewrite snd_sumf. apply sumf_ext. intros t _. rewrite (snd_ldot K Kr).
    rewrite X7, W7. rewrite (Forall2_Rf_ep _ _ (PR t I)). reflexivity. }
  assert (ES : snd (tdot nt gf (fun t => lep (F2 t))) = tdot nt ggf (fun t => lep (gf' t))).
  { unfold tdot. rewrite snd_sumf. apply sumf_ext. intros t _. rewrite (snd_ldot K Kr). unfold F2.
    rewrite lep_dlist by apply HlD. rewrite lre_dconst, lep_dconst, ldot_zero_r.
    rewrite (Forall2_eq _ _ (Tf t I)). rewrite (ldot_comm). ring. }
  assert (EA : snd (adot (prodZ (p_shape (dpar P))) gv (aep V2)) = adot (prodZ shape) ggv (aep gv')).
  { change (p_shape (dpar P)) with shape. rewrite (snd_adot K Kr). rewrite (adot_zero_r _ _ (aep (aep V2))) by (intros; reflexivity).
    rewrite (adot_comm (prodZ shape) ggv). unfold adot. rewrite (sumf_ext K _ (fun i => aep gv i * _) (fun i => aep gv' i * ggv i)).
    - ring.
    - intros i Hi. apply In_zrange in Hi. unfold aep. rewrite (Tv i Hi). reflexivity. }
  rewrite ER, ES, EA in E4.
  rewrite (udot_ext K P (sre G0) (sre G0') (sep (sep U2)) (zero_st K)) in E4; [| |intros q _; repeat split].
  2:{ intros q Hi. cbn. unfold fre. rewrite (T1 q Hi), (T2 q Hi). split; [reflexivity|]. split; [reflexivity|].
      intros d Hd. rewrite (T3 d q Hd Hi), (T4 d q Hd Hi). split; reflexivity. }
  rewrite (udot_ext K P (sep G0) (sep G0') (sre (sep U2)) ggu) in E4; [| |intros q _; repeat split].
  2:{ intros q Hi. cbn. unfold fep. rewrite (T1 q Hi), (T2 q Hi). split; [reflexivity|]. split; [reflexivity|].
      intros d Hd. rewrite (T3 d q Hd Hi), (T4 d q Hd Hi). split; reflexivity. }
  rewrite udot_zero_r in E4.
  change (udot K Pd) with (udot K P) in Y4.
  rewrite udot_zero_l in Y4. rewrite (tdot_zero nt (fun _ => [])) in Y4 by reflexivity.
  rewrite (tdot_zero nt (bg_fsc K G)) in Y4 by (intros; rewrite lep_dconst; apply ldot_zero_r).
  rewrite (adot_zero_r _ (bg_scatter K G)) in Y4 by reflexivity.
  rewrite (udot_ext K P (bg_usc K G) (bg_usc K G) (sep (dcst ggu)) (zero_st K)) in Y4; [|apply ueq_refl|intros q _; repeat split].
  rewrite udot_zero_r in Y4. change (p_shape Pd) with shape in Y4.
  rewrite (udot_comm ggu), (udot_comm (bo_usc K B)), (tdot_comm nt (bo_rsc K B)).
  match type of E4 with ?a + ?b + (?c + ?d) = ?l => assert (EL : l = (a + c) + (b + d)) by (rewrite <- E4; ring) end.
  match type of Y4 with 0 + ?a + 0 + ?c = ?l => assert (EY : a + c = l) by (rewrite <- Y4; ring) end.
  rewrite EY in EL.
  match goal with |- ?l = _ => transitivity (udot K P (sep G0') ggu + l - udot K P (sep G0') ggu) end; [ring|].
  match type of EL with ?l = _ => match goal with |- ?g = _ => replace g with l by ring end end.
  rewrite EL. ring.
Qed.

(** The first backward pass does not read receiver gradients after its last step. *)
Lemma backward_ignores_tail v vis sto vrg sr gr gr' nt cb g :
  bvis K P pw vis -> (0 < sr)%Z -> (0 <= nt)%Z -> cb_ok nt sr cb ->
  (forall t, (0 <= t < nt / sr * sr)%Z -> gr t = gr' t) ->
  match scalar_backward K P pw v vis sto vrg sr gr nt cb g, scalar_backward K P pw v vis sto vrg sr gr' nt cb g with
  | Some (U, f, w), Some (U', f', w') =>
      ueq K P U U' /\ (forall t, (0 <= t < nt / sr * sr)%Z -> f t = f' t) /\ (forall i, (0 <= i < prodZ shape)%Z -> w i = w' i)
  | None, None => True
  | _, _ => False
  end.
Proof.
  intros HB Hs Hn Hc Hg'.
  pose proof (scalar_backward_rel K K eq (oprel_eq K) P P (prel_refl K P) (locs_lt K P pw Hg _ Hsrc)
     (locs_lt K P pw Hg _ Hrec) (fun t => (0 <= t < nt / sr * sr)%Z) (fun _ => True) pw v v vis vrg sr sto sto gr gr'
     nt cb g g
     (fun reg p Hi => bvis_in K P pw Hg vis reg p HB Hi)
     (fun i _ => eq_refl) ltac:(intros t Ht; rewrite (Hg' t Ht); apply Forall2_refl) (fun _ _ => I) (fun s _ i _ => eq_refl) Hs
     ltac:(intros c ->; exact Hc) ltac:(intros t Ht; exact Ht)
     ltac:(split; intros; reflexivity)) as HR.
  destruct (scalar_backward K P pw v vis sto vrg sr gr nt cb g) as [[[U f] w]|];
    destruct (scalar_backward K P pw v vis sto vrg sr gr' nt cb g) as [[[U' f'] w']|]; try contradiction; [|exact I].
  destruct HR as ([T1 T2 T3 T4] & Tf & Tv).
  split; [|split].
  - intros q Hi. rewrite (T1 q Hi), (T2 q Hi). split; [reflexivity|]. split; [reflexivity|].
    intros d Hd. rewrite (T3 d q Hd Hi), (T4 d q Hd Hi). split; reflexivity.
  - intros t Ht. apply Forall2_eq, Tf, Ht.
  - exact Tv.
Qed.
End Dbl.
