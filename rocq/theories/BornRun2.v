(** * The Born propagator: linearity in the scattering potential, finite speed, reciprocity,
    backward runs (proofs). *)
From Coq Require Import List ZArith QArith Ring Ring_theory Lia Bool Permutation.
From Verif Require Import Ops Sums Grid Stencil DualNum ScalarModel ScalarRefine ScalarForward
  ScalarBackward ScalarAdjoint ScalarFunc ScalarApi ScalarGrad ScalarMore ScalarMore2 ScalarPhys
  ScalarReach ScalarUser Safety Param ShotsModel Shots ShotsRun ShotsThm BornModel BornSim BornBack BornThm BornGrad BornPy BornRun.
Import ListNotations.
Local Open Scope K_scope.

Local Arguments d1 : simpl never.
Local Arguments d2 : simpl never.
Local Arguments gather : simpl never.

(** ** Linearity in the scattering potential *)
Section Lin.
Variable K : ops.
Hypothesis Kr : is_ring K.
Add Ring KRing : Kr.
Variable P : par K.
Variable recsc : list Z.
Variable pw : nat -> Z * Z.
Notation shape := (p_shape P).
Notation nd := (length shape).
Hypothesis Hg : geom_ok K P pw.
Hypothesis Hsrc : Forall (loc_ok K P) (p_src P).
Hypothesis Hrec : Forall (loc_ok K P) (p_rec P).
Hypothesis Hrecsc : Forall (loc_ok K P) recsc.
Notation PB := (P2 K P recsc).
Notation DPB := (dpar PB).
Notation DDPB := (dpar DPB).
Notation KK := (dual (dual K)).
Notation BF := (born_forward K P recsc pw).
Notation Dr := (dual_is_ring K Kr).
Notation DDr := (dual_is_ring (dual K) Dr).

Let DHg : geom_ok (dual K) DPB pw := geom_dual K Kr PB pw (geom_2 K P recsc pw Hg).
Let DDHg : geom_ok KK DDPB pw := geom_dual (dual K) Dr DPB pw DHg.
Let DHrec : Forall (loc_ok (dual K) DPB) (p_rec DPB) := rec_2 K P recsc Hrec Hrecsc.

(** [((x, y), (z, _))] stands for a background [x] with two perturbations [y] and [z]; the number
    with the perturbation [a y + b z]. *)
Definition Rlin (a b : K) (x : KK) (y : dual K) : Prop :=
  fst y = fst (fst x) /\ snd y = a * snd (fst x) + b * fst (snd x).

Lemma Rlin_op a b : oprel KK (dual K) (Rlin a b).
Proof.
  split; unfold Rlin.
  - split; cbn; ring.
  - split; cbn; ring.
  - intros [[x1 x2] [x3 x4]] [x5 x6] [[y1 y2] [y3 y4]] [y5 y6] [H1 H2] [H3 H4]. cbn in *. rewrite H1, H2, H3, H4. split; [reflexivity|ring].
  - intros [[x1 x2] [x3 x4]] [x5 x6] [[y1 y2] [y3 y4]] [y5 y6] [H1 H2] [H3 H4]. cbn in *. rewrite H1, H2, H3, H4. split; [reflexivity|ring].
  - intros [[x1 x2] [x3 x4]] [x5 x6] [[y1 y2] [y3 y4]] [y5 y6] [H1 H2] [H3 H4]. cbn in *. rewrite H1, H2, H3, H4. split; [reflexivity|ring].
  - intros [[x1 x2] [x3 x4]] [x5 x6] [H1 H2]. cbn in *. rewrite H1, H2. split; [reflexivity|ring].
  - intros q. cbn. split; [reflexivity|ring].
Qed.
Lemma Rlin_const a b (c : K) : Rlin a b (dconst (dconst c) : KK) (dconst c).
Proof. split; cbn; [reflexivity|ring]. Qed.
Lemma Rlin_par a b : prel KK (dual K) (Rlin a b) DDPB DPB.
Proof. split; try reflexivity; intros; apply Rlin_const. Qed.

Definition tri (x y z : K) : KK := ((x, y), (z, 0)).
Definition tri_l (x y z : list K) : list KK := map (fun e => tri (fst (fst e)) (snd (fst e)) (snd e)) (combine (combine x y) z).
Definition tri_st (x y z : st K) : st KK :=
  mkst KK (fun q => tri (s_wfc K x q) (s_wfc K y q) (s_wfc K z q)) (fun q => tri (s_wfp K x q) (s_wfp K y q) (s_wfp K z q))
    (fun d q => tri (s_psi K x d q) (s_psi K y d q) (s_psi K z d q)) (fun d q => tri (s_zeta K x d q) (s_zeta K y d q) (s_zeta K z d q)).

Lemma tri_list a b x y z w : length y = length x -> length z = length x -> w = lc_l a b y z ->
  Forall2 (Rlin a b) (tri_l x y z) (dlist x w).
Proof.
  intros H1 H2 ->. unfold tri_l, dlist, lc_l. revert y z H1 H2.
  induction x as [|p x IH]; intros [|q y] [|r z] H1 H2; cbn in *; try discriminate; constructor.
  - split; reflexivity.
  - apply IH; lia.
Qed.

(** The run over [KK], in a fixed order, without storage. *)
Notation vis0 := (visits K P (pml_begin K P 2 pw) (pml_end K P 2 pw)).
Lemma lin_run (v s1 s2 : arr K) f f1 f2 u u1 u2 nt sr : (0 < sr)%Z ->
  (forall t, length (f1 t) = length (f t)) -> (forall t, length (f2 t) = length (f t)) ->
  exists (U : st KK) (R : Z -> list KK),
  (forall t, length (R t) = length (p_rec P ++ recsc)) /\
  forall a b scatter fsc usc vis vrg srg cb w0 x0 B,
  (forall i, scatter i = a * s1 i + b * s2 i) -> (forall t, fsc t = lc_l a b (f1 t) (f2 t)) ->
  (forall q, s_wfc K usc q = a * s_wfc K u1 q + b * s_wfc K u2 q) ->
  (forall q, s_wfp K usc q = a * s_wfp K u1 q + b * s_wfp K u2 q) ->
  (forall d q, s_psi K usc d q = a * s_psi K u1 d q + b * s_psi K u2 d q) ->
  (forall d q, s_zeta K usc d q = a * s_zeta K u1 d q + b * s_zeta K u2 d q) ->
  fvis K P pw vis -> cb_ok nt sr cb ->
  BF v scatter vis vrg srg sr f fsc nt cb w0 x0 u usc = Some B ->
  ueq K P (bo_u K B) (sre (sre U)) /\
  ueq K P (bo_usc K B) (lc_st a b (sep (sre U)) (sre (sep U))) /\
  (forall t, bo_r K B t = firstn (length (p_rec P)) (map (fun x : KK => fst (fst x)) (R t))) /\
  (forall t, bo_rsc K B t = skipn (length (p_rec P)) (map (fun x : KK => a * snd (fst x) + b * fst (snd x)) (R t))).
Proof.
  intros Hs L1 L2.
  assert (V0 : fvis K P pw vis0) by apply Permutation_refl.
  assert (C0 : cb_ok nt sr (Some 1%Z)) by (cbn; lia).
  destruct (forward_exists KK DDr DDPB pw DDHg Hsrc DHrec (fun i => tri (v i) (s1 i) (s2 i)) (fun t => tri_l (f t) (f1 t) (f2 t))
     (tri_st u u1 u2) nt sr vis0 false (Some 1%Z) (fun _ _ => 0) V0 Hs C0) as (U & R & S0 & E0).
  exists U, R. split.
  { destruct (fwd_out KK DDr DDPB pw DDHg Hsrc DHrec _ _ _ _ _ _ _ _ _ _ _ _ V0 Hs C0 E0) as (_ & A2 & A3 & _). intros t.
    destruct (Z_lt_dec t 0); [rewrite A3 by lia; apply map_length|].
    destruct (Z_lt_dec t (Z.of_nat (nsteps nt sr))); [|rewrite A3 by lia; apply map_length].
    rewrite <- (Z2Nat.id t) by lia. rewrite A2 by lia. unfold rec_amps, gather. apply map_length. }
  intros a b scatter fsc usc vis vrg srg cb w0 x0 B Hsc Hfsc Hu1 Hu2 Hu3 Hu4 V C E.
  assert (Lf : forall t, length (fsc t) = length (f t)).
  { intros t. rewrite Hfsc, lc_length; rewrite L1; auto. }
  destruct (born_dual_some K Kr _ _ _ _ _ _ _ _ _ _ _ _ _ _ _ _ _ _ Lf E) as (U1 & R1 & S1 & F1 & D1).
  pose proof (scalar_forward_rel KK (dual K) (Rlin a b) (Rlin_op a b) DDPB DPB (Rlin_par a b) (locs_lt K P pw Hg _ Hsrc)
     (locs_lt K P pw Hg _ DHrec) (fun _ => True) (fun _ => True) pw
     (fun i => tri (v i) (s1 i) (s2 i)) (perturb v scatter) vis0 false sr (fun t => tri_l (f t) (f1 t) (f2 t)) (fun t => dlist (f t) (fsc t))
     nt (Some 1%Z) (fun _ _ => 0) (fun _ _ => 0) (tri_st u u1 u2) (dstate u usc)
     (fun reg p Hi => fvis_in K P pw Hg vis0 reg p V0 Hi)
     (fun i _ => conj eq_refl (Hsc i)) (fun t _ => tri_list a b _ _ _ _ (L1 t) (L2 t) (Hfsc t)) (fun _ _ => I)
     (fun s _ i _ => or_0 _ _ _ (Rlin_op a b)) Hs
     ltac:(intros c [= <-]; lia) (fun _ _ => I)
     ltac:(split; [intros q _; exact (conj eq_refl (Hu1 q))|intros q _; exact (conj eq_refl (Hu2 q))|intros d q _ _; exact (conj eq_refl (Hu3 d q))|intros d q _ _; exact (conj eq_refl (Hu4 d q))])) as HR.
  destruct (forward_exists (dual K) Dr DPB pw DHg Hsrc DHrec (perturb v scatter) (fun t => dlist (f t) (fsc t))
     (dstate u usc) nt sr vis0 false (Some 1%Z) (fun _ _ => 0) V0 Hs C0) as (U2 & R2 & S2 & F2).
  rewrite E0, F2 in HR.
  destruct HR as (HU & HRr & _).
  destruct (forward_same (dual K) Dr DPB pw DHg Hsrc DHrec _ _ _ _ _ _ _ _ _ _ _ _ _ _ _ _ _ _ _ V V0 Hs C C0 F1 F2) as (X1 & X2 & _).
  destruct D1 as (A1 & A2 & A3 & A4). destruct HU as [W1 W2 W3 W4].
  assert (Hm : forall (l : list KK) (m : list (dual K)), Forall2 (Rlin a b) l m ->
     map fst m = map (fun x : KK => fst (fst x)) l /\ map snd m = map (fun x : KK => a * snd (fst x) + b * fst (snd x)) l).
  { induction 1 as [|x y l m [H1 H2] _ [I1 I2]]; [split; reflexivity|]. cbn. rewrite H1, H2, I1, I2. split; reflexivity. }
  split; [|split; [|split]].
  - intros q Hq. destruct (X1 q Hq) as (Y1 & Y2 & Y3). rewrite (proj1 (A1 q)) in Y1. rewrite (proj2 (A1 q)) in Y2.
    apply (f_equal fst) in Y1. apply (f_equal fst) in Y2. cbn in Y1, Y2. cbn. unfold fre.
    rewrite Y1, Y2. split; [apply (W1 q Hq)|]. split; [apply (W2 q Hq)|]. intros d Hd. destruct (Y3 d Hd) as [Y4 Y5].
    rewrite (proj1 (A2 d q)) in Y4. rewrite (proj2 (A2 d q)) in Y5. apply (f_equal fst) in Y4. apply (f_equal fst) in Y5. cbn in Y4, Y5.
    rewrite Y4, Y5. split; [apply (W3 d q Hd Hq)|apply (W4 d q Hd Hq)].
  - intros q Hq. destruct (X1 q Hq) as (Y1 & Y2 & Y3). rewrite (proj1 (A1 q)) in Y1. rewrite (proj2 (A1 q)) in Y2.
    apply (f_equal snd) in Y1. apply (f_equal snd) in Y2. cbn in Y1, Y2. cbn. unfold fre, fep.
    rewrite Y1, Y2. split; [apply (W1 q Hq)|]. split; [apply (W2 q Hq)|]. intros d Hd. destruct (Y3 d Hd) as [Y4 Y5].
    rewrite (proj1 (A2 d q)) in Y4. rewrite (proj2 (A2 d q)) in Y5. apply (f_equal snd) in Y4. apply (f_equal snd) in Y5. cbn in Y4, Y5.
    rewrite Y4, Y5. split; [apply (W3 d q Hd Hq)|apply (W4 d q Hd Hq)].
  - intros t. rewrite A3, X2. unfold lre. rewrite (proj1 (Hm _ _ (HRr t I))). reflexivity.
  - intros t. rewrite A4, X2. unfold lep. rewrite (proj2 (Hm _ _ (HRr t I))). reflexivity.
Qed.

Lemma lc_l_10 (x y : list K) : length y = length x -> x = lc_l 1 0 x y.
Proof. unfold lc_l. revert y. induction x as [|p x IH]; intros [|q y] H; cbn in *; try discriminate; auto. f_equal; [ring|auto]. Qed.
Lemma lc_l_01 (x y : list K) : length y = length x -> y = lc_l 0 1 x y.
Proof. unfold lc_l. revert y. induction x as [|p x IH]; intros [|q y] H; cbn in *; try discriminate; auto. f_equal; [ring|auto]. Qed.

Lemma born_linear (a b : K) v s1 s2 f f1 f2 u u1 u2 nt sr vis1 vis2 vis vrg1 srg1 vrg2 srg2 vrg srg cb1 cb2 cb w1 x1 w2 x2 w0 x0 B1 B2 B :
  (forall t, length (f1 t) = length (f t)) -> (forall t, length (f2 t) = length (f t)) ->
  fvis K P pw vis1 -> fvis K P pw vis2 -> fvis K P pw vis -> (0 < sr)%Z ->
  cb_ok nt sr cb1 -> cb_ok nt sr cb2 -> cb_ok nt sr cb ->
  BF v s1 vis1 vrg1 srg1 sr f f1 nt cb1 w1 x1 u u1 = Some B1 ->
  BF v s2 vis2 vrg2 srg2 sr f f2 nt cb2 w2 x2 u u2 = Some B2 ->
  BF v (fun i => a * s1 i + b * s2 i) vis vrg srg sr f (fun t => lc_l a b (f1 t) (f2 t)) nt cb w0 x0 u (lc_st a b u1 u2) = Some B ->
  ueq K P (bo_usc K B) (lc_st a b (bo_usc K B1) (bo_usc K B2)) /\
  (forall t, bo_rsc K B t = lc_l a b (bo_rsc K B1 t) (bo_rsc K B2 t)) /\
  ueq K P (bo_u K B) (bo_u K B1) /\ (forall t, bo_r K B t = bo_r K B1 t).
Proof.
  intros L1 L2 V1 V2 V Hs C1 C2 C E1 E2 E.
  destruct (lin_run v s1 s2 f f1 f2 u u1 u2 nt sr Hs L1 L2) as (U & R & HR & H).
  destruct (H 1 0 s1 f1 u1 vis1 vrg1 srg1 cb1 w1 x1 B1) as (A1 & A2 & A3 & A4); auto; try (intros; ring).
  { intros t. apply lc_l_10. rewrite L1, L2. reflexivity. }
  destruct (H 0 1 s2 f2 u2 vis2 vrg2 srg2 cb2 w2 x2 B2) as (G1 & G2 & G3 & G4); auto; try (intros; ring).
  { intros t. apply lc_l_01. rewrite L1, L2. reflexivity. }
  destruct (H a b (fun i => a * s1 i + b * s2 i) (fun t => lc_l a b (f1 t) (f2 t)) (lc_st a b u1 u2) vis vrg srg cb w0 x0 B)
    as (I1 & I2 & I3 & I4); auto; try (intros; reflexivity).
  split; [|split; [|split]].
  - intros q Hq. destruct (I2 q Hq) as (X1 & X2 & X3). destruct (A2 q Hq) as (Y1 & Y2 & Y3). destruct (G2 q Hq) as (Z1 & Z2 & Z3).
    cbn in *. rewrite X1, X2, Y1, Y2, Z1, Z2. split; [ring|]. split; [ring|]. intros d Hd.
    destruct (X3 d Hd) as [-> ->]. destruct (Y3 d Hd) as [-> ->]. destruct (Z3 d Hd) as [-> ->]. split; ring.
  - intros t. rewrite I4, A4, G4, <- lc_skipn. f_equal. generalize (R t). intros l. unfold lc_l.
    induction l as [|x l IH]; [reflexivity|]. cbn [map combine]. f_equal; [cbn [fst snd]; ring|exact IH].
  - eapply ueq_trans; [exact I1|]. apply ueq_sym. exact A1.
  - intros t. rewrite I3, A3. reflexivity.
Qed.

(** The scattered source terms of the user's amplitudes are linear in the scattering potential. *)
Lemma scale_sc_linear (a b : K) v s1 s2 src amps :
  scale_amps_sc K P v (fun i => a * s1 i + b * s2 i) src amps
  = lc_l a b (scale_amps_sc K P v s1 src amps) (scale_amps_sc K P v s2 src amps).
Proof.
  unfold scale_amps_sc, lc_l. induction (combine src amps) as [|x l IH]; cbn; [reflexivity|].
  rewrite IH. f_equal. ring.
Qed.
(** Linearity, as a user sees it. *)
Lemma born_linear_scatter (a b : K) v s1 s2 (amps : Z -> list K) u nt sr vis vrg srg cb w0 x0 :
  fvis K P pw vis -> (0 < sr)%Z -> cb_ok nt sr cb ->
  let run s := BF v s vis vrg srg sr (fun t => scale_amps K P v (p_src P) (amps t))
                 (fun t => scale_amps_sc K P v s (p_src P) (amps t)) nt cb w0 x0 u (zero_st K) in
  exists B1 B2 B, run s1 = Some B1 /\ run s2 = Some B2 /\ run (fun i => a * s1 i + b * s2 i) = Some B /\
    (forall t, bo_rsc K B t = lc_l a b (bo_rsc K B1 t) (bo_rsc K B2 t)) /\ (forall t, bo_r K B t = bo_r K B1 t).
Proof.
  intros V Hs C run.
  set (f := fun t => scale_amps K P v (p_src P) (amps t)).
  set (fs := fun s t => scale_amps_sc K P v s (p_src P) (amps t)).
  assert (Hl : forall s t, length (fs s t) = length (f t))
    by (intros; unfold fs, f, scale_amps, scale_amps_sc; rewrite !map_length; reflexivity).
  pose proof (fun s => born_exists K Kr P recsc pw Hg Hsrc Hrec Hrecsc v s f (fs s) u (zero_st K) nt sr vis vrg srg cb w0 x0 (Hl s) V Hs C) as HE.
  destruct (HE s1) as [B1 E1]. destruct (HE s2) as [B2 E2]. destruct (HE (fun i => a * s1 i + b * s2 i)) as [B E].
  exists B1, B2, B. split; [exact E1|]. split; [exact E2|]. split; [exact E|].
  destruct (lin_run v s1 s2 f (fs s1) (fs s2) u (zero_st K) (zero_st K) nt sr Hs (Hl s1) (Hl s2)) as (U & R & HR & H).
  destruct (H 1 0 s1 (fs s1) (zero_st K) vis vrg srg cb w0 x0 B1) as (A1 & A2 & A3 & A4); auto; try (intros; cbn; ring).
  { intros t. apply lc_l_10. rewrite !Hl. reflexivity. }
  destruct (H 0 1 s2 (fs s2) (zero_st K) vis vrg srg cb w0 x0 B2) as (G1 & G2 & G3 & G4); auto; try (intros; cbn; ring).
  { intros t. apply lc_l_01. rewrite !Hl. reflexivity. }
  destruct (H a b (fun i => a * s1 i + b * s2 i) (fs (fun i => a * s1 i + b * s2 i)) (zero_st K) vis vrg srg cb w0 x0 B)
    as (I1 & I2 & I3 & I4); auto; try (intros; cbn; ring).
  { intros t. apply scale_sc_linear. }
  split; intros t; [|rewrite I3, A3; reflexivity].
  rewrite I4, A4, G4, <- lc_skipn. f_equal. generalize (R t). intros l. unfold lc_l.
  induction l as [|x l IH]; [reflexivity|]. cbn [map combine]. f_equal; [cbn [fst snd]; ring|exact IH].
Qed.
End Lin.

(** ** Finite speed *)
Section Speed.
Variable K : ops.
Hypothesis Kr : is_ring K.

Lemma nth_firstn_lt {A} n (l : list A) j d : (j < n)%nat -> nth j (firstn n l) d = nth j l d.
Proof. revert l j. induction n as [|n IH]; intros [|x l] [|j] H; try lia; cbn; auto. apply IH. lia. Qed.
Lemma nth_skipn' {A} n (l : list A) j d : nth j (skipn n l) d = nth (n + j) l d.
Proof. revert l. induction n as [|n IH]; intros [|x l]; cbn; auto. destruct j; reflexivity. Qed.

Lemma born_finite_speed (P1 : par K) (r1 : list Z) (pw1 : nat -> Z * Z) (Q2 : par K) (r2 : list Z) (pw2 : nat -> Z * Z) (o : pt) :
  geom_ok K P1 pw1 -> geom_ok K Q2 pw2 ->
  Forall (loc_ok K P1) (p_src P1) -> Forall (loc_ok K P1) (p_rec P1) -> Forall (loc_ok K P1) r1 ->
  Forall (loc_ok K Q2) (p_src Q2) -> Forall (loc_ok K Q2) (p_rec Q2) -> Forall (loc_ok K Q2) r2 ->
  length o = length (p_shape P1) -> length (p_shape Q2) = length (p_shape P1) ->
  p_acc Q2 = p_acc P1 -> (forall d, p_rd Q2 d = p_rd P1 d) -> (forall d, p_rd2 Q2 d = p_rd2 P1 d) ->
  p_dt2 Q2 = p_dt2 P1 ->
  Forall2 (same_loc (p_shape P1) (p_shape Q2) o) (p_src P1) (p_src Q2) ->
  Forall2 (same_loc (p_shape P1) (p_shape Q2) o) (p_rec P1) (p_rec Q2) ->
  Forall2 (same_loc (p_shape P1) (p_shape Q2) o) r1 r2 ->
  forall v1 s1 v2 s2 f fsc nt sr vis1 vis2 vrg1 srg1 vrg2 srg2 cb1 cb2 w1 x1 w2 x2 B1 B2,
  (forall t, length (fsc t) = length (f t)) ->
  fvis K P1 pw1 vis1 -> fvis K Q2 pw2 vis2 -> (0 < sr)%Z -> cb_ok nt sr cb1 -> cb_ok nt sr cb2 ->
  born_forward K P1 r1 pw1 v1 s1 vis1 vrg1 srg1 sr f fsc nt cb1 w1 x1 (zero_st K) (zero_st K) = Some B1 ->
  born_forward K Q2 r2 pw2 v2 s2 vis2 vrg2 srg2 sr f fsc nt cb2 w2 x2 (zero_st K) (zero_st K) = Some B2 ->
  forall t l,
  (forall c, on_path K P1 (t - 1) (unidx (p_shape P1) l) c ->
     interior K P1 c = interior K Q2 (translate o c) /\
     (interior K P1 c = true -> v1 (idx (p_shape P1) c) = v2 (idx (p_shape Q2) (translate o c)) /\
                                s1 (idx (p_shape P1) c) = s2 (idx (p_shape Q2) (translate o c))) /\
     forall d, (d < length (p_shape P1))%nat ->
       p_a P1 d (coord d c) = p_a Q2 d (coord d (translate o c)) /\
       p_b P1 d (coord d c) = p_b Q2 d (coord d (translate o c)) /\
       p_db P1 d (coord d c) = p_db Q2 d (coord d (translate o c))) ->
  (forall j, (j < length (p_rec P1))%nat -> nth j (p_rec P1) 0%Z = l -> nth j (bo_r K B1 t) 0 = nth j (bo_r K B2 t) 0) /\
  (forall j, (j < length r1)%nat -> nth j r1 0%Z = l -> nth j (bo_rsc K B1 t) 0 = nth j (bo_rsc K B2 t) 0).
Proof.
  intros G1 G2 Hs1 Hr1 Hq1 Hs2 Hr2 Hq2 Ho Hsh Ha Hrd Hrd2 Hdt SL1 SL2 SL3 v1 s1 v2 s2 f fsc nt sr vis1 vis2 vrg1 srg1 vrg2 srg2 cb1 cb2 w1 x1 w2 x2 B1 B2
    Hl V1 V2 Hsr C1 C2 E1 E2 t l Hp.
  destruct (born_dual_some K Kr _ _ _ _ _ _ _ _ _ _ _ _ _ _ _ _ _ _ Hl E1) as (U1 & R1 & S1 & F1 & D1).
  destruct (born_dual_some K Kr _ _ _ _ _ _ _ _ _ _ _ _ _ _ _ _ _ _ Hl E2) as (U2 & R2 & S2 & F2 & D2).
  assert (X : forall j, nth j (p_rec P1 ++ r1) 0%Z = l -> nth j (R1 t) 0 = nth j (R2 t) 0).
  { intros j Hj.
    refine (finite_speed (dual K) (dual_is_ring K Kr) (dpar (P2 K P1 r1)) pw1 (dpar (P2 K Q2 r2)) pw2 o
      (geom_dual K Kr _ _ G1) (geom_dual K Kr _ _ G2) Hs1 (rec_2 K P1 r1 Hr1 Hq1) Hs2 (rec_2 K Q2 r2 Hr2 Hq2) Ho Hsh Ha _ _ _
      SL1 (Forall2_app SL2 SL3) (perturb v1 s1) (perturb v2 s2) (fun t => dlist (f t) (fsc t)) nt sr vis1 vis2 true true cb1 cb2 _ _ U1 R1 S1 U2 R2 S2
      V1 V2 Hsr C1 C2 F1 F2 t j _).
    - intros d. cbn. rewrite Hrd. reflexivity.
    - intros d. cbn. rewrite Hrd2. reflexivity.
    - cbn. rewrite Hdt. reflexivity.
    - change (nth j (p_rec (dpar (P2 K P1 r1))) 0%Z) with (nth j (p_rec P1 ++ r1) 0%Z). rewrite Hj.
      intros c Hc. destruct (Hp c Hc) as (H1 & H2 & H3). split; [exact H1|]. split.
      + intros Hi. destruct (H2 Hi) as [H4 H5]. unfold perturb. cbn [dpar P2 withrec p_shape]. rewrite H4, H5. reflexivity.
      + intros d Hd. destruct (H3 d Hd) as (H4 & H5 & H6). cbn [dpar P2 withrec p_a p_b p_db]. rewrite H4, H5, H6. repeat split. }
  assert (HL : length (p_rec Q2) = length (p_rec P1)) by (symmetry; exact (Forall2_len _ _ _ SL2)).
  destruct D1 as (_ & _ & A3 & A4). destruct D2 as (_ & _ & I3 & I4). rewrite HL in I3, I4.
  split; intros j Hj Hn.
  - rewrite A3, I3, !nth_firstn_lt by exact Hj. unfold lre.
    change (o0 K) with (fst (o0 (dual K))). rewrite !map_nth, X; [reflexivity|]. rewrite app_nth1 by exact Hj. exact Hn.
  - rewrite A4, I4, !nth_skipn'. unfold lep.
    change (o0 K) with (snd (o0 (dual K))). rewrite !map_nth, X; [reflexivity|].
    rewrite app_nth2 by lia. replace (length (p_rec P1) + j - length (p_rec P1))%nat with j by lia. exact Hn.
Qed.

(** ** Reciprocity *)
Lemma born_reciprocity (P : par K) (pw : nat -> Z * Z) : geom_ok K P pw -> no_pml P ->
  forall (la lb : Z) (v scatter : arr K) (f : Z -> K) nt sr ra rb vis1 vis2 vrg1 srg1 vrg2 srg2 cb1 cb2 w1 x1 w2 x2 B1 B2,
  let PA := with_locs P [la] ra in
  let PB := with_locs P [lb] rb in
  (0 <= la)%Z -> loc_ok K P la -> (0 <= lb)%Z -> loc_ok K P lb -> Forall (loc_ok K P) ra -> Forall (loc_ok K P) rb ->
  fvis K P pw vis1 -> fvis K P pw vis2 -> (0 < sr)%Z -> (0 <= nt)%Z -> cb_ok nt sr cb1 -> cb_ok nt sr cb2 ->
  born_forward K PA [lb] pw v scatter vis1 vrg1 srg1 sr (fun t => scale_amps K P v [la] [f t]) (fun t => scale_amps_sc K P v scatter [la] [f t])
    nt cb1 w1 x1 (zero_st K) (zero_st K) = Some B1 ->
  born_forward K PB [la] pw v scatter vis2 vrg2 srg2 sr (fun t => scale_amps K P v [lb] [f t]) (fun t => scale_amps_sc K P v scatter [lb] [f t])
    nt cb2 w2 x2 (zero_st K) (zero_st K) = Some B2 ->
  forall t, bo_rsc K B1 t = bo_rsc K B2 t.
Proof.
  intros Hg Hp la lb v scatter f nt sr ra rb vis1 vis2 vrg1 srg1 vrg2 srg2 cb1 cb2 w1 x1 w2 x2 B1 B2 PA PB La Oa Lb Ob Ra Rb V1 V2 Hs Hn C1 C2 E1 E2 t.
  destruct (born_is_derivative_scaled K Kr PA pw [lb] Hg (Forall_cons _ Oa (Forall_nil _)) Ra (Forall_cons _ Ob (Forall_nil _))
     v scatter (fun t => [f t]) (zero_st K) (zero_st K) nt sr vis1 vis1 vis1 vrg1 srg1 true true cb1 cb1 cb1 w1 x1 (fun _ _ => 0) (fun _ _ => 0) Hs C1 C1 C1 V1 V1 V1)
    as (B & ? & ? & ? & U1 & R1 & S1 & E & _ & F1 & _ & _ & _ & X1).
  pose proof (eq_trans (eq_sym E1) E) as EE. injection EE as ->.
  destruct (born_is_derivative_scaled K Kr PB pw [la] Hg (Forall_cons _ Ob (Forall_nil _)) Rb (Forall_cons _ Oa (Forall_nil _))
     v scatter (fun t => [f t]) (zero_st K) (zero_st K) nt sr vis2 vis2 vis2 vrg2 srg2 true true cb2 cb2 cb2 w2 x2 (fun _ _ => 0) (fun _ _ => 0) Hs C2 C2 C2 V2 V2 V2)
    as (B' & ? & ? & ? & U2 & R2 & S2 & E' & _ & F2 & _ & _ & _ & X2).
  pose proof (eq_trans (eq_sym E2) E') as EE. injection EE as ->.
  rewrite X1, X2. f_equal.
  refine (reciprocity (dual K) (dual_is_ring K Kr) (dpar P) pw (geom_dual K Kr P pw Hg) (no_pml_dual K P Hp) la lb (perturb v scatter)
    (fun t => dconst (f t)) nt sr vis1 vis2 true true cb1 cb2 _ _ U1 R1 S1 U2 R2 S2 La Oa Lb Ob V1 V2 Hs Hn C1 C2 F1 F2 t).
Qed.
End Speed.

(** ** Backward runs *)
Section Back.
Variable K : ops.
Hypothesis Kr : is_ring K.
Variable P : par K.
Variable recsc : list Z.
Variable pw : nat -> Z * Z.
Notation shape := (p_shape P).
Hypothesis Hg : geom_ok K P pw.
Hypothesis Hsrc : Forall (loc_ok K P) (p_src P).
Hypothesis Hrec : Forall (loc_ok K P) (p_rec P).
Hypothesis Hrecsc : Forall (loc_ok K P) recsc.
Notation PB := (P2 K P recsc).
Notation DPB := (dpar PB).
Notation BB := (born_backward K P recsc pw).
Notation Dr := (dual_is_ring K Kr).
Let DHg : geom_ok (dual K) DPB pw := geom_dual K Kr PB pw (geom_2 K P recsc pw Hg).
Let DHrec : Forall (loc_ok (dual K) DPB) (p_rec DPB) := rec_2 K P recsc Hrec Hrecsc.

Lemma born_back_dual v scatter vis w wsc vrg srg sr gr grsc nt cb g gsc :
  (forall t, length (gr t) = length (p_rec P)) -> bvis K P pw vis -> (0 < sr)%Z -> cb_ok nt sr cb ->
  exists B G0 gf gv, BB v scatter vis w wsc vrg srg sr gr grsc nt cb g gsc = Some B /\
    scalar_backward (dual K) DPB pw (perturb v scatter) vis (dstore K P v scatter w wsc) true sr (fun t => drecs (gr t) (grsc t)) nt cb (dstate gsc g) = Some (G0, gf, gv) /\
    born_bwd_rel K vrg srg B (G0, gf, gv).
Proof.
  intros Hl V Hs C.
  pose proof (born_backward_sim K Kr P recsc v scatter vrg srg w wsc (dstore K P v scatter w wsc)
     (dstore_rel K Kr P v scatter vrg srg w wsc) sr vis gr grsc Hl pw nt cb g gsc) as H.
  destruct (scalar_backward_spec (dual K) Dr DPB pw DHg Hsrc DHrec (perturb v scatter) vis (dstore K P v scatter w wsc) true sr
     (fun t => drecs (gr t) (grsc t)) nt cb (dstate gsc g) V Hs C) as (G0 & gf & gv & E & _).
  rewrite E in H. destruct (born_backward _ _ _ _ _ _ _ _ _ _ _ _ _ _ _ _ _ _) as [B|]; [|contradiction].
  exists B, G0, gf, gv. auto.
Qed.

Lemma born_ignored_source_gradient v scatter vis w wsc vrg srg sr gr grsc nt cb g gsc B :
  (forall t, length (gr t) = length (p_rec P)) -> bvis K P pw vis -> (0 < sr)%Z -> cb_ok nt sr cb ->
  BB v scatter vis w wsc vrg srg sr gr grsc nt cb g gsc = Some B ->
  forall k l, nth_error (p_src P) k = Some l -> (l < 0)%Z -> forall t,
    nth_error (bg_f K B t) k = Some 0 /\ nth_error (bg_fsc K B t) k = Some 0.
Proof.
  intros Hl V Hs C E k l Hk Hneg t.
  destruct (born_back_dual v scatter vis w wsc vrg srg sr gr grsc nt cb g gsc Hl V Hs C) as (B' & G0 & gf & gv & E' & F & H).
  rewrite E in E'. injection E' as <-. destruct H as (_ & _ & _ & _ & H & _). destruct (H t) as [-> ->].
  pose proof (backward_ignored_source (dual K) Dr DPB pw DHg Hsrc DHrec _ _ _ _ _ _ _ _ _ _ _ _ V Hs C F k l Hk Hneg t) as X.
  unfold lre, lep. split; rewrite nth_error_map.
  - exact (f_equal (option_map snd) X).
  - exact (f_equal (option_map fst) X).
Qed.

(** The gradients do not depend on the visiting order, nor on backward callbacks. *)
Lemma born_backward_same v scatter vis1 vis2 w wsc vrg srg sr gr grsc nt cb1 cb2 g gsc :
  (forall t, length (gr t) = length (p_rec P)) -> bvis K P pw vis1 -> bvis K P pw vis2 -> (0 < sr)%Z -> cb_ok nt sr cb1 -> cb_ok nt sr cb2 ->
  exists B1 B2,
    BB v scatter vis1 w wsc vrg srg sr gr grsc nt cb1 g gsc = Some B1 /\
    BB v scatter vis2 w wsc vrg srg sr gr grsc nt cb2 g gsc = Some B2 /\
    ueq K P (bg_u K B1) (bg_u K B2) /\ ueq K P (bg_usc K B1) (bg_usc K B2) /\
    (forall t, bg_f K B1 t = bg_f K B2 t /\ bg_fsc K B1 t = bg_fsc K B2 t) /\
    (srg = true -> forall i, (0 <= i < prodZ shape)%Z -> bg_scatter K B1 i = bg_scatter K B2 i) /\
    (vrg = true -> forall i, (0 <= i < prodZ shape)%Z -> bg_v K B1 i = bg_v K B2 i).
Proof.
  intros Hl V1 V2 Hs C1 C2.
  destruct (born_back_dual v scatter vis1 w wsc vrg srg sr gr grsc nt cb1 g gsc Hl V1 Hs C1) as (B1 & G1 & gf1 & gv1 & E1 & F1 & H1).
  destruct (born_back_dual v scatter vis2 w wsc vrg srg sr gr grsc nt cb2 g gsc Hl V2 Hs C2) as (B2 & G2 & gf2 & gv2 & E2 & F2 & H2).
  exists B1, B2. split; [exact E1|]. split; [exact E2|].
  destruct (scalar_backward_spec (dual K) Dr DPB pw DHg Hsrc DHrec (perturb v scatter) vis1 (dstore K P v scatter w wsc) true sr
     (fun t => drecs (gr t) (grsc t)) nt cb1 (dstate gsc g) V1 Hs C1) as (? & ? & ? & E & X1 & X2 & X3 & X4 & X5).
  rewrite F1 in E. injection E as <- <- <-.
  destruct (scalar_backward_spec (dual K) Dr DPB pw DHg Hsrc DHrec (perturb v scatter) vis2 (dstore K P v scatter w wsc) true sr
     (fun t => drecs (gr t) (grsc t)) nt cb2 (dstate gsc g) V2 Hs C2) as (? & ? & ? & E & Y1 & Y2 & Y3 & Y4 & Y5).
  rewrite F2 in E. injection E as <- <- <-.
  assert (HU : ueq (dual K) DPB G1 G2) by (eapply ueq_trans; [exact X1|]; apply ueq_sym; exact Y1).
  assert (Hf : forall t, gf1 t = gf2 t).
  { intros t. destruct (Z_lt_dec t 0); [rewrite X3, Y3 by lia; reflexivity|].
    destruct (Z_lt_dec t (Z.of_nat (nsteps nt sr))); [|rewrite X3, Y3 by lia; reflexivity].
    rewrite <- (Z2Nat.id t) by lia. rewrite X2, Y2 by lia. reflexivity. }
  assert (Hv : forall i, (0 <= i < prodZ shape)%Z -> gv1 i = gv2 i).
  { intros i Hi.
    assert (Hpos : Forall (fun n => 0 < n)%Z shape).
    { apply Forall_forall. intros x Hx. destruct (In_nth _ _ 0%Z Hx) as (d & Hd & <-). destruct (Hg d Hd) as (G3 & G4 & G5 & _).
      pose proof (fd_pad_pos (p_acc P)). lia. }
    destruct (interior K P (unidx shape i)) eqn:Ei.
    - rewrite <- (idx_unidx shape i Hpos Hi). etransitivity; [exact (X4 (unidx shape i) Ei)|symmetry; exact (Y4 (unidx shape i) Ei)].
    - assert (Hno : forall p, interior (dual K) DPB p = true -> idx shape p <> i).
      { intros p Hp <-. rewrite unidx_idx in Ei; [change (interior K P p = true) in Hp; congruence|].
        apply (inint_arr K P). exact Hp. }
      rewrite X5, Y5 by exact Hno. reflexivity. }
  destruct H1 as (A1 & A2 & A3 & A4 & A5 & A6 & A7). destruct H2 as (I1 & I2 & I3 & I4 & I5 & I6 & I7).
  split; [|split; [|split; [|split]]].
  - intros q Hq. destruct (HU q Hq) as (W1 & W2 & W3). rewrite A1, I1 in W1. rewrite A2, I2 in W2.
    split; [exact (f_equal snd W1)|]. split; [exact (f_equal snd W2)|]. intros d Hd. destruct (W3 d Hd) as [W4 W5].
    rewrite A3, I3 in W4. rewrite A4, I4 in W5. split; [exact (f_equal snd W4)|exact (f_equal snd W5)].
  - intros q Hq. destruct (HU q Hq) as (W1 & W2 & W3). rewrite A1, I1 in W1. rewrite A2, I2 in W2.
    split; [exact (f_equal fst W1)|]. split; [exact (f_equal fst W2)|]. intros d Hd. destruct (W3 d Hd) as [W4 W5].
    rewrite A3, I3 in W4. rewrite A4, I4 in W5. split; [exact (f_equal fst W4)|exact (f_equal fst W5)].
  - intros t. destruct (A5 t) as [-> ->]. destruct (I5 t) as [-> ->]. rewrite Hf. split; reflexivity.
  - intros Hsrg i Hi. rewrite <- (A6 Hsrg), <- (I6 Hsrg), Hv by exact Hi. reflexivity.
  - intros Hvrg i Hi. rewrite <- (A7 Hvrg), <- (I7 Hvrg), Hv by exact Hi. reflexivity.
Qed.
End Back.
