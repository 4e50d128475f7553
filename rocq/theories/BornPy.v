(** * The Python backend of the scalar Born propagator agrees with the compiled one; scaling of
    the Born source amplitudes. *)
From Coq Require Import List ZArith QArith Ring Ring_theory Lia Bool.
From Verif Require Import Ops Sums Grid Stencil DualNum ScalarModel ScalarRefine ScalarForward
  ScalarBackward ScalarAdjoint ScalarFunc ScalarApi ScalarGrad ScalarMore PyBackend BornModel BornSim BornBack BornThm.
Import ListNotations.
Local Open Scope K_scope.

Local Arguments d1 : simpl never.
Local Arguments d2 : simpl never.

(** scalar_born.py:1661-1711: the two nested loops. *)
Definition py_born_loop (K : ops) (P : par K) recsc (v scatter : field K) (f fsc : Z -> list K) (sr n : Z) (s : st K * st K)
    : (st K * st K) * list (list K * list K) :=
  fold_left (fun acc step =>
               let '(s, rs) := acc in
               let '(s', r) := py_born_run K P recsc v scatter f fsc (Z.to_nat sr) (step * sr)%Z (fst s) (snd s) in
               (s', rs ++ r)) (zrange 0 n) (s, []).

(** scalar_born.py:1510-1745 [scalar_born_python]: returned wavefields (background, scattered) and
    receiver amplitudes (rows that are not written stay zero, scalar_born.py:1613-1618). *)
Definition born_python (K : ops) (P : par K) recsc (v scatter : field K) (sr : Z) (f fsc : Z -> list K) (nt : Z)
    (u usc : st K) : (st K * st K) * (Z -> list K) * (Z -> list K) :=
  let '(s, rs) := py_born_loop K P recsc v scatter f fsc sr (nt / sr) (py_init K P u, py_init K P usc) in
  let z := (map (fun _ => 0) (p_rec P), map (fun _ => 0) recsc) in
  let row t := if (0 <=? t)%Z then nth (Z.to_nat t) rs z else z in
  (ucrop K P (fst s), ucrop K P (snd s), fun t => fst (row t), fun t => snd (row t)).

Section BornPy.
Variable K : ops.
Hypothesis Kr : is_ring K.
Add Ring KRing : Kr.
Variable P : par K.
Variable recsc : list Z.
Notation DP := (dpar (P2 K P recsc)).
Notation shape := (p_shape P).

(** Componentwise relation between a pair of Python states and one over dual numbers. *)
Definition psim (s ssc : st K) (S0 : st (dual K)) : Prop :=
  (forall p, s_wfc _ S0 p = (s_wfc K s p, s_wfc K ssc p)) /\
  (forall p, s_wfp _ S0 p = (s_wfp K s p, s_wfp K ssc p)) /\
  (forall d p, s_psi _ S0 d p = (s_psi K s d p, s_psi K ssc d p)) /\
  (forall d p, s_zeta _ S0 d p = (s_zeta K s d p, s_zeta K ssc d p)).

Lemma py_diff1_pair d (h : field (dual K)) h1 h2 p : (forall q, h q = (h1 q, h2 q)) ->
  py_diff1 (dual K) DP d h p = (py_diff1 K P d h1 p, py_diff1 K P d h2 p).
Proof.
  intros H. unfold py_diff1. change (py_fits (dual K) DP d p) with (py_fits K P d p).
  destruct (py_fits K P d p); [|reflexivity]. unfold d1, D1. apply (DIFF1_pair K Kr). intros k. apply H.
Qed.
Lemma py_diff2_pair d (h : field (dual K)) h1 h2 p : (forall q, h q = (h1 q, h2 q)) ->
  py_diff2 (dual K) DP d h p = (py_diff2 K P d h1 p, py_diff2 K P d h2 p).
Proof.
  intros H. unfold py_diff2. change (py_fits (dual K) DP d p) with (py_fits K P d p).
  destruct (py_fits K P d p); [|reflexivity]. unfold d2, D2. apply (DIFF2_pair K Kr). intros k. apply H.
Qed.

Lemma py_tmp_pair d w w1 w2 s s1 s2 p : (forall q, w q = (w1 q, w2 q)) -> (forall q, s q = (s1 q, s2 q)) ->
  py_tmp (dual K) DP w s d p = (py_tmp K P w1 s1 d p, py_tmp K P w2 s2 d p).
Proof.
  intros Hw Hs. unfold py_tmp. rewrite (py_diff1_pair d w w1 w2), (py_diff2_pair d w w1 w2) by assumption.
  rewrite (py_diff1_pair d (fun q => pa (dual K) DP d q * s q) (fun q => pa K P d q * s1 q) (fun q => pa K P d q * s2 q)).
  - change (pb (dual K) DP d p) with (dconst (pb K P d p)). change (pdb (dual K) DP d p) with (dconst (pdb K P d p)).
    apply dual_eq; cbn; ring.
  - intros q. rewrite Hs. change (pa (dual K) DP d q) with (dconst (pa K P d q)). apply (mulc K Kr).
Qed.

Lemma py_wsum_pair s ssc S0 p : psim s ssc S0 -> py_wsum (dual K) DP S0 p = (py_wsum K P s p, py_wsum K P ssc p).
Proof.
  intros (A1 & A2 & A3 & A4). unfold py_wsum. change (dims (dual K) DP) with (dims K P).
  assert (G : forall l (a b : K), 
    fold_left (fun acc d => acc + (1 + pb (dual K) DP d p) * py_tmp (dual K) DP (s_wfc _ S0) (s_psi _ S0 d) d p
                              + pa (dual K) DP d p * s_zeta _ S0 d p) l ((a, b) : dual K)
    = (fold_left (fun acc d => acc + (1 + pb K P d p) * py_tmp K P (s_wfc _ s) (s_psi _ s d) d p
                              + pa K P d p * s_zeta _ s d p) l a,
       fold_left (fun acc d => acc + (1 + pb K P d p) * py_tmp K P (s_wfc _ ssc) (s_psi _ ssc d) d p
                              + pa K P d p * s_zeta _ ssc d p) l b)).
  { induction l as [|d l IH]; intros a b; cbn [fold_left]; [reflexivity|].
    rewrite <- IH. f_equal.
    rewrite (py_tmp_pair d _ (s_wfc _ s) (s_wfc _ ssc) _ (s_psi _ s d) (s_psi _ ssc d)) by auto.
    rewrite A4. change (pb (dual K) DP d p) with (dconst (pb K P d p)). change (pa (dual K) DP d p) with (dconst (pa K P d p)).
    apply dual_eq; cbn; ring. }
  apply G.
Qed.

Lemma py_gather_pair locs w w1 w2 : (forall q, w q = (w1 q, w2 q)) ->
  py_gather (dual K) DP locs w = dlist (py_gather K P locs w1) (py_gather K P locs w2).
Proof.
  intros H. unfold py_gather, dlist. induction locs as [|l locs IH]; cbn; [reflexivity|]. rewrite <- IH. f_equal.
  destruct (l =? IGNORE)%Z; [reflexivity|]. unfold py_flat. apply H.
Qed.

Lemma py_scatter_pair locs a b w w1 w2 p : length b = length a -> (forall q, w q = (w1 q, w2 q)) ->
  py_scatter_add (dual K) DP locs (dlist a b) w p = (py_scatter_add K P locs a w1 p, py_scatter_add K P locs b w2 p).
Proof.
  intros Hl H. unfold py_scatter_add, py_unflat. change (p_shape DP) with shape. destruct (inb (abox shape) p); [|apply H].
  assert (G : forall ls (a b : list K) (m : arr (dual K)) m1 m2, length b = length a -> (forall i, m i = (m1 i, m2 i)) -> forall i,
    fold_left (fun m la => upd m (fst la) (m (fst la) + snd la))
       (map (fun la => (py_masked (fst la), if (fst la =? IGNORE)%Z then 0 else snd la)) (combine ls (dlist a b))) m i
    = (fold_left (fun m la => upd m (fst la) (m (fst la) + snd la))
       (map (fun la => (py_masked (fst la), if (fst la =? IGNORE)%Z then 0 else snd la)) (combine ls a)) m1 i,
       fold_left (fun m la => upd m (fst la) (m (fst la) + snd la))
       (map (fun la => (py_masked (fst la), if (fst la =? IGNORE)%Z then 0 else snd la)) (combine ls b)) m2 i)).
  { induction ls as [|l ls IH]; intros x y m m1 m2 L Hm i; [apply Hm|].
    destruct x as [|x0 x], y as [|y0 y]; cbn in L; try discriminate; [apply Hm|].
    cbn [dlist combine map fold_left fst snd]. apply IH; [lia|]. intros j. unfold upd.
    destruct (j =? py_masked l)%Z; [|apply Hm]. rewrite Hm. destruct (l =? IGNORE)%Z; reflexivity. }
  apply G; [exact Hl|]. intros i. unfold py_flat. apply H.
Qed.

Lemma py_born_run_sim v scatter f fsc n t s ssc S0 : (forall t, length (fsc t) = length (f t)) -> psim s ssc S0 ->
  let '((s', ssc'), rs) := py_born_run K P recsc v scatter f fsc n t s ssc in
  let '(S', Rs) := py_run (dual K) DP (fun p => (v p, scatter p)) (fun t => dlist (f t) (fsc t)) n t S0 in
  psim s' ssc' S' /\
  Forall2 (fun r R => exists Ra Rb, R = Ra ++ Rb /\ length Ra = length (p_rec P) /\ fst r = lre Ra /\ snd r = lep Rb) rs Rs.
Proof.
  intros Hl. revert t s ssc S0. induction n as [|n IH]; intros t s ssc S0 H; cbn [py_born_run py_run].
  - split; [exact H|constructor].
  - pose proof H as (A1 & A2 & A3 & A4).
    cbn zeta. destruct (py_born_step K P v scatter s ssc) as [s1 ssc1] eqn:E.
    set (S1 := py_forward_step (dual K) DP _ S0).
    assert (H1 : psim s1 ssc1 S1).
    { unfold py_born_step in E. inversion E; subst. clear E. repeat split.
      - intros p. cbn [S1 py_forward_step s_wfc]. rewrite (py_wsum_pair s ssc S0 p H), A1, A2.
        change (p_dt2 DP) with (dconst (p_dt2 P)). apply dual_eq; unfold two; cbn; ring.
      - intros p. apply A1.
      - intros d p. cbn [S1 py_forward_step s_psi]. rewrite (py_diff1_pair d _ (s_wfc K s) (s_wfc K ssc)), A3 by exact A1.
        change (pb (dual K) DP d p) with (dconst (pb K P d p)). change (pa (dual K) DP d p) with (dconst (pa K P d p)).
        apply dual_eq; cbn; ring.
      - intros d p. cbn [S1 py_forward_step s_zeta].
        rewrite (py_tmp_pair d _ (s_wfc _ s) (s_wfc _ ssc) _ (s_psi _ s d) (s_psi _ ssc d)), A4 by auto.
        change (pb (dual K) DP d p) with (dconst (pb K P d p)). change (pa (dual K) DP d p) with (dconst (pa K P d p)).
        apply dual_eq; cbn; ring. }
    destruct H1 as (B1 & B2 & B3 & B4).
    match goal with |- context [py_born_run K P recsc v scatter f fsc n (t + 1)%Z ?x ?y] =>
      match goal with |- context [py_run (dual K) DP ?V ?F n (t + 1)%Z ?z] => assert (H2 : psim x y z) end end.
    { repeat split; cbn [s_wfc s_wfp s_psi s_zeta]; auto. intros p. apply py_scatter_pair; auto. }
    specialize (IH (t + 1)%Z _ _ _ H2).
    destruct (py_born_run _ _ _ _ _ _ _ n _ _ _) as [[s' ssc'] rs]. destruct (py_run _ _ _ _ n _ _) as [S' Rs].
    destruct IH as [I1 I2]. split; [exact I1|]. constructor; [|exact I2].
    exists (dlist (py_gather K P (p_rec P) (s_wfc K s)) (py_gather K P (p_rec P) (s_wfc K ssc))),
           (dlist (py_gather K P recsc (s_wfc K s)) (py_gather K P recsc (s_wfc K ssc))).
    split; [|split; [|split]].
    + rewrite <- !py_gather_pair with (w := s_wfc _ S0) by exact A1. unfold py_gather. rewrite <- map_app. reflexivity.
    + etransitivity; [apply combine_length|]. unfold py_gather. rewrite !map_length. lia.
    + cbn [fst]. symmetry. apply lre_dlist. unfold py_gather. rewrite !map_length. reflexivity.
    + cbn [snd]. symmetry. apply lep_dlist. unfold py_gather. rewrite !map_length. reflexivity.
Qed.

Lemma py_born_loop_sim v scatter f fsc sr n s ssc S0 : (forall t, length (fsc t) = length (f t)) -> psim s ssc S0 ->
  let '((s', ssc'), rs) := py_born_loop K P recsc v scatter f fsc sr n (s, ssc) in
  let '(S', Rs) := py_loop (dual K) DP (fun p => (v p, scatter p)) (fun t => dlist (f t) (fsc t)) sr n S0 in
  psim s' ssc' S' /\
  Forall2 (fun r R => exists Ra Rb, R = Ra ++ Rb /\ length Ra = length (p_rec P) /\ fst r = lre Ra /\ snd r = lep Rb) rs Rs.
Proof.
  intros Hl H. unfold py_born_loop, py_loop.
  assert (G : forall l s ssc S0 rs Rs, psim s ssc S0 ->
    Forall2 (fun r R => exists Ra Rb, R = Ra ++ Rb /\ length Ra = length (p_rec P) /\ fst r = lre Ra /\ snd r = lep Rb) rs Rs ->
    let '((s', ssc'), rs) := fold_left (fun acc step =>
               let '(s, rs) := acc in
               let '(s', r) := py_born_run K P recsc v scatter f fsc (Z.to_nat sr) (step * sr)%Z (fst s) (snd s) in
               (s', rs ++ r)) l ((s, ssc), rs) in
    let '(S', Rs) := fold_left (fun acc step =>
               let '(s, rs) := acc in
               let '(s', r) := py_run (dual K) DP (fun p => (v p, scatter p)) (fun t => dlist (f t) (fsc t)) (Z.to_nat sr) (step * sr)%Z s in
               (s', rs ++ r)) l (S0, Rs) in
    psim s' ssc' S' /\
    Forall2 (fun r R => exists Ra Rb, R = Ra ++ Rb /\ length Ra = length (p_rec P) /\ fst r = lre Ra /\ snd r = lep Rb) rs Rs).
  { induction l as [|x l IH]; intros s0 ssc0 S1 rs Rs H1 H2; cbn [fold_left]; [split; assumption|].
    pose proof (py_born_run_sim v scatter f fsc (Z.to_nat sr) (x * sr)%Z s0 ssc0 S1 Hl H1) as X. cbn [fst snd].
    destruct (py_born_run _ _ _ _ _ _ _ _ _ _ _) as [[s' ssc'] r]. destruct (py_run _ _ _ _ _ _ _) as [S' R].
    destruct X as [X1 X2]. apply IH; [exact X1|]. apply Forall2_app; assumption. }
  apply G; [exact H|constructor].
Qed.

Variable pw : nat -> Z * Z.
Hypothesis Hg : geom_ok K P pw.
Hypothesis Hsrc : Forall (loc_ok_py K P) (p_src P).
Hypothesis Hrec : Forall (loc_ok_py K P) (p_rec P).
Hypothesis Hrecsc : Forall (loc_ok_py K P) recsc.

Lemma born_backends_agree (v scatter : arr K) f fsc u usc nt sr vis vrg srg cb w0 wsc0 B :
  (forall t, length (fsc t) = length (f t)) ->
  fvis K P pw vis -> (0 < sr)%Z -> (0 <= nt)%Z -> cb_ok nt sr cb ->
  born_forward K P recsc pw v scatter vis vrg srg sr f fsc nt cb w0 wsc0 u usc = Some B ->
  let '(U', Usc', R', Rsc') :=
    born_python K P recsc (fun p => v (idx shape p)) (fun p => scatter (idx shape p)) sr f fsc nt u usc in
  (forall t, bo_r K B t = R' t) /\ (forall t, bo_rsc K B t = Rsc' t) /\
  (forall q, In q (upts K P) -> s_wfc K (bo_u K B) q = s_wfc K U' q /\ s_wfp K (bo_u K B) q = s_wfp K U' q) /\
  (forall q, In q (upts K P) -> s_wfc K (bo_usc K B) q = s_wfc K Usc' q /\ s_wfp K (bo_usc K B) q = s_wfp K Usc' q) /\
  ((sr <= nt)%Z -> ueq K P (bo_u K B) U' /\ ueq K P (bo_usc K B) Usc').
Proof.
  intros Hl V Hs Hn Hc E.
  pose proof (born_forward_sim K Kr P recsc v scatter vrg srg vis sr (fun t => dlist (f t) (fsc t)) f fsc
     ltac:(intros; symmetry; apply lre_dlist; auto) ltac:(intros; symmetry; apply lep_dlist; auto) pw nt cb w0 wsc0
     (dstore K P v scatter w0 wsc0) (dstate u usc) (dstore_rel K Kr P v scatter vrg srg w0 wsc0)) as HF.
  change (born_forward K P recsc pw v scatter vis vrg srg sr f fsc nt cb w0 wsc0 (sre (dstate u usc)) (sep (dstate u usc)))
    with (born_forward K P recsc pw v scatter vis vrg srg sr f fsc nt cb w0 wsc0 u usc) in HF.
  rewrite E in HF.
  destruct (scalar_forward (dual K) DP pw (perturb v scatter) vis true sr _ nt cb _ _) as [[[U R] S0]|] eqn:ES; [|contradiction].
  destruct HF as (F1 & F2 & F3 & F4 & F5 & _).
  assert (Hrec2 : Forall (loc_ok_py (dual K) DP) (p_rec DP)) by (apply Forall_app; split; [exact Hrec|exact Hrecsc]).
  pose proof (backends_agree (dual K) (dual_is_ring K Kr) DP pw (geom_dual K Kr (P2 K P recsc) pw Hg) Hsrc Hrec2
    (perturb v scatter) _ _ nt sr vis true cb _ U R S0 V Hs Hn Hc ES) as HA.
  unfold scalar_python in HA. unfold born_python.
  pose proof (py_born_loop_sim (fun p => v (idx shape p)) (fun p => scatter (idx shape p)) f fsc sr (nt / sr)
     (py_init K P u) (py_init K P usc) (py_init (dual K) DP (dstate u usc)) Hl) as HL.
  change (fun p => perturb v scatter (idx (p_shape DP) p)) with (fun p => (v (idx shape p), scatter (idx shape p))) in HA.
  destruct (py_born_loop _ _ _ _ _ _ _ _ _ _) as [[s ssc] rs].
  destruct (py_loop _ _ _ _ _ _ _) as [S1 Rs].
  destruct HL as [(C1 & C2 & C3 & C4) HR].
  { repeat split; intros; cbn [py_init dstate s_wfc s_wfp s_psi s_zeta]; change (interior (dual K) DP p) with (interior K P p);
      change (unpad (dual K) DP p) with (unpad K P p); destruct (interior K P p); reflexivity. }
  destruct HA as (A1 & A2 & A3 & _). cbn [fst snd].
  assert (HRow : forall t, exists Ra Rb, R t = Ra ++ Rb /\ length Ra = length (p_rec P) /\
    fst (if (0 <=? t)%Z then nth (Z.to_nat t) rs (map (fun _ => 0) (p_rec P), map (fun _ => 0) recsc)
         else (map (fun _ => 0) (p_rec P), map (fun _ => 0) recsc)) = lre Ra /\
    snd (if (0 <=? t)%Z then nth (Z.to_nat t) rs (map (fun _ => 0) (p_rec P), map (fun _ => 0) recsc)
         else (map (fun _ => 0) (p_rec P), map (fun _ => 0) recsc)) = lep Rb).
  { intros t. rewrite A1.
    set (z := map (fun _ => 0) (p_rec DP)). set (z1 := (map (fun _ => 0) (p_rec P), map (fun _ => 0) recsc)).
    assert (HZ : exists Ra Rb, z = Ra ++ Rb /\ length Ra = length (p_rec P) /\ fst z1 = lre Ra /\ snd z1 = lep Rb).
    { exists (map (fun _ => 0) (p_rec P)), (map (fun _ => 0) recsc). split; [unfold z; cbn [p_rec P2 withrec dpar]; apply map_app|].
      split; [apply map_length|]. unfold lre, lep. rewrite !map_map. split; reflexivity. }
    destruct (0 <=? t)%Z; [|exact HZ].
    clear - HR HZ. revert HR. generalize (Z.to_nat t). intros n HR. revert n.
    induction HR as [|x y rs Rs H HR IH]; intros [|n]; cbn [nth]; auto. }
  split; [|split; [|split; [|split]]].
  - intros t. destruct (HRow t) as (Ra & Rb & X1 & X2 & X3 & X4). destruct (F5 t) as (Ra' & Rb' & Y1 & Y2 & Y3 & Y4).
    rewrite X1 in Y1. destruct (app_inj _ _ _ _ (eq_trans X2 (eq_sym Y2)) Y1) as [-> ->]. rewrite X3. exact Y3.
  - intros t. destruct (HRow t) as (Ra & Rb & X1 & X2 & X3 & X4). destruct (F5 t) as (Ra' & Rb' & Y1 & Y2 & Y3 & Y4).
    rewrite X1 in Y1. destruct (app_inj _ _ _ _ (eq_trans X2 (eq_sym Y2)) Y1) as [-> ->]. rewrite X4. exact Y4.
  - intros q Hq. destruct (A2 q Hq) as [X1 X2].
    change (s_wfc _ U q = s_wfc _ S1 (topad K P q)) in X1. change (s_wfp _ U q = s_wfp _ S1 (topad K P q)) in X2.
    rewrite F1, C1 in X1. rewrite F2, C2 in X2. split; [exact (f_equal fst X1)|exact (f_equal fst X2)].
  - intros q Hq. destruct (A2 q Hq) as [X1 X2].
    change (s_wfc _ U q = s_wfc _ S1 (topad K P q)) in X1. change (s_wfp _ U q = s_wfp _ S1 (topad K P q)) in X2.
    rewrite F1, C1 in X1. rewrite F2, C2 in X2. split; [exact (f_equal snd X1)|exact (f_equal snd X2)].
  - intros Hle. specialize (A3 Hle).
    assert (A4 : forall q, In q (upts K P) ->
      s_wfc _ U q = s_wfc _ S1 (topad K P q) /\ s_wfp _ U q = s_wfp _ S1 (topad K P q) /\
      forall d, (d < length shape)%nat -> s_psi _ U d q = s_psi _ S1 d (topad K P q) /\ s_zeta _ U d q = s_zeta _ S1 d (topad K P q))
      by exact A3. clear A3.
    split; intros q Hq; destruct (A4 q Hq) as (X1 & X2 & X3); rewrite F1, C1 in X1; rewrite F2, C2 in X2.
    + split; [exact (f_equal fst X1)|]. split; [exact (f_equal fst X2)|]. intros d Hd. destruct (X3 d Hd) as [X4 X5].
      rewrite F3, C3 in X4. rewrite F4, C4 in X5. split; [exact (f_equal fst X4)|exact (f_equal fst X5)].
    + split; [exact (f_equal snd X1)|]. split; [exact (f_equal snd X2)|]. intros d Hd. destruct (X3 d Hd) as [X4 X5].
      rewrite F3, C3 in X4. rewrite F4, C4 in X5. split; [exact (f_equal snd X4)|exact (f_equal snd X5)].
Qed.

End BornPy.

(** ** Scaling of the source amplitudes *)
Section Scale.
Variable K : ops.
Hypothesis Kr : is_ring K.
Add Ring KRingS : Kr.
Variable P : par K.

(** The Born scaling is the derivative of the scalar propagator's scaling. *)
Lemma scale_amps_dual P' (v scatter : arr K) src (amps : list K) : p_dt2 P' = p_dt2 P ->
  scale_amps (dual K) (dpar P') (perturb v scatter) src (map dconst amps)
  = dlist (scale_amps K P v src amps) (scale_amps_sc K P v scatter src amps).
Proof.
  intros Hd. unfold scale_amps, scale_amps_sc, dlist. revert amps.
  induction src as [|l src IH]; intros [|a amps]; cbn [combine map]; try reflexivity.
  rewrite IH. f_equal. cbn [fst snd]. change (p_dt2 (dpar P')) with (dconst (p_dt2 P')). rewrite Hd.
  apply dual_eq; unfold two, perturb; cbn; ring.
Qed.

Lemma scale_length (v scatter : arr K) src (amps : list K) :
  length (scale_amps_sc K P v scatter src amps) = length (scale_amps K P v src amps).
Proof. unfold scale_amps, scale_amps_sc. rewrite !map_length. reflexivity. Qed.

Variable pw : nat -> Z * Z.
Variable recsc : list Z.
Hypothesis Hg : geom_ok K P pw.
Hypothesis Hsrc : Forall (loc_ok K P) (p_src P).
Hypothesis Hrec : Forall (loc_ok K P) (p_rec P).
Hypothesis Hrecsc : Forall (loc_ok K P) recsc.

(** C04 with the scaling included: amplitudes as given by the user, and the scalar propagator run
    at [v + eps scatter]. *)
Lemma born_is_derivative_scaled v scatter amps u usc nt sr vis vis1 vis2 vrg srg vrg1 vrg2 cb cb1 cb2 w0 wsc0 st1 st2 :
  (0 < sr)%Z -> cb_ok nt sr cb -> cb_ok nt sr cb1 -> cb_ok nt sr cb2 ->
  fvis K P pw vis -> fvis K P pw vis1 -> fvis K P pw vis2 ->
  exists B U1 R1 S1 U2 R2 S2,
    born_forward K P recsc pw v scatter vis vrg srg sr
      (fun t => scale_amps K P v (p_src P) (amps t)) (fun t => scale_amps_sc K P v scatter (p_src P) (amps t))
      nt cb w0 wsc0 u usc = Some B /\
    scalar_forward K P pw v vis1 vrg1 sr (fun t => scale_amps K P v (p_src P) (amps t)) nt cb1 st1 u = Some (U1, R1, S1) /\
    scalar_forward (dual K) (dpar (withrec P recsc)) pw (perturb v scatter) vis2 vrg2 sr
      (fun t => scale_amps (dual K) (dpar P) (perturb v scatter) (p_src P) (map dconst (amps t)))
      nt cb2 st2 (dstate u usc) = Some (U2, R2, S2) /\
    ueq K P (bo_u K B) U1 /\ (forall t, bo_r K B t = R1 t) /\
    ueq K P (bo_usc K B) (sep U2) /\ (forall t, bo_rsc K B t = lep (R2 t)).
Proof.
  intros Hsr C C1 C2 V0 V1 V2.
  destruct (born_is_derivative K Kr P recsc pw Hg Hsrc Hrec Hrecsc v scatter
     (fun t => scale_amps K P v (p_src P) (amps t)) (fun t => scale_amps_sc K P v scatter (p_src P) (amps t))
     u usc nt sr vis vis1 vis2 vrg srg vrg1 vrg2 cb cb1 cb2 w0 wsc0 st1 st2) 
     as (B & U1 & R1 & S1 & U2 & R2 & S2 & E1 & E2 & E3 & X); auto; [intros; apply scale_length|].
  (* the sources over dual numbers are pointwise equal *)
  destruct (scalar_forward_spec (dual K) (dual_is_ring K Kr) (dpar (withrec P recsc)) pw (geom_dual K Kr (withrec P recsc) pw Hg) Hsrc Hrecsc
     (perturb v scatter) vis2 vrg2 sr (fun t => dlist (scale_amps K P v (p_src P) (amps t)) (scale_amps_sc K P v scatter (p_src P) (amps t)))
     nt cb2 st2 (dstate u usc) V2 Hsr C2) as (U3 & R3 & S3 & E3' & Y1 & Y2 & Y3 & _).
  rewrite E3 in E3'. injection E3' as <- <- <-.
  destruct (scalar_forward_spec (dual K) (dual_is_ring K Kr) (dpar (withrec P recsc)) pw (geom_dual K Kr (withrec P recsc) pw Hg) Hsrc Hrecsc
     (perturb v scatter) vis2 vrg2 sr (fun t => scale_amps (dual K) (dpar P) (perturb v scatter) (p_src P) (map dconst (amps t)))
     nt cb2 st2 (dstate u usc) V2 Hsr C2) as (U4 & R4 & S4 & E4 & Z1 & Z2 & Z3 & _).
  exists B, U1, R1, S1, U4, R4, S4. split; [exact E1|]. split; [exact E2|]. split; [exact E4|].
  destruct X as (X1 & X2 & X3 & X4). split; [exact X1|]. split; [exact X2|].
  assert (HE : forall k, steq (length (p_shape P)) (state (dual K) (dpar (withrec P recsc)) (fun _ p => perturb v scatter (idx (p_shape P) p))
       (fun t => dlist (scale_amps K P v (p_src P) (amps t)) (scale_amps_sc K P v scatter (p_src P) (amps t))) k 0
       (uinit (dual K) (dpar (withrec P recsc)) pw (dstate u usc)))
     (state (dual K) (dpar (withrec P recsc)) (fun _ p => perturb v scatter (idx (p_shape P) p))
       (fun t => scale_amps (dual K) (dpar P) (perturb v scatter) (p_src P) (map dconst (amps t))) k 0
       (uinit (dual K) (dpar (withrec P recsc)) pw (dstate u usc)))).
  { intros k. apply (state_ext_f (dual K) (dpar (withrec P recsc))).
    - reflexivity.
    - intros t _. symmetry. apply scale_amps_dual. reflexivity.
    - repeat split. }
  split.
  - intros q Hq. destruct (X3 q Hq) as (W1 & W2 & W3). destruct (Y1 q Hq) as (W4 & W5 & W6). destruct (Z1 q Hq) as (W7 & W8 & W9).
    destruct (HE (nsteps nt sr)) as (H1 & H2 & H3 & H4).
    cbn in *. unfold fep in *. rewrite W1, W2, W4, W5, W7, W8. cbn. rewrite H1, H2. split; [reflexivity|]. split; [reflexivity|].
    intros d Hd. destruct (W3 d Hd) as (-> & ->). destruct (W6 d Hd) as (-> & ->). destruct (W9 d Hd) as (-> & ->).
    cbn. rewrite (H3 d _ Hd), (H4 d _ Hd). split; reflexivity.
  - intros t. rewrite X4. f_equal. destruct (Z_lt_dec t 0) as [Ht|Ht]; [rewrite Y3, Z3 by lia; reflexivity|].
    destruct (Z_lt_dec t (Z.of_nat (nsteps nt sr))) as [Ht'|Ht']; [|rewrite Y3, Z3 by lia; reflexivity].
    replace t with (Z.of_nat (Z.to_nat t)) by lia. rewrite Y2, Z2 by lia.
    unfold rec_amps. apply (gather_ext (dual K) (dpar (withrec P recsc))).
    intros p. destruct (HE (Z.to_nat t)) as (H1 & _). apply H1.
Qed.
End Scale.
