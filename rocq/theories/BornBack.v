(** * The Born backward kernels compute with dual numbers. *)
From Coq Require Import List ZArith QArith Ring Ring_theory Lia Bool.
From Verif Require Import Ops Sums Grid Stencil DualNum ScalarModel ScalarRefine ScalarForward
  ScalarBackward ScalarAdjoint ScalarFunc ScalarApi ScalarGrad BornModel BornSim.
Import ListNotations.
Local Open Scope K_scope.

(** Scattered + eps background. *)
Definition dpair {K : ops} (a b : field K) : field (dual K) := fun p => (a p, b p).
Definition dstate {K : ops} (a b : st K) : st (dual K) :=
  mkst (dual K) (dpair (s_wfc K a) (s_wfc K b)) (dpair (s_wfp K a) (s_wfp K b))
    (fun d => dpair (s_psi K a d) (s_psi K b d)) (fun d => dpair (s_zeta K a d) (s_zeta K b d)).
(** Receiver gradients over the list of all receivers. *)
Definition drecs {K : ops} (gr grsc : list K) : list (dual K) :=
  map (fun x => (o0 K, x)) gr ++ map (fun x => (x, o0 K)) grsc.

Section Sim.
Variable K : ops.
Hypothesis Kr : is_ring K.
Add Ring KRing : Kr.
Variable P : par K.
Variable recsc : list Z.
Notation shape := (p_shape P).
Notation fd := (fd_pad (p_acc P)).
Notation DP := (dpar (P2 K P recsc)).
Variables v scatter : arr K.
Notation V := (perturb v scatter).
Notation V2 := (fun i => V i * V i * dconst (p_dt2 P)).
Variables vrg srg : bool.

Record bj (m : hmem K) (D : bmem (dual K)) : Prop := mkbj {
  bj_wfc : forall i, g_wfc _ D i = (g_wfc K (h_sc K m) i, g_wfc K (h_bg K m) i);
  bj_wfp : forall i, g_wfp _ D i = (g_wfp K (h_sc K m) i, g_wfp K (h_bg K m) i);
  bj_psi : forall d i, g_psi _ D d i = (g_psi K (h_sc K m) d i, g_psi K (h_bg K m) d i);
  bj_psin : forall d i, g_psin _ D d i = (g_psin K (h_sc K m) d i, g_psin K (h_bg K m) d i);
  bj_zeta : forall d i, g_zeta _ D d i = (g_zeta K (h_sc K m) d i, g_zeta K (h_bg K m) d i);
  bj_zetan : forall d i, g_zetan _ D d i = (g_zetan K (h_sc K m) d i, g_zetan K (h_bg K m) d i);
  bj_f : forall t, g_f K (h_sc K m) t = map fst (g_f _ D t) /\ g_f K (h_bg K m) t = map snd (g_f _ D t);
  bj_s : srg = true -> forall i, fst (g_v _ D i) = g_v K (h_sc K m) i;
  bj_v : vrg = true -> forall i, snd (g_v _ D i) = g_v K (h_bg K m) i
}.

Lemma bj_dim reg p d w wsc m D : bj m D ->
  let '(w', wsc', m') := h_bwd_dim K P v scatter reg p (w, wsc, m) d in
  let '(W', D') := c_bwd_dim (dual K) DP V2 reg p ((wsc, w) : dual K, D) d in
  W' = (wsc', w') /\ bj m' D'.
Proof.
  intros H. unfold h_bwd_dim, c_bwd_dim. cbn [dpar P2 withrec p_acc p_shape p_rd p_rd2 p_a p_b p_db].
  set (i := idx shape p). set (s := stride shape d). set (y := coord d p).
  set (vw := fun k => v (i + k * s)%Z * v (i + k * s)%Z * p_dt2 P * g_wfc K (h_bg K m) (i + k * s)%Z
                      + two * (v (i + k * s)%Z * p_dt2 P) * scatter (i + k * s)%Z * g_wfc K (h_sc K m) (i + k * s)%Z).
  set (vws := fun k => v (i + k * s)%Z * v (i + k * s)%Z * p_dt2 P * g_wfc K (h_sc K m) (i + k * s)%Z).
  assert (EV : forall k, V (i + k * s)%Z * V (i + k * s)%Z * dconst (p_dt2 P) * g_wfc _ D (i + k * s)%Z
                         = (vws k, vw k) :> dual K).
  { intros k. rewrite (bj_wfc _ _ H). unfold perturb, vws, vw. apply dual_eq; unfold two; cbn; ring. }
  assert (EZ : forall k, g_zeta _ D d (i + k * s)%Z = (g_zeta K (h_sc K m) d (i + k * s)%Z, g_zeta K (h_bg K m) d (i + k * s)%Z))
    by (intros k; apply (bj_zeta _ _ H)).
  assert (EP : forall k, g_psi _ D d (i + k * s)%Z = (g_psi K (h_sc K m) d (i + k * s)%Z, g_psi K (h_bg K m) d (i + k * s)%Z))
    by (intros k; apply (bj_psi _ _ H)).
  destruct (nth d reg 0 =? 1)%Z.
  { rewrite (DIFF2_pair K Kr _ _ _ vws vw) by exact EV. split; [reflexivity|exact H]. }
  set (pt := fun k => (1 + p_b P d (y + k)%Z) * vw k + p_b P d (y + k)%Z * g_zeta K (h_bg K m) d (i + k * s)%Z).
  set (pts := fun k => (1 + p_b P d (y + k)%Z) * vws k + p_b P d (y + k)%Z * g_zeta K (h_sc K m) d (i + k * s)%Z).
  set (u1 := fun k => p_db P d (y + k)%Z * pt k + p_b P d (y + k)%Z * g_psi K (h_bg K m) d (i + k * s)%Z).
  set (u1s := fun k => p_db P d (y + k)%Z * pts k + p_b P d (y + k)%Z * g_psi K (h_sc K m) d (i + k * s)%Z).
  set (u2 := fun k => (1 + p_b P d (y + k)%Z) * pt k).
  set (u2s := fun k => (1 + p_b P d (y + k)%Z) * pts k).
  rewrite (DIFF1_pair K Kr _ _ (fun k => dconst (p_db P d (y + k)%Z) * _ + _) u1s u1)
    by (intros k; rewrite EV, EZ, EP; unfold u1, u1s, pt, pts; apply dual_eq; cbn; ring).
  rewrite (DIFF2_pair K Kr _ _ (fun k => (1 + dconst (p_b P d (y + k)%Z)) * (_ * _ + _)) u2s u2)
    by (intros k; rewrite EV, EZ; unfold u2, u2s, pt, pts; apply dual_eq; cbn; ring).
  rewrite (DIFF1_pair K Kr _ _ (fun k => (1 + dconst (p_b P d (y + k)%Z)) * _ + _) pts pt)
    by (intros k; rewrite EV, EZ; unfold pt, pts; apply dual_eq; cbn; ring).
  split; [apply dual_eq; cbn; reflexivity|].
  destruct H as [A1 A2 A3 A4 A5 A6 A7 A8 A9].
  split; cbn [g_wfc g_wfp g_psi g_psin g_zeta g_zetan g_f g_v h_bg h_sc]; auto.
  - intros e j. unfold updd, upd. destruct (Nat.eqb e d); [|auto]. destruct (j =? i)%Z; [|auto].
    rewrite A3. apply dual_eq.
    + change ((- p_a P d y) * DIFF1 (p_acc P) (p_rd P d) pts + p_a P d y * g_psi K (h_sc K m) d i
              = (- p_a P d y) * DIFF1 (p_acc P) (p_rd P d) pts + p_a P d y * g_psi K (h_sc K m) d i). reflexivity.
    + change (((- p_a P d y) * DIFF1 (p_acc P) (p_rd P d) pt + (- 0) * DIFF1 (p_acc P) (p_rd P d) pts)
              + (p_a P d y * g_psi K (h_bg K m) d i + 0 * g_psi K (h_sc K m) d i)
              = (- p_a P d y) * DIFF1 (p_acc P) (p_rd P d) pt + p_a P d y * g_psi K (h_bg K m) d i). ring.
  - intros e j. unfold updd, upd. destruct (Nat.eqb e d); [|auto]. destruct (j =? i)%Z; [|auto].
    rewrite EV, A5. unfold vw, vws. replace (i + 0 * s)%Z with i by lia. apply dual_eq; unfold two; cbn; ring.
Qed.

Lemma bj_dims reg p ds w wsc m D : bj m D ->
  let '(w', wsc', m') := fold_left (h_bwd_dim K P v scatter reg p) ds (w, wsc, m) in
  let '(W', D') := fold_left (c_bwd_dim (dual K) DP V2 reg p) ds ((wsc, w) : dual K, D) in
  W' = (wsc', w') /\ bj m' D'.
Proof.
  revert w wsc m D. induction ds as [|d ds IH]; intros w wsc m D H; cbn [fold_left]; [auto|].
  pose proof (bj_dim reg p d w wsc m D H) as H1.
  destruct (h_bwd_dim K P v scatter reg p (w, wsc, m) d) as [[w1 wsc1] m1].
  destruct (c_bwd_dim (dual K) DP V2 reg p ((wsc, w) : dual K, D) d) as [W1 D1]. destruct H1 as [-> H1].
  apply IH. exact H1.
Qed.

Variables w wsc : Z -> arr K.
Variable D0 : Z -> arr (dual K).
Hypothesis HS : storerel K P v scatter vrg srg w wsc D0.
Variable sr : Z.

Lemma bj_cell c si m D rp : bj m D ->
  bj (h_bwd_cell K P v scatter w wsc (vrg && c) (srg && c) sr si m rp)
     (c_bwd_cell (dual K) DP V2 D0 (true && c) sr si D rp).
Proof.
  destruct rp as [reg p]. intros H. unfold h_bwd_cell, c_bwd_cell.
  change (dims (dual K) DP) with (dims K P).
  pose proof (bj_dims reg p (dims K P) 0 0 m D H) as H1.
  change (o0 (dual K)) with ((0, 0) : dual K).
  destruct (fold_left (h_bwd_dim K P v scatter reg p) (dims K P) (0, 0, m)) as [[w1 wsc1] m1].
  destruct (fold_left (c_bwd_dim (dual K) DP V2 reg p) (dims K P) _) as [W1 D1]. destruct H1 as [-> H1].
  destruct H1 as [A1 A2 A3 A4 A5 A6 A7 A8 A9]. destruct HS as [S1 S2].
  split; cbn [g_wfc g_wfp g_psi g_psin g_zeta g_zetan g_f g_v h_bg h_sc dpar P2 withrec p_shape p_dt2]; auto.
  - intros j. unfold upd. destruct (j =? idx shape p)%Z; [|apply A2].
    rewrite A1, A2. apply dual_eq; unfold two; cbn; ring.
  - intros E i. specialize (A8 E). rewrite E in *. rewrite orb_true_r in S1. destruct c; cbn [andb]; auto.
    unfold upd. destruct (Z.eqb_spec i (idx shape p)); [subst i|auto].
    specialize (A8 (idx shape p)). specialize (S1 eq_refl si (idx shape p)). rewrite A1.
    cbn [dual fst snd oadd omul oq ofZ car]. unfold ofZ. cbn [fst snd oq dual]. rewrite A8, S1. ring.
  - intros E i. specialize (A9 E). rewrite E in *. cbn [orb] in S1. destruct c; cbn [andb]; auto.
    unfold upd. destruct (Z.eqb_spec i (idx shape p)); [subst i|auto].
    specialize (A9 (idx shape p)). specialize (S1 eq_refl si (idx shape p)). specialize (S2 eq_refl si (idx shape p)).
    rewrite A1. cbn [dual fst snd oadd omul oq car]. unfold ofZ. cbn [fst snd oq dual]. rewrite A9, S1, S2. ring.
Qed.

Lemma bj_cells c si vis m D : bj m D ->
  bj (fold_left (h_bwd_cell K P v scatter w wsc (vrg && c) (srg && c) sr si) vis m)
     (fold_left (c_bwd_cell (dual K) DP V2 D0 (true && c) sr si) vis D).
Proof.
  revert m D. induction vis as [|rp vis IH]; intros m D H; cbn [fold_left]; [exact H|].
  apply IH. apply bj_cell. exact H.
Qed.

Variable vis : list (list Z * pt).
Variables gr grsc : Z -> list K.
Hypothesis Hlen : forall t, length (gr t) = length (p_rec P).
Notation GR := (fun t => drecs (gr t) (grsc t)).

Lemma lre_drecs a b : lre (drecs a b) = map (fun _ => 0) a ++ b :> list K.
Proof. unfold lre, drecs. rewrite map_app, !map_map. cbn [fst]. rewrite map_id. reflexivity. Qed.
Lemma lep_drecs a b : lep (drecs a b) = a ++ map (fun _ => 0) b :> list K.
Proof. unfold lep, drecs. rewrite map_app, !map_map. cbn [snd]. rewrite map_id. reflexivity. Qed.

Lemma bj_body t m D : bj m D ->
  bj (h_bwd_body K P recsc v scatter vis w wsc vrg srg sr gr grsc t m)
     (c_bwd_body (dual K) DP V2 vis D0 true sr GR t D).
Proof.
  intros H. unfold h_bwd_body, c_bwd_body.
  pose proof (bj_cells (t mod sr =? 0)%Z (t / sr)%Z vis m D H) as H1.
  set (m1 := fold_left (h_bwd_cell K P v scatter w wsc _ _ _ _) vis m) in *.
  set (D1 := fold_left (c_bwd_cell (dual K) DP _ _ _ _ _) vis D) in *.
  destruct H1 as [A1 A2 A3 A4 A5 A6 A7 A8 A9].
  split; cbn [g_wfc g_wfp g_psi g_psin g_zeta g_zetan g_f g_v h_bg h_sc dpar P2 withrec p_src p_rec]; auto.
  - intros i. rewrite (add_pair K _ _ _ _ _ A2), lre_drecs, lep_drecs.
    rewrite !(add_app K) by (rewrite ?map_length, Hlen; reflexivity). f_equal.
    + apply add_ext. intros j. apply (add_zero K Kr). intros x Hx. apply in_map_iff in Hx. destruct Hx as (? & <- & _). reflexivity.
    + apply (add_zero K Kr). intros x Hx. apply in_map_iff in Hx. destruct Hx as (? & <- & _). reflexivity.
  - intros u. destruct (Z.eqb_spec u t); [subst u|apply A7]. destruct (A7 t) as [E1 E2]. rewrite E1, E2.
    split; symmetry; [apply record_fst|apply record_snd]; intros i; rewrite A1; reflexivity.
Qed.

Lemma bj_swap m D : bj m D -> bj (h_swap K m) (b_swap (dual K) D).
Proof. intros []. split; cbn; auto. Qed.

Lemma bj_ts ts s0 m D : bj m D ->
  bj (fold_left (h_bwd_t K P recsc v scatter vis w wsc vrg srg sr gr grsc s0) ts m)
     (fold_left (c_bwd_t (dual K) DP V2 vis D0 true sr GR s0) ts D).
Proof.
  revert m D. induction ts as [|t ts IH]; intros m D H; cbn [fold_left]; [exact H|].
  apply IH. unfold h_bwd_t, c_bwd_t. destruct (Z.odd _); [apply bj_swap|]; apply bj_body; auto using bj_swap.
Qed.

Lemma bj_chunk cf m D s : bj m D ->
  bj (h_bwd_chunk K P recsc v scatter vis w wsc vrg srg sr gr grsc cf m s)
     (bwd_chunk (dual K) DP V2 vis D0 true sr GR cf D s).
Proof.
  intros H. unfold h_bwd_chunk, bwd_chunk, h_backward, c_backward.
  match goal with |- bj (if _ then ?a else _) (if _ then ?b else _) => assert (H1 : bj a b) by (apply bj_ts; exact H) end.
  destruct (_ =? 0)%Z; [exact H1|apply bj_swap; exact H1].
Qed.

Lemma bj_neg m D : bj m D -> bj (h_neg K m) (neg_wfp (dual K) D).
Proof. intros []. split; cbn; auto. intros i. rewrite bj_wfp0. reflexivity. Qed.

Lemma bj_driver nt cb m D : bj m D ->
  match h_bwd_driver K P recsc v scatter vis w wsc vrg srg sr gr grsc nt cb m,
        bwd_driver (dual K) DP V2 vis D0 true sr GR nt cb D with
  | Some a, Some b => bj a b
  | None, None => True
  | _, _ => False
  end.
Proof.
  intros H. unfold h_bwd_driver, bwd_driver. destruct (nt <=? 0)%Z; [auto using bj_neg|].
  destruct (_ =? 0)%Z; [exact I|]. apply bj_neg. apply bj_neg in H.
  revert H. generalize (h_neg K m) (neg_wfp (dual K) D). clear m D.
  set (cf := match cb with Some c => c | None => _ end). generalize (range_down (nt / sr) cf). intros l.
  induction l as [|s l IH]; intros m D H; cbn [fold_left]; [exact H|].
  apply IH. apply bj_chunk. exact H.
Qed.

Variable pw : nat -> Z * Z.

Lemma bj_init g gsc : bj (mkhmem K (bwd_init K P pw g) (bwd_init K P pw gsc)) (bwd_init (dual K) DP pw (dstate gsc g)).
Proof.
  split; cbn [bwd_init g_wfc g_wfp g_psi g_psin g_zeta g_zetan g_f g_v h_bg h_sc dstate s_wfc s_wfp s_psi s_zeta]; auto.
  - intros i. apply pad_pair.
  - intros i. apply pad_pair.
  - intros d i. apply zpad_pair.
  - intros d i. apply zpad_pair.
  - intros t. cbn [dpar P2 withrec p_src]. rewrite !map_map. auto.
Qed.

Definition born_bwd_rel (B : born_grad K) (x : st (dual K) * (Z -> list (dual K)) * arr (dual K)) : Prop :=
  let '(G0, gf, gv) := x in
  (forall q, s_wfc _ G0 q = (s_wfc K (bg_usc K B) q, s_wfc K (bg_u K B) q)) /\
  (forall q, s_wfp _ G0 q = (s_wfp K (bg_usc K B) q, s_wfp K (bg_u K B) q)) /\
  (forall d q, s_psi _ G0 d q = (s_psi K (bg_usc K B) d q, s_psi K (bg_u K B) d q)) /\
  (forall d q, s_zeta _ G0 d q = (s_zeta K (bg_usc K B) d q, s_zeta K (bg_u K B) d q)) /\
  (forall t, bg_fsc K B t = lre (gf t) /\ bg_f K B t = lep (gf t)) /\
  (srg = true -> forall i, fst (gv i) = bg_scatter K B i) /\
  (vrg = true -> forall i, snd (gv i) = bg_v K B i).

Lemma born_backward_sim nt cb g gsc :
  match born_backward K P recsc pw v scatter vis w wsc vrg srg sr gr grsc nt cb g gsc,
        scalar_backward (dual K) DP pw V vis D0 true sr GR nt cb (dstate gsc g) with
  | Some a, Some b => born_bwd_rel a b
  | None, None => True
  | _, _ => False
  end.
Proof.
  unfold born_backward, scalar_backward.
  pose proof (bj_driver nt cb _ _ (bj_init g gsc)) as H.
  change (p_dt2 DP) with (dconst (p_dt2 P)).
  destruct (h_bwd_driver _ _ _ _ _ _ _ _ _ _ _ _ _ _ _ _) as [a|], (bwd_driver _ _ _ _ _ _ _ _ _ _ _) as [b|]; auto.
  destruct H as [A1 A2 A3 A4 A5 A6 A7 A8 A9].
  unfold born_bwd_rel. cbn [bg_u bg_usc bg_f bg_fsc bg_v bg_scatter crop_bst s_wfc s_wfp s_psi s_zeta].
  unfold crop. change (topad (dual K) DP) with (topad K P). repeat split; auto; apply A7.
Qed.

End Sim.

(** ** [backward_sc] is the scattered half of [backward] *)

Section Sc.
Variable K : ops.
Variable P : par K.
Variable recsc : list Z.
Variable pw : nat -> Z * Z.

Section Run.
Variables v scatter : arr K.
Variables w wsc : Z -> arr K.
Variables vrg srg : bool.
Variable sr : Z.
Variable vis : list (list Z * pt).
Variables gr grsc : Z -> list K.

Lemma sc_dims reg p ds ws wssc m :
  let '(_, wsc', m') := fold_left (h_bwd_dim K P v scatter reg p) ds (ws, wssc, m) in
  fold_left (sc_bwd_dim K P v reg p) ds (wssc, h_sc K m) = (wsc', h_sc K m').
Proof.
  revert ws wssc m. induction ds as [|d ds IH]; intros ws wssc m; cbn [fold_left]; [reflexivity|].
  unfold h_bwd_dim at 2, sc_bwd_dim at 2. destruct (nth d reg 0 =? 1)%Z; apply IH.
Qed.

Lemma sc_cell stv sts si m rp :
  h_sc K (h_bwd_cell K P v scatter w wsc stv sts sr si m rp) = sc_bwd_cell K P v w sts sr si (h_sc K m) rp.
Proof.
  destruct rp as [reg p]. unfold h_bwd_cell, sc_bwd_cell.
  pose proof (sc_dims reg p (dims K P) 0 0 m) as H.
  destruct (fold_left (h_bwd_dim K P v scatter reg p) (dims K P) (0, 0, m)) as [[w1 wsc1] m1]. rewrite H. reflexivity.
Qed.

Lemma sc_body t m :
  h_sc K (h_bwd_body K P recsc v scatter vis w wsc vrg srg sr gr grsc t m)
  = sc_bwd_body K P recsc v vis w srg sr grsc t (h_sc K m).
Proof.
  unfold h_bwd_body, sc_bwd_body.
  assert (H : forall l m, h_sc K (fold_left (h_bwd_cell K P v scatter w wsc (vrg && (t mod sr =? 0)%Z) (srg && (t mod sr =? 0)%Z) sr (t / sr)%Z) l m)
    = fold_left (sc_bwd_cell K P v w (srg && (t mod sr =? 0)%Z) sr (t / sr)%Z) l (h_sc K m)).
  { induction l as [|x l IH]; intros n; cbn [fold_left]; [reflexivity|]. rewrite IH, sc_cell. reflexivity. }
  cbn [h_sc]. rewrite H. reflexivity.
Qed.

Lemma sc_ts ts s0 m :
  h_sc K (fold_left (h_bwd_t K P recsc v scatter vis w wsc vrg srg sr gr grsc s0) ts m)
  = fold_left (sc_bwd_t K P recsc v vis w srg sr grsc s0) ts (h_sc K m).
Proof.
  revert m. induction ts as [|t ts IH]; intros m; cbn [fold_left]; [reflexivity|]. rewrite IH. f_equal.
  unfold h_bwd_t, sc_bwd_t. destruct (Z.odd _); [|apply sc_body]. cbn [h_swap h_sc]. rewrite sc_body. reflexivity.
Qed.

Lemma sc_chunk cf m s :
  h_sc K (h_bwd_chunk K P recsc v scatter vis w wsc vrg srg sr gr grsc cf m s)
  = sc_bwd_chunk K P recsc v vis w srg sr grsc cf (h_sc K m) s.
Proof.
  unfold h_bwd_chunk, sc_bwd_chunk, h_backward, sc_backward.
  destruct (_ =? 0)%Z; cbn [h_swap h_sc]; rewrite sc_ts; reflexivity.
Qed.

Lemma sc_driver nt cb m :
  option_map (h_sc K) (h_bwd_driver K P recsc v scatter vis w wsc vrg srg sr gr grsc nt cb m)
  = sc_bwd_driver K P recsc v vis w srg sr grsc nt cb (h_sc K m).
Proof.
  unfold h_bwd_driver, sc_bwd_driver. destruct (nt <=? 0)%Z; [reflexivity|]. destruct (_ =? 0)%Z; [reflexivity|].
  cbn [option_map h_neg h_sc]. do 2 f_equal.
  set (cf := match cb with Some c => c | None => _ end). generalize (range_down (nt / sr) cf). intros l.
  change (neg_wfp K (h_sc K m)) with (h_sc K (h_neg K m)). generalize (h_neg K m). clear m.
  induction l as [|x l IH]; intros m; cbn [fold_left]; [reflexivity|]. rewrite IH, sc_chunk. reflexivity.
Qed.

Lemma born_backward_sc_half nt cb g gsc :
  born_backward_sc K P recsc pw v vis w srg sr grsc nt cb gsc
  = option_map (fun B => (bg_usc K B, bg_fsc K B, bg_scatter K B))
      (born_backward K P recsc pw v scatter vis w wsc vrg srg sr gr grsc nt cb g gsc).
Proof.
  unfold born_backward, born_backward_sc.
  change (bwd_init K P pw gsc) with (h_sc K (mkhmem K (bwd_init K P pw g) (bwd_init K P pw gsc))) at 1.
  rewrite <- sc_driver. destruct (h_bwd_driver _ _ _ _ _ _ _ _ _ _ _ _ _ _ _ _); reflexivity.
Qed.
End Run.
End Sc.
