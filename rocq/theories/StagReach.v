(** * Finite propagation speed of the staggered propagators (proofs). *)
From Coq Require Import List ZArith QArith Ring Ring_theory Lia Bool Permutation.
From Verif Require Import Ops Sums Grid Stencil DualNum ScalarModel ScalarRefine ScalarForward ScalarAdjoint ScalarReach Loop
  Stag StagAdj StagKernel StagCell StagRefine StagGrad StagEqs StagRun StagPhysRun.
Import ListNotations.
Local Open Scope K_scope.

Local Arguments der : simpl never.
Local Arguments dmask : simpl never.
Local Arguments srcf : simpl never.
Local Arguments gat : simpl never.
Local Arguments term : simpl never.
Local Arguments nmem : simpl never.

(** Position of a variable with half positions [h] at cell [p], in half cells. *)
Fixpoint pos (h : nat -> bool) (p : pt) : pt :=
  match p with
  | [] => []
  | y :: p' => (2 * y + if h 0%nat then 1 else 0)%Z :: pos (fun d => h (Datatypes.S d)) p'
  end.
(** A point [q] on a way of at most [w] half cells from a source at [l1] to a receiver at [l2]. *)
Definition on_way (shape : list Z) (w : Z) (h1 : nat -> bool) (l1 : Z) (h : nat -> bool) (q : pt) (h2 : nat -> bool) (l2 : Z) : Prop :=
  length q = length shape /\
  (dist (pos h1 (unidx shape l1)) (pos h q) + dist (pos h q) (pos h2 (unidx shape l2)) <= w)%Z.
(** Number of half steps between an injection and sample [t] of a recording; [sA], [rA]: the variable of the source or receiver
    belongs to the first half step. *)
Definition way_steps (sA rA : bool) (t : Z) : Z := (2 * t - 1 - (if sA then 0 else 1) - (if rA then 1 else 0))%Z.

Lemma pos_length h p : length (pos h p) = length p.
Proof. revert h. induction p as [|y p IH]; intros h; cbn; auto. Qed.
Lemma pos_ext h h' p : (forall d, (d < length p)%nat -> h d = h' d) -> pos h p = pos h' p.
Proof.
  revert h h'. induction p as [|y p IH]; intros h h' H; cbn; [reflexivity|]. rewrite H by (cbn; lia). f_equal.
  apply IH. intros d Hd. apply H. cbn. lia.
Qed.
Lemma dist_sym p q : dist p q = dist q p.
Proof. revert q. induction p as [|x p IH]; intros [|y q]; cbn; try reflexivity. rewrite IH. lia. Qed.
Lemma dist_tri p q r : length p = length q -> length q = length r -> (dist p r <= dist p q + dist q r)%Z.
Proof.
  revert q r. induction p as [|x p IH]; intros [|y q] [|z r] H H'; cbn in *; try lia.
  specialize (IH q r ltac:(lia) ltac:(lia)). lia.
Qed.
Lemma dist_pos_shift d k h h' p : (d < length p)%nat -> (forall j, (j < length p)%nat -> j <> d -> h' j = h j) ->
  (dist (pos h p) (pos h' (shift d k p)) = Z.abs (2 * k + (if h' d then 1 else 0) - (if h d then 1 else 0)))%Z.
Proof.
  revert d h h'. induction p as [|y p IH]; intros d h h' Hd H; cbn in Hd; [lia|]. destruct d as [|d]; cbn [shift pos dist].
  - rewrite (pos_ext (fun d => h' (Datatypes.S d)) (fun d => h (Datatypes.S d)) p) by (intros j Hj; apply H; cbn; lia).
    rewrite dist_refl. destruct (h 0%nat), (h' 0%nat); lia.
  - rewrite IH; [|lia|intros j Hj Hne; apply H; cbn; lia]. rewrite (H 0%nat) by (cbn; lia). destruct (h 0%nat); lia.
Qed.
Lemma pos_translate_dist o h h' p q : length p = length o -> length q = length o ->
  dist (pos h (translate o p)) (pos h' (translate o q)) = dist (pos h p) (pos h' q).
Proof.
  revert h h' p q. induction o as [|x o IH]; intros h h' [|y p] [|z q] H H'; try discriminate; cbn; [reflexivity|].
  rewrite IH by (cbn in *; lia). destruct (h 0%nat), (h' 0%nat); lia.
Qed.

Section One.
Variable S : sys.
Variable K : ops.
Hypothesis Kr : is_ring K.
Add Ring KRing : Kr.
Variable P : spar S K.
Notation shape := (sp_shape P).
Notation fd := (fd_pad (sp_acc P)).
Notation nd := (length shape).
Notation wd := (2 * fd - 1)%Z.
Hypothesis Sok : sys_ok S nd.
Notation inX x := (In x (allX S)).
Notation inE e := (In e (allE S)).
Notation inC c := (In c (allC S)).

(** State after [n] half steps. *)
Fixpoint hst (c : coe S K) (f : Z -> sC S -> list K) (n : nat) (s : sst S K) : sst S K :=
  match n with
  | O => s
  | Datatypes.S k => hstep S K P (Nat.even k) c (f (Z.of_nat (Nat.div2 k))) (hst c f k s)
  end.
Lemma even2 n : Nat.even (2 * n) = true.
Proof. apply Nat.even_spec. exists n. reflexivity. Qed.
Lemma even2S n : Nat.even (Datatypes.S (2 * n)) = false.
Proof. rewrite Nat.even_succ, <- Nat.negb_even, even2. reflexivity. Qed.
Lemma hst_state c f n s : hst c f (2 * n) s = sstate S K P (fun _ => c) f n 0 s.
Proof.
  induction n as [|n IH]; [reflexivity|]. rewrite sstate_last, <- IH.
  replace (2 * Datatypes.S n)%nat with (Datatypes.S (Datatypes.S (2 * n))) by lia. cbn [hst]. unfold sstep.
  rewrite even2, even2S, Nat.div2_succ_double, Nat.div2_double. reflexivity.
Qed.

Lemma der_near (e : sE S) (f : field K) q : inE e -> length q = nd ->
  (forall k, (dist (pos (eh S e) q) (pos (xh S (esrc S e)) (shift (edim S e) k q)) <= wd)%Z -> f (shift (edim S e) k q) = 0) ->
  der S K P e f q = 0.
Proof.
  intros He Hl H.
  assert (D : forall k, (if eh S e (edim S e) then 1 - fd <= k <= fd else - fd <= k <= fd - 1)%Z ->
     (dist (pos (eh S e) q) (pos (xh S (esrc S e)) (shift (edim S e) k q)) <= wd)%Z).
  { intros k Hk. pose proof (ok_dim S nd Sok e He) as Hd. rewrite dist_pos_shift; [|lia|].
    - rewrite (ok_flip S nd Sok e He). destruct (eh S e (edim S e)); cbn [negb]; lia.
    - intros j Hj Hne. apply (ok_same S nd Sok); [exact He|lia|exact Hne]. }
  unfold der, SDH1, SD1. destruct (eh S e (edim S e)).
  - rewrite (SDIFFH1_ext K _ _ _ (fun j => 0 * 0)); [rewrite (SDIFFH1_scal K Kr); ring|].
    intros j Hj. rewrite H by (apply D; lia). ring.
  - rewrite (SDIFF1_ext K _ _ _ (fun j => 0 * 0)); [rewrite (SDIFF1_scal K Kr); ring|].
    intros j Hj. rewrite H by (apply D; lia). ring.
Qed.

(** [n] half steps lead from some source to [q]. *)
Definition near (n : Z) (h : nat -> bool) (q : pt) : bool :=
  existsb (fun c => existsb (fun x => existsb (fun l =>
    (0 <=? l)%Z && (dist (pos (xh S x) (unidx shape l)) (pos h q) <=? (n - (if cA S c then 0 else 1)) * wd)%Z)
    (sp_src P c)) (cinX S c)) (allC S).
Lemma near_spec n h q : near n h q = true <-> exists c x l, inC c /\ inX x /\ cin S c x = true /\ In l (sp_src P c) /\ (0 <= l)%Z /\
  (dist (pos (xh S x) (unidx shape l)) (pos h q) <= (n - (if cA S c then 0 else 1)) * wd)%Z.
Proof.
  unfold near. rewrite existsb_exists. split.
  - intros (c & Hc & H). apply existsb_exists in H. destruct H as (x & Hx & H). apply existsb_exists in H. destruct H as (l & Hl & H).
    apply andb_true_iff in H. rewrite !Z.leb_le in H. unfold cinX in Hx. apply filter_In in Hx. exists c, x, l. tauto.
  - intros (c & x & l & Hc & Hx & Hcx & Hl & H0 & Hd). exists c. split; [exact Hc|]. apply existsb_exists. exists x.
    split; [apply filter_In; auto|]. apply existsb_exists. exists l. split; [exact Hl|]. apply andb_true_iff. rewrite !Z.leb_le. auto.
Qed.
Lemma wd_pos : (0 < wd)%Z. Proof. pose proof (fd_pad_pos (sp_acc P)). lia. Qed.
Lemma near_ext n h h' q : length q = nd -> (forall d, (d < nd)%nat -> h d = h' d) -> near n h q = near n h' q.
Proof. intros Hl H. unfold near. rewrite (pos_ext h h' q); [reflexivity|]. intros d Hd. apply H. lia. Qed.
Lemma near_step n h q h' q' : length q = nd -> length q' = nd -> (dist (pos h q) (pos h' q') <= wd)%Z ->
  near n h q = true -> near (n + 1) h' q' = true.
Proof.
  intros Hl Hl' Hd H. apply near_spec in H. destruct H as (c & x & l & Hc & Hx & Hcx & Hin & H0 & H). apply near_spec.
  exists c, x, l. repeat split; try assumption.
  pose proof (dist_tri (pos (xh S x) (unidx shape l)) (pos h q) (pos h' q')) as T. rewrite !pos_length, unidx_length in T.
  specialize (T ltac:(lia) ltac:(lia)). destruct (cA S c); lia.
Qed.
Lemma near_mono n h q : length q = nd -> near (n + 1) h q = false -> near n h q = false.
Proof.
  intros Hl H. destruct (near n h q) eqn:E; [|reflexivity]. rewrite (near_step n h q h q) in H; [discriminate|exact Hl|exact Hl| |exact E].
  rewrite dist_refl. pose proof wd_pos. lia.
Qed.

Definition zeros (n : Z) (s : sst S K) : Prop :=
  (forall x q, inX x -> length q = nd -> near n (xh S x) q = false -> mn s x q = 0) /\
  (forall e q, inE e -> length q = nd -> near n (eh S e) q = false -> me s e q = 0).

Lemma src_far k f x q : inX x -> length q = nd -> xA S x = Nat.even k -> near (Z.of_nat k) (xh S x) q = false ->
  sumf (cinC S x) (fun c => srcf S K P (sp_src P c) (f c) q) = 0.
Proof.
  intros Hx Hl HA Hn. apply (sumf_zero K Kr). intros c Hc. unfold cinC in Hc. apply filter_In in Hc. destruct Hc as [Hc Hcx].
  unfold srcf. apply (sumf_zero K Kr). intros [l a] Hin. cbn [fst snd].
  destruct (Z.leb_spec 0 l) as [H0|]; [|reflexivity]. cbn [andb].
  destruct (pt_eq_dec (unidx shape l) q) as [E|]; [|reflexivity]. exfalso.
  enough (near (Z.of_nat k) (xh S x) q = true) by congruence. apply near_spec. exists c, x, l.
  repeat split; try assumption; [eapply in_combine_l; exact Hin|]. rewrite E, dist_refl. pose proof wd_pos.
  rewrite <- (ok_cin S nd Sok c x Hc Hx Hcx), HA. destruct (Nat.even k) eqn:Ek; [nia|].
  destruct k as [|k]; [discriminate|]. nia.
Qed.

Lemma zeros_step c f k s : zeros (Z.of_nat k - 1) s -> zeros (Z.of_nat k) (hstep S K P (Nat.even k) c f s).
Proof.
  intros [Zx Ze].
  assert (De : forall e q, inE e -> length q = nd -> near (Z.of_nat k) (eh S e) q = false -> der S K P e (mn s (esrc S e)) q = 0).
  { intros e q He Hl Hn. apply der_near; [exact He|exact Hl|]. intros j Hj.
    apply Zx; [apply (ok_srcin S nd Sok), He|rewrite shift_length; exact Hl|].
    destruct (near (Z.of_nat k - 1) (xh S (esrc S e)) (shift (edim S e) j q)) eqn:E; [|reflexivity]. exfalso.
    apply (near_step _ _ _ (eh S e) q) in E; [|rewrite shift_length; exact Hl|exact Hl|rewrite dist_sym; exact Hj].
    replace (Z.of_nat k - 1 + 1)%Z with (Z.of_nat k) in E by lia. congruence. }
  assert (Nm : forall e q, inE e -> length q = nd -> near (Z.of_nat k) (eh S e) q = false -> nmem S K P s e q = 0).
  { intros e q He Hl Hn. unfold nmem, dmask. destruct (dom S K P (eh S e) q); [|reflexivity].
    rewrite De, Ze; try assumption; [ring|]. apply near_mono; [exact Hl|]. replace (Z.of_nat k - 1 + 1)%Z with (Z.of_nat k) by lia. exact Hn. }
  split.
  - intros x q Hx Hl Hn. cbn [hstep mn].
    assert (M : near (Z.of_nat k - 1) (xh S x) q = false).
    { apply near_mono; [exact Hl|]. replace (Z.of_nat k - 1 + 1)%Z with (Z.of_nat k) by lia. exact Hn. }
    destruct (Bool.eqb (xA S x) (Nat.even k)) eqn:EA; [|apply Zx; assumption]. apply eqb_prop in EA.
    unfold injs. rewrite (src_far k); try assumption. unfold dmask. destruct (dom S K P (xh S x) q); [|ring].
    rewrite Zx by assumption. rewrite (sumf_zero K Kr); [ring|]. intros e Hin. unfold incE in Hin. apply filter_In in Hin.
    destruct Hin as [He Hi]. destruct (ok_inc S nd Sok x e Hx He Hi) as [_ Hh].
    assert (Hn' : near (Z.of_nat k) (eh S e) q = false) by (rewrite <- (near_ext _ (xh S x)) by assumption; exact Hn).
    unfold term. rewrite De, Nm by assumption. ring.
  - intros e q He Hl Hn. cbn [hstep me]. destruct (Bool.eqb (eA S e) (Nat.even k)).
    + apply Nm; assumption.
    + apply Ze; [exact He|exact Hl|]. apply near_mono; [exact Hl|]. replace (Z.of_nat k - 1 + 1)%Z with (Z.of_nat k) by lia. exact Hn.
Qed.
Lemma zeros_hst c f n s : (forall x q, mn s x q = 0) -> (forall e q, me s e q = 0) -> zeros (Z.of_nat n - 1) (hst c f n s).
Proof.
  intros H1 H2. induction n as [|n IH]; [split; intros; [apply H1|apply H2]|]. cbn [hst].
  replace (Z.of_nat (Datatypes.S n) - 1)%Z with (Z.of_nat n) by lia. apply zeros_step, IH.
Qed.
End One.

Section Two.
Variable S : sys.
Variable K : ops.
Hypothesis Kr : is_ring K.
Add Ring KRing2 : Kr.
Variables P1 P2 : spar S K.
Variable o : pt.
Notation sh1 := (sp_shape P1).
Notation sh2 := (sp_shape P2).
Notation fd := (fd_pad (sp_acc P1)).
Notation nd := (length sh1).
Notation wd := (2 * fd - 1)%Z.
Notation tr := (translate o).
Hypothesis Ho : length o = nd.
Hypothesis Hnd : length sh2 = nd.
Hypothesis Hacc : sp_acc P2 = sp_acc P1.
Hypothesis Hrd : forall d, sp_rd P2 d = sp_rd P1 d.
Hypothesis Sok : sys_ok S nd.
Notation inX x := (In x (allX S)).
Notation inE e := (In e (allE S)).
Notation inC c := (In c (allC S)).
Hypothesis Hsrc : forall c, inC c -> Forall2 (same_loc sh1 sh2 o) (sp_src P1 c) (sp_src P2 c).
Lemma Sok2 : sys_ok S (length sh2). Proof. rewrite Hnd. exact Sok. Qed.

(** The two problems agree around variable [x], or term [e], at [q]. *)
Definition agree_x (c1 c2 : coe S K) (x : sX S) (q : pt) : Prop :=
  dom S K P1 (xh S x) q = dom S K P2 (xh S x) (tr q) /\
  (dom S K P1 (xh S x) q = true -> forall e, In e (incE S x) -> c1 x e q = c2 x e (tr q)).
Definition agree_e (e : sE S) (q : pt) : Prop :=
  dom S K P1 (eh S e) q = dom S K P2 (eh S e) (tr q) /\
  (dom S K P1 (eh S e) q = true -> ea S K P1 e q = ea S K P2 e (tr q) /\ eb S K P1 e q = eb S K P2 e (tr q)).
Definition eqto (r : pt) (n : Z) (s1 s2 : sst S K) : Prop :=
  (forall x q, inX x -> length q = nd -> (dist (pos (xh S x) q) r <= n * wd)%Z -> mn s1 x q = mn s2 x (tr q)) /\
  (forall e q, inE e -> length q = nd -> (dist (pos (eh S e) q) r <= n * wd)%Z -> me s1 e q = me s2 e (tr q)).

Lemma tr_length q : length q = nd -> length (tr q) = length sh2.
Proof. intros H. rewrite translate_length by lia. lia. Qed.

Lemma near_tr n h q : length q = nd -> near S K P2 n h (tr q) = near S K P1 n h q.
Proof.
  intros Hl. apply eq_true_iff_eq. rewrite !near_spec, Hacc. split; intros (c & x & l & Hc & Hx & Hcx & Hin & H0 & Hd).
  - destruct (In_nth _ _ 0%Z Hin) as (i & Hi & Ei).
    assert (HF := Hsrc c Hc). pose proof (Forall2_len _ _ _ HF) as Hlen.
    assert (Hr : same_loc sh1 sh2 o (nth i (sp_src P1 c) 0%Z) (nth i (sp_src P2 c) 0%Z)).
    { clear -HF Hi Hlen. revert i Hi. induction HF; intros [|i] Hi; cbn in *; try lia; [assumption|]. apply IHHF; lia. }
    rewrite Ei in Hr. destruct Hr as [[? ?]|(A1 & A2 & A3)]; [lia|].
    exists c, x, (nth i (sp_src P1 c) 0%Z). repeat split; try assumption; [apply nth_In; lia|].
    rewrite A3, pos_translate_dist in Hd by (rewrite ?unidx_length; lia). exact Hd.
  - destruct (In_nth _ _ 0%Z Hin) as (i & Hi & Ei).
    assert (HF := Hsrc c Hc). pose proof (Forall2_len _ _ _ HF) as Hlen.
    assert (Hr : same_loc sh1 sh2 o (nth i (sp_src P1 c) 0%Z) (nth i (sp_src P2 c) 0%Z)).
    { clear -HF Hi Hlen. revert i Hi. induction HF; intros [|i] Hi; cbn in *; try lia; [assumption|]. apply IHHF; lia. }
    rewrite Ei in Hr. destruct Hr as [[? ?]|(A1 & A2 & A3)]; [lia|].
    exists c, x, (nth i (sp_src P2 c) 0%Z). repeat split; try assumption; [apply nth_In; lia|].
    rewrite A3, pos_translate_dist by (rewrite ?unidx_length; lia). exact Hd.
Qed.

Lemma srcf_tr c amps q : inC c -> length q = nd ->
  srcf S K P1 (sp_src P1 c) amps q = srcf S K P2 (sp_src P2 c) amps (tr q).
Proof.
  intros Hc Hl. unfold srcf. generalize (sp_src P1 c) (sp_src P2 c) (Hsrc c Hc). intros ls1 ls2 HF. revert amps.
  induction HF as [|l1 l2 ls1 ls2 H HF IH]; intros [|x amps]; try reflexivity.
  cbn [combine sumf fst snd]. f_equal; [|apply IH].
  destruct H as [[H1 H2]|(H1 & H2 & H3)].
  - destruct (Z.leb_spec 0 l1); [lia|]. destruct (Z.leb_spec 0 l2); [lia|]. reflexivity.
  - destruct (Z.leb_spec 0 l1); [|lia]. destruct (Z.leb_spec 0 l2); [|lia]. cbn [andb].
    destruct (pt_eq_dec (unidx sh1 l1) q) as [E1|E1]; destruct (pt_eq_dec (unidx sh2 l2) (tr q)) as [E2|E2]; try reflexivity.
    + exfalso. apply E2. rewrite H3, E1. reflexivity.
    + exfalso. apply E1. rewrite H3 in E2. apply translate_inj in E2; [exact E2| |]; rewrite ?unidx_length; lia.
Qed.

Lemma der_tr e f g q : inE e -> length q = nd ->
  (forall k, (dist (pos (eh S e) q) (pos (xh S (esrc S e)) (shift (edim S e) k q)) <= wd)%Z ->
     f (shift (edim S e) k q) = g (tr (shift (edim S e) k q))) ->
  der S K P1 e f q = der S K P2 e g (tr q).
Proof.
  intros He Hl H.
  assert (D : forall k, (if eh S e (edim S e) then 1 - fd <= k <= fd else - fd <= k <= fd - 1)%Z ->
     (dist (pos (eh S e) q) (pos (xh S (esrc S e)) (shift (edim S e) k q)) <= wd)%Z).
  { intros k Hk. pose proof (ok_dim S nd Sok e He) as Hd. rewrite dist_pos_shift; [|lia|].
    - rewrite (ok_flip S nd Sok e He). destruct (eh S e (edim S e)); cbn [negb]; lia.
    - intros j Hj Hne. apply (ok_same S nd Sok); [exact He|lia|exact Hne]. }
  unfold der, SDH1, SD1. rewrite Hacc, Hrd. destruct (eh S e (edim S e)).
  - apply SDIFFH1_ext. intros j Hj. rewrite <- translate_shift by lia. apply H, D. lia.
  - apply SDIFF1_ext. intros j Hj. rewrite <- translate_shift by lia. apply H, D. lia.
Qed.

Section Route.
Variables (c1 c2 : coe S K) (f : Z -> sC S -> list K) (s1 s2 : sst S K) (r : pt) (T : Z).
Hypothesis Hr : length r = nd.
Hypothesis Z1 : forall x q, mn s1 x q = 0.  Hypothesis Z1' : forall e q, me s1 e q = 0.
Hypothesis Z2 : forall x q, mn s2 x q = 0.  Hypothesis Z2' : forall e q, me s2 e q = 0.
(** Everything on a way from a source to [r] agrees. *)
Hypothesis HX : forall ch y l x q, inC ch -> inX y -> cin S ch y = true -> In l (sp_src P1 ch) -> (0 <= l)%Z -> inX x -> length q = nd ->
  (dist (pos (xh S y) (unidx sh1 l)) (pos (xh S x) q) + dist (pos (xh S x) q) r <= (T - 1 - (if cA S ch then 0 else 1)) * wd)%Z -> agree_x c1 c2 x q.
Hypothesis HE : forall ch y l e q, inC ch -> inX y -> cin S ch y = true -> In l (sp_src P1 ch) -> (0 <= l)%Z -> inE e -> length q = nd ->
  (dist (pos (xh S y) (unidx sh1 l)) (pos (eh S e) q) + dist (pos (eh S e) q) r <= (T - 1 - (if cA S ch then 0 else 1)) * wd)%Z -> agree_e e q.

Lemma reach_hst k : (Z.of_nat k <= T)%Z -> eqto r (T - Z.of_nat k) (hst S K P1 c1 f k s1) (hst S K P2 c2 f k s2).
Proof.
  pose proof (wd_pos S K P1) as W.
  induction k as [|k IH]; intros Hk.
  - split; intros; cbn [hst]; rewrite ?Z1, ?Z2, ?Z1', ?Z2'; reflexivity.
  - specialize (IH ltac:(lia)).
    pose proof (zeros_hst S K Kr P1 Sok c1 f (Datatypes.S k) s1 Z1 Z1') as [A1 A2].
    pose proof (zeros_hst S K Kr P2 Sok2 c2 f (Datatypes.S k) s2 Z2 Z2') as [B1 B2].
    replace (Z.of_nat (Datatypes.S k) - 1)%Z with (Z.of_nat k) in * by lia.
    destruct IH as [Ix Ie].
    set (m1 := hst S K P1 c1 f k s1) in *. set (m2 := hst S K P2 c2 f k s2) in *.
    assert (De : forall e q, inE e -> length q = nd -> (dist (pos (eh S e) q) r <= (T - Z.of_nat (Datatypes.S k)) * wd)%Z ->
       der S K P1 e (mn m1 (esrc S e)) q = der S K P2 e (mn m2 (esrc S e)) (tr q)).
    { intros e q He Hl Hd. apply der_tr; [exact He|exact Hl|]. intros j Hj.
      apply Ix; [apply (ok_srcin S nd Sok), He|rewrite shift_length; exact Hl|].
      pose proof (dist_tri (pos (xh S (esrc S e)) (shift (edim S e) j q)) (pos (eh S e) q) r) as Tr.
      rewrite !pos_length, shift_length in Tr. specialize (Tr ltac:(lia) ltac:(lia)). rewrite dist_sym in Hj. nia. }
    assert (Nm : forall e q, inE e -> length q = nd -> (dist (pos (eh S e) q) r <= (T - Z.of_nat (Datatypes.S k)) * wd)%Z ->
       agree_e e q -> nmem S K P1 m1 e q = nmem S K P2 m2 e (tr q)).
    { intros e q He Hl Hd [G1 G2]. unfold nmem, dmask. rewrite <- G1. destruct (dom S K P1 (eh S e) q) eqn:E; [|reflexivity].
      destruct (G2 eq_refl) as [-> ->]. rewrite (De e q He Hl Hd), (Ie e q He Hl) by nia. reflexivity. }
    split.
    + intros x q Hx Hl Hd.
      destruct (near S K P1 (Z.of_nat k) (xh S x) q) eqn:Hn.
      2:{ rewrite A1, B1; try assumption; [reflexivity|apply tr_length, Hl|rewrite near_tr by exact Hl; exact Hn]. }
      apply near_spec in Hn. destruct Hn as (ch & y & l & Hc & Hy & Hcy & Hin & H0 & Hdn).
      assert (Hp : forall h, (forall d, (d < nd)%nat -> h d = xh S x d) ->
        (dist (pos (xh S y) (unidx sh1 l)) (pos h q) + dist (pos h q) r <= (T - 1 - (if cA S ch then 0 else 1)) * wd)%Z).
      { intros h Hh. rewrite (pos_ext h (xh S x) q) by (intros d Hd'; apply Hh; lia). destruct (cA S ch); nia. }
      destruct (HX ch y l x q) as [G1 G2]; try assumption; [apply Hp; reflexivity|].
      cbn [hst hstep mn]. destruct (Bool.eqb (xA S x) (Nat.even k)).
      2:{ apply Ix; [exact Hx|exact Hl|nia]. }
      unfold injs. fold m1 m2. f_equal.
      * unfold dmask. rewrite <- G1. destruct (dom S K P1 (xh S x) q) eqn:Ed; [|reflexivity].
        rewrite (Ix x q) by (try assumption; nia). f_equal. apply (sumf_ext K). intros e Hin'. rewrite (G2 eq_refl e Hin').
        unfold incE in Hin'. apply filter_In in Hin'. destruct Hin' as [He Hi]. destruct (ok_inc S nd Sok x e Hx He Hi) as [_ Hh].
        assert (Hd' : (dist (pos (eh S e) q) r <= (T - Z.of_nat (Datatypes.S k)) * wd)%Z).
        { rewrite (pos_ext (eh S e) (xh S x) q) by (intros d ?; symmetry; apply Hh; lia). exact Hd. }
        unfold term. rewrite De, Nm; try assumption; [reflexivity|].
        apply (HE ch y l); try assumption. apply Hp. intros d Hd''. symmetry. apply Hh. exact Hd''.
      * apply (sumf_ext K). intros c Hc'. unfold cinC in Hc'. apply filter_In in Hc'. apply srcf_tr; [apply Hc'|exact Hl].
    + intros e q He Hl Hd.
      destruct (near S K P1 (Z.of_nat k) (eh S e) q) eqn:Hn.
      2:{ rewrite A2, B2; try assumption; [reflexivity|apply tr_length, Hl|rewrite near_tr by exact Hl; exact Hn]. }
      apply near_spec in Hn. destruct Hn as (ch & y & l & Hc & Hy & Hcy & Hin & H0 & Hdn).
      cbn [hst hstep me]. destruct (Bool.eqb (eA S e) (Nat.even k)).
      2:{ apply Ie; [exact He|exact Hl|nia]. }
      apply Nm; try assumption. apply (HE ch y l); try assumption. destruct (cA S ch); nia.
Qed.
End Route.
End Two.

Section Run.
Variable S : sys.
Variable N : kern S.
Variable K : ops.
Hypothesis Kr : is_ring K.
Variables P1 P2 : spar S K.
Variables U1 U2 : knum S N K.
Variables kc1 kc2 : sX S -> sE S -> arr K.
Variables pw1 pw2 : nat -> Z * Z.
Variable o : pt.
Notation sh1 := (sp_shape P1).
Notation sh2 := (sp_shape P2).
Notation fd := (fd_pad (sp_acc P1)).
Notation nd := (length sh1).
Notation wd := (2 * fd - 1)%Z.
Notation tr := (translate o).
Hypothesis Ho : length o = nd.
Hypothesis Hnd : length sh2 = nd.
Hypothesis Hacc : sp_acc P2 = sp_acc P1.
Hypothesis Hrd : forall d, sp_rd P2 d = sp_rd P1 d.
Hypothesis Sok : sys_ok S nd.
Hypothesis Hk : kern_ok S N nd.
Hypothesis Hu1 : num_ok S N K U1 kc1.
Hypothesis Hu2 : num_ok S N K U2 kc2.
Hypothesis Hgeo1 : sgeom S K P1 pw1.
Hypothesis Hgeo2 : sgeom S K P2 pw2.
Hypothesis Hs1 : locs_ok S K P1 (sp_src P1).  Hypothesis Hr1 : locs_ok S K P1 (sp_rec P1).
Hypothesis Hs2 : locs_ok S K P2 (sp_src P2).  Hypothesis Hr2 : locs_ok S K P2 (sp_rec P2).
Notation inX x := (In x (allX S)).
Notation inE e := (In e (allE S)).
Notation inC c := (In c (allC S)).
Hypothesis Hsrc : forall c, inC c -> Forall2 (same_loc sh1 sh2 o) (sp_src P1 c) (sp_src P2 c).
Hypothesis Hrec : forall c, inC c -> Forall2 (same_loc sh1 sh2 o) (sp_rec P1 c) (sp_rec P2 c).

Lemma Forall2_nth {A B} (R : A -> B -> Prop) l m a b i : Forall2 R l m -> (i < length l)%nat -> R (nth i l a) (nth i m b).
Proof. intros H. revert i. induction H; intros [|i] Hi; cbn in *; try lia; [assumption|]. apply IHForall2. lia. Qed.
Lemma sinit_rest P pw : (forall x q, mn (sinit S K P pw (rest S K)) x q = 0) /\ (forall e q, me (sinit S K P pw (rest S K)) e q = 0).
Proof. split; intros; cbn; [destruct (dom S K P _ _)|destruct (_ && _)]; reflexivity. Qed.

Theorem stag_finite_speed f nt sr vA1 vB1 vA2 vB2 fq1 fq2 cb1 cb2 st1 st2 V1 R1 S1 V2 R2 S2 :
  fvisits S N K P1 pw1 true vA1 -> fvisits S N K P1 pw1 false vB1 -> fvisits S N K P2 pw2 true vA2 -> fvisits S N K P2 pw2 false vB2 ->
  nt_ok nt sr cb1 -> nt_ok nt sr cb2 ->
  k_fwd S N K P1 U1 pw1 vA1 vB1 fq1 sr f nt cb1 st1 (rest S K) = Some (V1, R1, S1) ->
  k_fwd S N K P2 U2 pw2 vA2 vB2 fq2 sr f nt cb2 st2 (rest S K) = Some (V2, R2, S2) ->
  forall t c j, inC c ->
  (forall z ch y l x q, inX z -> cin S c z = true -> inC ch -> inX y -> cin S ch y = true -> In l (sp_src P1 ch) -> (0 <= l)%Z -> inX x ->
     on_way sh1 (way_steps (cA S ch) (cA S c) t * wd) (xh S y) l (xh S x) q (xh S z) (nth j (sp_rec P1 c) 0%Z) ->
     agree_x S K P1 P2 o (ccoe S K P1 kc1) (ccoe S K P2 kc2) x q) ->
  (forall z ch y l e q, inX z -> cin S c z = true -> inC ch -> inX y -> cin S ch y = true -> In l (sp_src P1 ch) -> (0 <= l)%Z -> inE e ->
     on_way sh1 (way_steps (cA S ch) (cA S c) t * wd) (xh S y) l (eh S e) q (xh S z) (nth j (sp_rec P1 c) 0%Z) ->
     agree_e S K P1 P2 o e q) ->
  nth j (R1 t c) 0 = nth j (R2 t c) 0.
Proof.
  intros VA1 VB1 VA2 VB2 N1 N2 E1 E2 t c j Hc HX HE.
  assert (Sok2 : sys_ok S (length sh2)) by (rewrite Hnd; exact Sok).
  assert (Hk2 : kern_ok S N (length sh2)) by (rewrite Hnd; exact Hk).
  destruct (run_inv S N K Kr P1 U1 kc1 pw1 Sok Hk Hu1 Hs1 Hr1 Hgeo1 _ _ _ _ _ _ _ _ _ _ _ _ VA1 VB1 N1 E1) as [_ B1].
  destruct (run_inv S N K Kr P2 U2 kc2 pw2 Sok2 Hk2 Hu2 Hs2 Hr2 Hgeo2 _ _ _ _ _ _ _ _ _ _ _ _ VA2 VB2 N2 E2) as [_ B2].
  pose proof (Forall2_len _ _ _ (Hrec c Hc)) as Hlen.
  rewrite B1, B2 by exact Hc. destruct ((0 <=? t)%Z && (t <? nsteps nt sr)%Z) eqn:Et.
  2:{ destruct (Nat.lt_ge_cases j (length (sp_rec P1 c))) as [Hj|Hj].
      - assert (Z : forall l : list Z, (j < length l)%nat -> nth j (map (fun _ => 0) l) 0 = (0 : K)).
        { clear. intros l. revert j. induction l as [|a l IH]; intros [|j] H; cbn in *; try lia; [reflexivity|]. apply IH. lia. }
        rewrite !Z by lia. reflexivity.
      - rewrite !nth_overflow; [reflexivity| |]; rewrite map_length; lia. }
  apply andb_true_iff in Et. rewrite Z.leb_le, Z.ltb_lt in Et. unfold srec, gat.
  destruct (Nat.lt_ge_cases j (length (sp_rec P1 c))) as [Hj|Hj].
  2:{ rewrite !nth_overflow; [reflexivity| |]; rewrite map_length; lia. }
  pose proof (Forall2_nth _ _ _ 0%Z 0%Z j (Hrec c Hc) Hj) as Hl. set (l1 := nth j (sp_rec P1 c) 0%Z) in *. set (l2 := nth j (sp_rec P2 c) 0%Z) in *.
  set (g1 := fun l => if (0 <=? l)%Z then chsum S K c (Fst S K P1 kc1 f (sinit S K P1 pw1 (rest S K)) t) (unidx sh1 l) else 0).
  set (g2 := fun l => if (0 <=? l)%Z then chsum S K c (Fst S K P2 kc2 f (sinit S K P2 pw2 (rest S K)) t) (unidx sh2 l) else 0).
  rewrite (nth_indep _ 0 (g1 0%Z)), (map_nth g1) by (rewrite map_length; lia).
  rewrite (nth_indep _ 0 (g2 0%Z)), (map_nth g2) by (rewrite map_length; lia).
  fold l1 l2. unfold g1, g2. destruct Hl as [[L1 L2]|(L1 & L2 & L3)].
  { destruct (Z.leb_spec 0 l1); [lia|]. destruct (Z.leb_spec 0 l2); [lia|]. reflexivity. }
  destruct (Z.leb_spec 0 l1); [|lia]. destruct (Z.leb_spec 0 l2); [|lia]. rewrite L3.
  unfold chsum. apply (sumf_ext K). intros z Hz. unfold cinX in Hz. apply filter_In in Hz. destruct Hz as [Hz Hcz].
  pose proof (ok_cin S nd Sok c z Hc Hz Hcz) as HA.
  set (k := Z.to_nat t). set (h := (2 * k - if cA S c then 1 else 0)%nat).
  destruct (sinit_rest P1 pw1) as [Q1 Q1']. destruct (sinit_rest P2 pw2) as [Q2 Q2'].
  assert (Hst : forall P kc s, mn (Fst S K P kc f s t) z = mn (hst S K P (ccoe S K P kc) f h s) z).
  { intros P kc s. unfold Fst, h. fold k. rewrite <- (hst_state S K P). destruct (cA S c) eqn:EA; [|rewrite Nat.sub_0_r; reflexivity].
    destruct k as [|k']; [reflexivity|]. replace (2 * Datatypes.S k')%nat with (Datatypes.S (Datatypes.S (2 * k'))) by lia.
    replace (Datatypes.S (Datatypes.S (2 * k')) - 1)%nat with (Datatypes.S (2 * k')) by lia.
    change (hst S K P (ccoe S K P kc) f (Datatypes.S (Datatypes.S (2 * k'))) s)
      with (hstep S K P (Nat.even (Datatypes.S (2 * k'))) (ccoe S K P kc) (f (Z.of_nat (Nat.div2 (Datatypes.S (2 * k'))))) (hst S K P (ccoe S K P kc) f (Datatypes.S (2 * k')) s)).
    rewrite even2S. cbn [hstep mn]. rewrite HA. reflexivity. }
  rewrite !Hst.
  destruct (Z.eq_dec t 0) as [T0|T0].
  { assert (h = 0%nat) as -> by (unfold h, k; destruct (cA S c); lia). cbn [hst]. rewrite Q1, Q2. reflexivity. }
  assert (Hh : (Z.of_nat h = 2 * t - (if cA S c then 1 else 0))%Z) by (unfold h, k; destruct (cA S c); lia).
  refine (proj1 (reach_hst S K Kr P1 P2 o Ho Hnd Hacc Hrd Sok Hsrc (ccoe S K P1 kc1) (ccoe S K P2 kc2) f _ _ (pos (xh S z) (unidx sh1 l1)) (Z.of_nat h) _ Q1 Q1' Q2 Q2' _ _ h _) z (unidx sh1 l1) Hz _ _).
  - rewrite pos_length, unidx_length. reflexivity.
  - intros ch y l x q Hch Hy Hcy Hin Hl0 Hx Hlq Hd. apply (HX z ch y l x q); try assumption. split; [exact Hlq|].
    replace (way_steps (cA S ch) (cA S c) t) with (Z.of_nat h - 1 - (if cA S ch then 0 else 1))%Z by (unfold way_steps; lia). exact Hd.
  - intros ch y l e q Hch Hy Hcy Hin Hl0 He Hlq Hd. apply (HE z ch y l e q); try assumption. split; [exact Hlq|].
    replace (way_steps (cA S ch) (cA S c) t) with (Z.of_nat h - 1 - (if cA S ch then 0 else 1))%Z by (unfold way_steps; lia). exact Hd.
  - lia.
  - rewrite unidx_length. reflexivity.
  - rewrite dist_refl. nia.
Qed.
End Run.
