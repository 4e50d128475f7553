(** * Runs of the staggered propagators: superposition, restart, ignored locations, callbacks, steps (proofs). *)
From Coq Require Import List ZArith QArith Ring Ring_theory Lia Bool Permutation.
From Verif Require Import Ops Sums Grid Stencil DualNum ScalarModel ScalarRefine ScalarForward ScalarAdjoint ScalarMore Loop
  Stag StagAdj StagKernel StagCell StagRefine StagGrad StagEqs.
Import ListNotations.
Local Open Scope K_scope.

Local Arguments der : simpl never.
Local Arguments dmask : simpl never.
Local Arguments srcf : simpl never.
Local Arguments gat : simpl never.
Local Arguments term : simpl never.
Local Arguments nmem : simpl never.
Local Arguments injs : simpl never.

(** Linear combination of two states. *)
Definition lc_s {S : sys} {K : ops} (a b : K) (x y : sst S K) : sst S K :=
  mksst (fun v p => a * mn x v p + b * mn y v p) (fun e p => a * me x e p + b * me y e p).

(** The wavefields a forward callback is shown, with the step it is called at: before every chunk of
    [callback_frequency] outer steps, with the padding for the finite differences removed
    (acoustic.py:947-962, elastic.py:1499-1514, common.py:294-404). *)
Section Calls.
Variable S : sys.
Variable N : kern S.
Variable K : ops.
Variable P : spar S K.
Variable U : knum S N K.
Fixpoint k_trace (chunk : kmem S N K * krec S K -> Z -> kmem S N K * krec S K) (l : list Z) (mr : kmem S N K * krec S K)
    : list (Z * sst S K) :=
  match l with
  | [] => []
  | s :: l' => (s, k_out S N K P (fst mr)) :: k_trace chunk l' (chunk mr s)
  end.
Definition k_calls pw visA visB fq sr (f : krec S K) (nt c : Z) (store : kQ N -> Z -> arr K) (u : sst S K) : list (Z * sst S K) :=
  if (nt <=? 0)%Z then [] else
  let n := (nt / sr)%Z in
  k_trace (fun mr s => k_forward S N K P U visA visB fq sr f (Z.min (n - s) c * sr) (s * sr) mr) (range_up n c)
          (k_init S N K P pw store u, k_rec0 S K (sp_rec P)).

Lemma k_trace_fst chunk l mr : map fst (k_trace chunk l mr) = l.
Proof. revert mr. induction l as [|s l IH]; intros mr; cbn; [reflexivity|]. rewrite IH. reflexivity. Qed.
Lemma k_trace_In chunk l mr s w : In (s, w) (k_trace chunk l mr) ->
  exists l1 l2, l = l1 ++ s :: l2 /\ w = k_out S N K P (fst (fold_left chunk l1 mr)).
Proof.
  revert mr. induction l as [|x l IH]; intros mr H; [destruct H|]. destruct H as [E|H].
  - injection E as <- <-. exists [], l. split; reflexivity.
  - destruct (IH _ H) as (l1 & l2 & -> & ->). exists (x :: l1), l2. split; reflexivity.
Qed.
End Calls.

Section Lin.
Variable S : sys.
Variable K : ops.
Hypothesis Kr : is_ring K.
Add Ring KRing : Kr.
Variable P : spar S K.
Notation shape := (sp_shape P).
Notation nd := (length shape).
Variables a b : K.
Notation LC := (lc_s a b).
Notation LL := (lc_l a b).
Hypothesis Sok : sys_ok S nd.

Lemma der_lc e (f g : field K) p : der S K P e (fun q => a * f q + b * g q) p = a * der S K P e f p + b * der S K P e g p.
Proof.
  unfold der, SDH1, SD1. destruct (eh S e (edim S e)).
  - rewrite (SDIFFH1_add K Kr), !(SDIFFH1_scal K Kr). reflexivity.
  - rewrite (SDIFF1_add K Kr), !(SDIFF1_scal K Kr). reflexivity.
Qed.
Lemma nmem_lc x y e p : nmem S K P (LC x y) e p = a * nmem S K P x e p + b * nmem S K P y e p.
Proof.
  unfold nmem, dmask. destruct (dom S K P (eh S e) p); [|ring].
  change (mn (LC x y) (esrc S e)) with (fun q => a * mn x (esrc S e) q + b * mn y (esrc S e) q).
  rewrite der_lc. cbn [me lc_s]. ring.
Qed.
Lemma term_lc x y e p : term S K P (LC x y) e p = a * term S K P x e p + b * term S K P y e p.
Proof.
  unfold term. rewrite nmem_lc.
  change (mn (LC x y) (esrc S e)) with (fun q => a * mn x (esrc S e) q + b * mn y (esrc S e) q).
  rewrite der_lc. ring.
Qed.
Lemma srcf_lc locs x y p : length x = length locs -> length y = length locs ->
  srcf S K P locs (LL x y) p = a * srcf S K P locs x p + b * srcf S K P locs y p.
Proof.
  unfold srcf, lc_l. revert x y. induction locs as [|l locs IH]; intros [|x0 x] [|y0 y] Lx Ly; try discriminate;
    cbn [combine map sumf fst snd]; [ring|].
  rewrite IH by (cbn in Lx, Ly; lia).
  destruct ((0 <=? l)%Z && (if pt_eq_dec (unidx shape l) p then true else false)); ring.
Qed.
Lemma hstep_lc A c f g x y :
  (forall ch, In ch (allC S) -> length (f ch) = length (sp_src P ch) /\ length (g ch) = length (sp_src P ch)) ->
  sseq S K (hstep S K P A c (fun ch => LL (f ch) (g ch)) (LC x y)) (LC (hstep S K P A c f x) (hstep S K P A c g y)).
Proof.
  intros HL. split; intros v p Hv; cbn [hstep mn me lc_s].
  - destruct (Bool.eqb (xA S v) A); [|reflexivity]. unfold injs.
    assert (E1 : sumf (cinC S v) (fun ch => srcf S K P (sp_src P ch) (LL (f ch) (g ch)) p)
       = a * sumf (cinC S v) (fun ch => srcf S K P (sp_src P ch) (f ch) p)
         + b * sumf (cinC S v) (fun ch => srcf S K P (sp_src P ch) (g ch) p)).
    { rewrite <- !(sumf_scal K Kr), <- (sumf_add K Kr). apply (sumf_ext K). intros ch Hch. apply In_cinC in Hch.
      destruct (HL ch (proj1 Hch)). apply srcf_lc; assumption. }
    rewrite E1. unfold dmask. destruct (dom S K P (xh S v) p); [|ring].
    assert (E2 : sumf (incE S v) (fun e => c v e p * term S K P (LC x y) e p)
       = a * sumf (incE S v) (fun e => c v e p * term S K P x e p) + b * sumf (incE S v) (fun e => c v e p * term S K P y e p)).
    { rewrite <- !(sumf_scal K Kr), <- (sumf_add K Kr). apply (sumf_ext K). intros e _. rewrite term_lc. ring. }
    rewrite E2. cbn [mn lc_s]. ring.
  - destruct (Bool.eqb (eA S v) A); [apply nmem_lc|reflexivity].
Qed.
Lemma ceq_refl (c : coe S K) : ceq S K c c.
Proof. intros x e p _ _. reflexivity. Qed.
Lemma sstep_lc c f g x y :
  (forall ch, In ch (allC S) -> length (f ch) = length (sp_src P ch) /\ length (g ch) = length (sp_src P ch)) ->
  sseq S K (sstep S K P c (fun ch => LL (f ch) (g ch)) (LC x y)) (LC (sstep S K P c f x) (sstep S K P c g y)).
Proof.
  intros HL. unfold sstep. eapply sseq_trans; [|apply hstep_lc, HL].
  apply hstep_ext; [exact Sok|apply ceq_refl|reflexivity|]. apply hstep_lc, HL.
Qed.
Lemma sstate_lc c f g n t x y :
  (forall u ch, (t <= u < t + Z.of_nat n)%Z -> In ch (allC S) ->
     length (f u ch) = length (sp_src P ch) /\ length (g u ch) = length (sp_src P ch)) ->
  sseq S K (sstate S K P c (fun u ch => LL (f u ch) (g u ch)) n t (LC x y)) (LC (sstate S K P c f n t x) (sstate S K P c g n t y)).
Proof.
  revert t x y. induction n as [|n IH]; intros t x y HL; [apply sseq_refl|]. cbn [sstate].
  eapply sseq_trans; [|apply IH; intros u ch Hu; apply HL; lia].
  apply sstate_ext; [exact Sok|intros; apply ceq_refl|reflexivity|]. apply sstep_lc. intros ch Hch. apply HL; [lia|exact Hch].
Qed.
Lemma gat_lc locs (f g h : field K) : (forall p, f p = a * g p + b * h p) ->
  gat S K P locs f = LL (gat S K P locs g) (gat S K P locs h).
Proof.
  intros E. unfold gat, lc_l. induction locs as [|l locs IH]; [reflexivity|].
  cbn [map combine fst snd]. f_equal; [|exact IH]. destruct (0 <=? l)%Z; [apply E|ring].
Qed.
Lemma srec_lc c x y : srec S K P c (LC x y) = LL (srec S K P c x) (srec S K P c y).
Proof.
  unfold srec. apply gat_lc. intros p. unfold chsum. cbn [mn lc_s].
  rewrite <- !(sumf_scal K Kr), <- (sumf_add K Kr). reflexivity.
Qed.
Lemma sinit_lc pw x y : sseq S K (sinit S K P pw (LC x y)) (LC (sinit S K P pw x) (sinit S K P pw y)).
Proof.
  split; intros v p Hv; cbn [sinit mn me lc_s].
  - destruct (dom S K P (xh S v) p); [reflexivity|ring].
  - destruct (dom S K P (eh S v) p && negb (ezone S K P pw v p)); [reflexivity|ring].
Qed.
Lemma zeros_lc {A} (l : list A) : map (fun _ => 0 : K) l = LL (map (fun _ => 0) l) (map (fun _ => 0) l).
Proof. unfold lc_l. induction l as [|r l IH]; [reflexivity|]. cbn. f_equal; [ring|exact IH]. Qed.

(** Steps with sources that inject the same. *)
Lemma hstep_src A c f f' s s' :
  (forall ch p, In ch (allC S) -> cA S ch = A -> srcf S K P (sp_src P ch) (f ch) p = srcf S K P (sp_src P ch) (f' ch) p) ->
  sseq S K s s' -> sseq S K (hstep S K P A c f s) (hstep S K P A c f' s').
Proof.
  intros Hf H. pose proof H as [H1 H2]. split; cbn [hstep mn me].
  - intros x p Hx. destruct (Bool.eqb (xA S x) A) eqn:EA; [|auto]. apply Bool.eqb_prop in EA. unfold injs. f_equal.
    + unfold dmask. destruct (dom _ _ _ _ _); [|reflexivity]. rewrite H1 by auto. f_equal.
      apply sumf_ext. intros e He. apply In_incE in He. rewrite (term_ext S K P Sok s s') by tauto. reflexivity.
    + apply sumf_ext. intros ch Hch. apply In_cinC in Hch. apply Hf; [tauto|].
      rewrite <- EA. symmetry. apply (ok_cin S nd Sok); tauto.
  - intros e p He. destruct (Bool.eqb _ _); auto. apply (nmem_ext S K P Sok); auto.
Qed.
Lemma sstate_src c f f' n t s s' :
  (forall u ch p, (t <= u < t + Z.of_nat n)%Z -> In ch (allC S) ->
     srcf S K P (sp_src P ch) (f u ch) p = srcf S K P (sp_src P ch) (f' u ch) p) ->
  sseq S K s s' -> sseq S K (sstate S K P c f n t s) (sstate S K P c f' n t s').
Proof.
  revert t s s'. induction n as [|n IH]; intros t s s' Hf H; [exact H|]. cbn [sstate]. apply IH.
  - intros u ch p Hu. apply Hf. lia.
  - unfold sstep. apply hstep_src; [intros; apply Hf; auto; lia|]. apply hstep_src; [intros; apply Hf; auto; lia|exact H].
Qed.
Lemma srcf_ign locs x y p : length x = length locs -> length y = length locs ->
  (forall k l, nth_error locs k = Some l -> (0 <= l)%Z -> nth_error x k = nth_error y k) ->
  srcf S K P locs x p = srcf S K P locs y p.
Proof.
  unfold srcf. revert x y. induction locs as [|l locs IH]; intros [|x0 x] [|y0 y] Lx Ly H; try discriminate; [reflexivity|].
  cbn [combine sumf fst snd]. f_equal.
  - destruct (Z.leb_spec 0 l); [|reflexivity]. specialize (H 0%nat l eq_refl H0). cbn in H. injection H as <-. reflexivity.
  - apply IH; [cbn in Lx; lia|cbn in Ly; lia|]. intros k l' Hk Hl. apply (H (Datatypes.S k) l' Hk Hl).
Qed.
Lemma gat_ign locs (f : field K) k l : nth_error locs k = Some l -> (l < 0)%Z -> nth_error (gat S K P locs f) k = Some 0.
Proof.
  intros Hk Hl. unfold gat. rewrite (map_nth_error _ _ _ Hk). destruct (Z.leb_spec 0 l); [lia|reflexivity].
Qed.
Lemma sinit_id pw u s : ssup S K P s -> szone S K P pw s -> sseq S K u s -> sseq S K (sinit S K P pw u) s.
Proof.
  intros [S1 S2] Sz [H1 H2]. split; intros v p Hv; cbn [sinit mn me].
  - destruct (dom S K P (xh S v) p) eqn:E; [apply H1, Hv|]. symmetry. apply S1; assumption.
  - destruct (dom S K P (eh S v) p) eqn:E; cbn [andb]; [|symmetry; apply S2; assumption].
    destruct (ezone S K P pw v p) eqn:Ez; cbn [negb]; [symmetry; apply Sz; assumption|apply H2, Hv].
Qed.
Lemma sstate_app c f n m t s : sstate S K P c f (n + m) t s = sstate S K P c f m (t + Z.of_nat n)%Z (sstate S K P c f n t s).
Proof.
  revert t s. induction n as [|n IH]; intros t s; cbn [sstate Nat.add]; [rewrite Z.add_0_r; reflexivity|].
  rewrite IH. f_equal. lia.
Qed.
Lemma sstate_shift c f n t s o : sstate S K P (fun _ => c) (fun u => f (o + u)%Z) n t s = sstate S K P (fun _ => c) f n (o + t)%Z s.
Proof. revert t s. induction n as [|n IH]; intros t s; cbn [sstate]; [reflexivity|]. rewrite IH. f_equal. lia. Qed.
End Lin.

Section Run.
Variable S : sys.
Variable N : kern S.
Variable K : ops.
Hypothesis Kr : is_ring K.
Add Ring KRing2 : Kr.
Variable P : spar S K.
Variable U : knum S N K.
Variable kc : sX S -> sE S -> arr K.
Variable pw : nat -> Z * Z.
Notation shape := (sp_shape P).
Notation fd := (fd_pad (sp_acc P)).
Notation nd := (length shape).
Hypothesis Sok : sys_ok S nd.
Hypothesis Hk : kern_ok S N nd.
Hypothesis Hu : num_ok S N K U kc.
Hypothesis Hsrc : locs_ok S K P (sp_src P).
Hypothesis Hrec : locs_ok S K P (sp_rec P).
Hypothesis Hgeo : sgeom S K P pw.
Notation fv := (fvisits S N K P pw).
Notation bv := (bvisits S N K P pw).
Notation run := (k_fwd S N K P U pw).
Notation F := (Fst S K P kc).
Notation I0 := (sinit S K P pw).
Notation eqs := (sseq S K).
Notation inC c := (In c (allC S)).

Lemma run_some visA visB fq sr f nt cb st u : fv true visA -> fv false visB -> nt_ok nt sr cb ->
  exists u' r' s', run visA visB fq sr f nt cb st u = Some (u', r', s').
Proof.
  intros HA HB Hn. destruct (k_fwd_spec S N K Kr P U kc pw Sok Hk Hu Hsrc Hrec Hgeo visA visB fq sr f nt cb st u HA HB Hn)
    as (u' & r' & s' & E & _). exists u', r', s'. exact E.
Qed.
Lemma run_inv visA visB fq sr f nt cb st u u' r' s' : fv true visA -> fv false visB -> nt_ok nt sr cb ->
  run visA visB fq sr f nt cb st u = Some (u', r', s') ->
  eqs u' (F f (I0 u) (nsteps nt sr)) /\
  forall t c, inC c -> r' t c = if (0 <=? t)%Z && (t <? nsteps nt sr)%Z then srec S K P c (F f (I0 u) t) else map (fun _ => 0) (sp_rec P c).
Proof.
  intros HA HB Hn E'. destruct (k_fwd_spec S N K Kr P U kc pw Sok Hk Hu Hsrc Hrec Hgeo visA visB fq sr f nt cb st u HA HB Hn)
    as (u1 & r1 & s1 & E & A1 & A2 & _). rewrite E in E'. injection E' as <- <- <-. split; assumption.
Qed.
Lemma nt_pos nt sr cb : nt_ok nt sr cb -> (0 < sr /\ 0 <= nt /\ 0 <= nsteps nt sr <= nt)%Z.
Proof.
  intros H. pose proof (nsteps_nonneg nt sr cb H). pose proof (nsteps_le nt sr cb H). destruct H as (? & ? & _). auto.
Qed.
Lemma F_ssup f u t : ssup S K P (F f (I0 u) t).
Proof. unfold Fst. apply (ssup_sstate S K Kr P Hsrc). apply ssup_sinit. Qed.
Lemma F_szone f u t : szone S K P pw (F f (I0 u) t).
Proof.
  unfold Fst. generalize (Z.to_nat t) as n, 0%Z as z. intros n. assert (H : szone S K P pw (I0 u)) by apply szone_sinit.
  revert H. generalize (I0 u). induction n as [|n IH]; intros s Hs z; cbn [sstate]; [exact Hs|]. apply IH.
  unfold sstep. apply (szone_hstep S K Kr P pw Sok Hgeo), (szone_hstep S K Kr P pw Sok Hgeo), Hs.
Qed.

(** ** Superposition *)
Theorem stag_superposition (a b : K) f g x y nt sr visA1 visB1 visA2 visB2 visA visB fq1 fq2 fq cb1 cb2 cb st1 st2 st0 U1 R1 S1 U2 R2 S2 U' R' S' :
  fv true visA1 -> fv false visB1 -> fv true visA2 -> fv false visB2 -> fv true visA -> fv false visB ->
  nt_ok nt sr cb1 -> nt_ok nt sr cb2 -> nt_ok nt sr cb ->
  (forall t c, (0 <= t < nt)%Z -> inC c -> length (f t c) = length (sp_src P c) /\ length (g t c) = length (sp_src P c)) ->
  run visA1 visB1 fq1 sr f nt cb1 st1 x = Some (U1, R1, S1) ->
  run visA2 visB2 fq2 sr g nt cb2 st2 y = Some (U2, R2, S2) ->
  run visA visB fq sr (fun t c => lc_l a b (f t c) (g t c)) nt cb st0 (lc_s a b x y) = Some (U', R', S') ->
  eqs U' (lc_s a b U1 U2) /\ forall t c, inC c -> R' t c = lc_l a b (R1 t c) (R2 t c).
Proof.
  intros VA1 VB1 VA2 VB2 VA VB N1 N2 Nt HL E1 E2 E.
  destruct (run_inv _ _ _ _ _ _ _ _ _ _ _ _ VA1 VB1 N1 E1) as [A1 B1].
  destruct (run_inv _ _ _ _ _ _ _ _ _ _ _ _ VA2 VB2 N2 E2) as [A2 B2].
  destruct (run_inv _ _ _ _ _ _ _ _ _ _ _ _ VA VB Nt E) as [A B].
  destruct (nt_pos _ _ _ Nt) as (Hs & Hn & Hle).
  assert (L : forall t, (0 <= t <= nsteps nt sr)%Z ->
     eqs (F (fun t c => lc_l a b (f t c) (g t c)) (I0 (lc_s a b x y)) t) (lc_s a b (F f (I0 x) t) (F g (I0 y) t))).
  { intros t Ht. unfold Fst. eapply sseq_trans.
    - apply sstate_ext; [exact Sok|intros; apply ceq_refl|reflexivity|]. apply (sinit_lc S K Kr P a b).
    - apply (sstate_lc S K Kr P a b Sok). intros u c Hu' Hc. apply HL; [lia|exact Hc]. }
  split.
  - eapply sseq_trans; [exact A|]. eapply sseq_trans; [apply L; lia|]. destruct A1 as [A1 A1'], A2 as [A2 A2'].
    split; intros v p Hv; cbn [lc_s mn me]; [rewrite A1, A2|rewrite A1', A2']; auto.
  - intros t c Hc. rewrite B, B1, B2 by exact Hc. destruct ((0 <=? t)%Z && (t <? nsteps nt sr)%Z) eqn:Et; [|apply (zeros_lc K Kr)].
    apply andb_true_iff in Et. rewrite Z.leb_le, Z.ltb_lt in Et.
    rewrite (srec_ext S K P c _ _ (L t ltac:(lia))). apply (srec_lc S K Kr P a b).
Qed.

(** ** Restart *)
Theorem stag_restart f u n1 n2 sr visA1 visB1 visA2 visB2 visA visB fq1 fq2 fq cb1 cb2 cb st1 st2 st0 U1 R1 S1 U2 R2 S2 U' R' S' :
  fv true visA1 -> fv false visB1 -> fv true visA2 -> fv false visB2 -> fv true visA -> fv false visB ->
  (n1 mod sr = 0)%Z -> nt_ok n1 sr cb1 -> nt_ok n2 sr cb2 -> nt_ok (n1 + n2) sr cb ->
  run visA1 visB1 fq1 sr f n1 cb1 st1 u = Some (U1, R1, S1) ->
  run visA2 visB2 fq2 sr (fun t => f (n1 + t)%Z) n2 cb2 st2 U1 = Some (U2, R2, S2) ->
  run visA visB fq sr f (n1 + n2) cb st0 u = Some (U', R', S') ->
  eqs U' U2 /\ (forall t c, (0 <= t < n1)%Z -> inC c -> R' t c = R1 t c) /\
  (forall t c, (0 <= t)%Z -> inC c -> R' (n1 + t)%Z c = R2 t c).
Proof.
  intros VA1 VB1 VA2 VB2 VA VB Hm N1 N2 Nt E1 E2 E.
  destruct (run_inv _ _ _ _ _ _ _ _ _ _ _ _ VA1 VB1 N1 E1) as [A1 B1].
  destruct (run_inv _ _ _ _ _ _ _ _ _ _ _ _ VA2 VB2 N2 E2) as [A2 B2].
  destruct (run_inv _ _ _ _ _ _ _ _ _ _ _ _ VA VB Nt E) as [A B].
  destruct (nt_pos _ _ _ N1) as (Hs & Hn1 & _), (nt_pos _ _ _ N2) as (_ & Hn2 & Hle2).
  assert (D : n1 = (n1 / sr * sr)%Z) by (pose proof (Z.div_mod n1 sr); lia).
  assert (M1 : nsteps n1 sr = n1) by (unfold nsteps; lia).
  assert (M : nsteps (n1 + n2) sr = (n1 + nsteps n2 sr)%Z).
  { unfold nsteps. rewrite D at 1. rewrite Z.add_comm, Z.div_add by lia. lia. }
  rewrite M1 in *. rewrite M in *.
  assert (L : forall t, (0 <= t)%Z -> eqs (F (fun t => f (n1 + t)%Z) (I0 U1) t) (F f (I0 u) (n1 + t)%Z)).
  { intros t Ht. unfold Fst at 2. replace (Z.to_nat (n1 + t)) with (Z.to_nat n1 + Z.to_nat t)%nat by lia.
    rewrite sstate_app. replace (0 + Z.of_nat (Z.to_nat n1))%Z with (n1 + 0)%Z by lia.
    unfold Fst. rewrite (sstate_shift S K P). apply sstate_ext; [exact Sok|intros; apply ceq_refl|reflexivity|].
    apply sinit_id; [apply F_ssup|apply F_szone|exact A1]. }
  split; [|split].
  - eapply sseq_trans; [exact A|]. apply sseq_sym. eapply sseq_trans; [exact A2|]. apply L. lia.
  - intros t c Ht Hc. rewrite B, B1 by exact Hc.
    replace (t <? n1 + nsteps n2 sr)%Z with true by (symmetry; apply Z.ltb_lt; lia).
    replace (t <? n1)%Z with true by (symmetry; apply Z.ltb_lt; lia). reflexivity.
  - intros t c Ht Hc. rewrite B, B2 by exact Hc.
    replace (0 <=? n1 + t)%Z with true by (symmetry; apply Z.leb_le; lia).
    replace (0 <=? t)%Z with true by (symmetry; apply Z.leb_le; lia).
    replace (n1 + t <? n1 + nsteps n2 sr)%Z with (t <? nsteps n2 sr)%Z by (apply eq_true_iff_eq; rewrite !Z.ltb_lt; lia).
    destruct (true && (t <? nsteps n2 sr)%Z); [|reflexivity]. apply srec_ext, sseq_sym, L, Ht.
Qed.

(** ** Same results *)
Lemma run_same f f' u nt sr nt' sr' visA1 visB1 visA2 visB2 fq1 fq2 cb1 cb2 st1 st2 U1 R1 S1 U2 R2 S2 :
  fv true visA1 -> fv false visB1 -> fv true visA2 -> fv false visB2 -> nt_ok nt sr cb1 -> nt_ok nt' sr' cb2 ->
  nsteps nt sr = nsteps nt' sr' ->
  (forall t c p, (0 <= t < nsteps nt sr)%Z -> inC c -> srcf S K P (sp_src P c) (f t c) p = srcf S K P (sp_src P c) (f' t c) p) ->
  run visA1 visB1 fq1 sr f nt cb1 st1 u = Some (U1, R1, S1) ->
  run visA2 visB2 fq2 sr' f' nt' cb2 st2 u = Some (U2, R2, S2) ->
  eqs U1 U2 /\ forall t c, inC c -> R1 t c = R2 t c.
Proof.
  intros VA1 VB1 VA2 VB2 N1 N2 EN Hf E1 E2.
  destruct (run_inv _ _ _ _ _ _ _ _ _ _ _ _ VA1 VB1 N1 E1) as [A1 B1].
  destruct (run_inv _ _ _ _ _ _ _ _ _ _ _ _ VA2 VB2 N2 E2) as [A2 B2]. rewrite <- EN in *.
  destruct (nt_pos _ _ _ N1) as (_ & _ & Hp & _).
  assert (L : forall t, (0 <= t <= nsteps nt sr)%Z -> eqs (F f (I0 u) t) (F f' (I0 u) t)).
  { intros t Ht. unfold Fst. apply (sstate_src S K P Sok); [|apply sseq_refl]. intros v c p Hv. apply Hf. lia. }
  split.
  - eapply sseq_trans; [exact A1|]. apply sseq_sym. eapply sseq_trans; [exact A2|]. apply sseq_sym, L. lia.
  - intros t c Hc. rewrite B1, B2 by exact Hc. destruct ((0 <=? t)%Z && (t <? nsteps nt sr)%Z) eqn:Et; [|reflexivity].
    apply andb_true_iff in Et. rewrite Z.leb_le, Z.ltb_lt in Et. apply srec_ext, L. lia.
Qed.

(** ** Ignored locations *)
Theorem stag_ignored_source f f' u nt sr visA1 visB1 visA2 visB2 fq1 fq2 cb1 cb2 st1 st2 U1 R1 S1 U2 R2 S2 :
  fv true visA1 -> fv false visB1 -> fv true visA2 -> fv false visB2 -> nt_ok nt sr cb1 -> nt_ok nt sr cb2 ->
  (forall t c, (0 <= t < nt)%Z -> inC c ->
     length (f t c) = length (sp_src P c) /\ length (f' t c) = length (sp_src P c) /\
     forall k l, nth_error (sp_src P c) k = Some l -> (0 <= l)%Z -> nth_error (f t c) k = nth_error (f' t c) k) ->
  run visA1 visB1 fq1 sr f nt cb1 st1 u = Some (U1, R1, S1) ->
  run visA2 visB2 fq2 sr f' nt cb2 st2 u = Some (U2, R2, S2) ->
  eqs U1 U2 /\ forall t c, inC c -> R1 t c = R2 t c.
Proof.
  intros VA1 VB1 VA2 VB2 N1 N2 Hf. destruct (nt_pos _ _ _ N1) as (_ & _ & Hle). apply run_same; auto.
  intros t c p Ht Hc. destruct (Hf t c ltac:(lia) Hc) as (L1 & L2 & H). apply srcf_ign; assumption.
Qed.
Theorem stag_ignored_receiver f u nt sr visA visB fq cb st0 U' R' S' :
  fv true visA -> fv false visB -> nt_ok nt sr cb ->
  run visA visB fq sr f nt cb st0 u = Some (U', R', S') ->
  forall c k l, inC c -> nth_error (sp_rec P c) k = Some l -> (l < 0)%Z -> forall t, nth_error (R' t c) k = Some 0.
Proof.
  intros VA VB Nt E c k l Hc Hkl Hl t. destruct (run_inv _ _ _ _ _ _ _ _ _ _ _ _ VA VB Nt E) as [_ B].
  rewrite B by exact Hc. destruct ((0 <=? t)%Z && (t <? nsteps nt sr)%Z).
  - apply (gat_ign S K P _ _ k l Hkl Hl).
  - rewrite (map_nth_error _ _ _ Hkl). reflexivity.
Qed.
Lemma bwd_inv visA visB fm sr gr nt cb store g g' r' gm' : sroom S K P pw -> bv true visA -> bv false visB -> nt_ok nt sr cb ->
  k_bwd S N K P U pw visA visB fm sr gr nt cb store g = Some (g', r', gm') ->
  let T := nsteps nt sr in
  sseq S K g' (Gst S K P kc gr T (I0 g) 0) /\
    (forall t c, inC c ->
       r' t c = if (0 <=? t)%Z && (t <? T)%Z then grad_f S K P (ccoe S K P kc) (Gst S K P kc gr T (I0 g) (t + 1)) c else map (fun _ => 0) (sp_src P c)) /\
    (forall A h k p, In h (kgrp N A) -> In k (g_M h) -> dom S K P (g_h h) p = true ->
       gm' k (idx shape p) =
       sumf (zrange 0 T) (fun u => if fm k && (u mod sr =? 0)%Z then g_inc S N K P U kc sr store (Gst S K P kc gr T (I0 g) (u + 1)) u k p else 0)) /\
    (forall k p, inb (abox shape) p = true -> (forall A h, In h (kgrp N A) -> In k (g_M h) -> dom S K P (g_h h) p = false) ->
       gm' k (idx shape p) = 0).
Proof.
  intros Hr HA HB Hn E' T.
  destruct (k_bwd_spec S N K Kr P U kc pw Sok Hk Hu Hsrc Hrec Hgeo Hr visA visB fm sr gr nt cb store g HA HB Hn)
    as (u1 & r1 & s1 & E & A1 & A2 & A3 & A4). rewrite E in E'. injection E' as <- <- <-. auto.
Qed.
Theorem stag_ignored_source_gradient visA visB fm store sr gr nt cb g G' gf gm : sroom S K P pw ->
  bv true visA -> bv false visB -> nt_ok nt sr cb ->
  k_bwd S N K P U pw visA visB fm sr gr nt cb store g = Some (G', gf, gm) ->
  forall c k l, inC c -> nth_error (sp_src P c) k = Some l -> (l < 0)%Z -> forall t, nth_error (gf t c) k = Some 0.
Proof.
  intros Hr VA VB Nt E c k l Hc Hkl Hl t. destruct (bwd_inv _ _ _ _ _ _ _ _ _ _ _ _ Hr VA VB Nt E) as (_ & B & _).
  rewrite B by exact Hc. destruct ((0 <=? t)%Z && (t <? nsteps nt sr)%Z).
  - apply (gat_ign S K P _ _ k l Hkl Hl).
  - rewrite (map_nth_error _ _ _ Hkl). reflexivity.
Qed.

(** ** Callbacks *)
Theorem stag_callbacks_passive f u nt sr c visA visB fq st0 :
  fv true visA -> fv false visB -> (0 < sr)%Z -> (0 < c)%Z -> (nt = 0 \/ sr <= nt)%Z ->
  exists U1 R1 S1 U2 R2 S2,
    run visA visB fq sr f nt None st0 u = Some (U1, R1, S1) /\
    run visA visB fq sr f nt (Some c) st0 u = Some (U2, R2, S2) /\
    eqs U1 U2 /\ forall t c, inC c -> R1 t c = R2 t c.
Proof.
  intros VA VB Hs Hc Hn. assert (N1 : nt_ok nt sr None) by (repeat split; lia). assert (N2 : nt_ok nt sr (Some c)) by (repeat split; lia).
  destruct (run_some visA visB fq sr f nt None st0 u VA VB N1) as (U1 & R1 & S1 & E1).
  destruct (run_some visA visB fq sr f nt (Some c) st0 u VA VB N2) as (U2 & R2 & S2 & E2).
  exists U1, R1, S1, U2, R2, S2. split; [exact E1|]. split; [exact E2|].
  apply (run_same f f u nt sr nt sr visA visB visA visB fq fq None (Some c) st0 st0 U1 R1 S1 U2 R2 S2 VA VB VA VB N1 N2); auto.
Qed.

Lemma k_chunks_prefix visA visB fq sr f n c x mr : (0 < c)%Z -> (0 <= x <= n)%Z -> (x mod c = 0)%Z ->
  fold_left (fun mr s => k_forward S N K P U visA visB fq sr f (Z.min (n - s) c * sr) (s * sr) mr) (range_up x c) mr
  = fold_left (fun mr s => k_forward S N K P U visA visB fq sr f (Z.min (x - s) c * sr) (s * sr) mr) (range_up x c) mr.
Proof.
  intros Hc Hx Hm.
  assert (G : forall l mr, (forall s, In s l -> In s (range_up x c)) ->
     fold_left (fun mr s => k_forward S N K P U visA visB fq sr f (Z.min (n - s) c * sr) (s * sr) mr) l mr
     = fold_left (fun mr s => k_forward S N K P U visA visB fq sr f (Z.min (x - s) c * sr) (s * sr) mr) l mr).
  2: { apply G. auto. }
  clear mr. induction l as [|s l IH]; intros mr Hl; cbn [fold_left]; [reflexivity|].
  rewrite IH by (intros; apply Hl; right; assumption). f_equal.
  assert (Hs : In s (range_up x c)) by (apply Hl; left; reflexivity).
  rewrite range_up_filter in Hs by lia. apply filter_In in Hs. destruct Hs as [Hs Hsm].
  apply In_zrange in Hs. apply Z.eqb_eq in Hsm.
  assert (Hge : (c <= x - s)%Z).
  { pose proof (Z.div_mod x c ltac:(lia)). pose proof (Z.div_mod s c ltac:(lia)).
    assert (s / c < x / c)%Z by nia. nia. }
  rewrite !Z.min_r by lia. reflexivity.
Qed.

Theorem stag_callback_calls f u nt sr c visA visB fq st0 :
  fv true visA -> fv false visB -> (0 < sr)%Z -> (0 < c)%Z -> (0 <= nt)%Z ->
  let calls := k_calls S N K P U pw visA visB fq sr f nt c st0 u in
  map fst calls = filter (fun s => (s mod c =? 0)%Z) (zrange 0 (nt / sr)) /\
  forall s w, In (s, w) calls ->
    exists U' R' S', run visA visB fq sr f (s * sr) None st0 u = Some (U', R', S') /\ eqs w U'.
Proof.
  intros VA VB Hs Hc Hn calls. unfold calls, k_calls. destruct (Z.leb_spec nt 0).
  { replace nt with 0%Z by lia. cbn. split; [reflexivity|]. intros ? ? []. }
  assert (Hq : (0 <= nt / sr)%Z) by (apply Z.div_pos; lia).
  split; [rewrite k_trace_fst; apply range_up_filter; assumption|].
  intros s w Hin. apply k_trace_In in Hin. destruct Hin as (l1 & l2 & E & ->).
  destruct (range_up_prefix _ _ _ _ _ Hc Hq E) as (-> & Hsx & Hsm). rewrite k_chunks_prefix by (assumption || lia).
  assert (C1 : nt_ok (s * sr) sr (Some c)) by (repeat split; nia).
  assert (C2 : nt_ok (s * sr) sr None) by (repeat split; try nia; destruct (Z.eq_dec s 0) as [->|]; [left; lia|right; nia]).
  destruct (run_some visA visB fq sr f (s * sr) (Some c) st0 u VA VB C1) as (U1 & R1 & S1 & E1).
  destruct (run_some visA visB fq sr f (s * sr) None st0 u VA VB C2) as (U2 & R2 & S2 & E2).
  exists U2, R2, S2. split; [exact E2|].
  destruct (run_same f f u (s * sr) sr (s * sr) sr visA visB visA visB fq fq (Some c) None st0 st0 _ _ _ _ _ _ VA VB VA VB C1 C2 eq_refl
    ltac:(auto) E1 E2) as [H1 _].
  assert (W : k_out S N K P (fst (fold_left (fun mr s0 => k_forward S N K P U visA visB fq sr f (Z.min (s - s0) c * sr) (s0 * sr) mr)
     (range_up s c) (k_init S N K P pw st0 u, k_rec0 S K (sp_rec P)))) = U1).
  { unfold k_fwd in E1. destruct (Z.leb_spec (s * sr) 0) as [H0|H0].
    - assert (s = 0%Z) by nia. subst s.
      assert (R0 : range_up 0 c = []) by (rewrite range_up_filter by lia; reflexivity).
      rewrite R0. cbn [fold_left]. inversion E1; subst. reflexivity.
    - rewrite Z.div_mul in E1 by lia. cbn [k_cf] in E1. destruct (Z.eqb_spec c 0); [lia|]. inversion E1; subst. reflexivity. }
  rewrite W. exact H1.
Qed.

Theorem stag_backward_callbacks_passive visA1 visB1 visA2 visB2 fm store sr gr nt cb1 cb2 g : sroom S K P pw ->
  bv true visA1 -> bv false visB1 -> bv true visA2 -> bv false visB2 -> nt_ok nt sr cb1 -> nt_ok nt sr cb2 ->
  exists G1 f1 m1 G2 f2 m2,
    k_bwd S N K P U pw visA1 visB1 fm sr gr nt cb1 store g = Some (G1, f1, m1) /\
    k_bwd S N K P U pw visA2 visB2 fm sr gr nt cb2 store g = Some (G2, f2, m2) /\
    eqs G1 G2 /\ (forall t c, inC c -> f1 t c = f2 t c) /\
    (forall k p, inb (abox shape) p = true -> (exists A h, In h (kgrp N A) /\ In k (g_M h)) ->
       m1 k (idx shape p) = m2 k (idx shape p)).
Proof.
  intros Hr VA1 VB1 VA2 VB2 N1 N2.
  destruct (k_bwd_spec S N K Kr P U kc pw Sok Hk Hu Hsrc Hrec Hgeo Hr visA1 visB1 fm sr gr nt cb1 store g VA1 VB1 N1)
    as (G1 & f1 & m1 & E1 & A1 & B1 & C1 & D1).
  destruct (k_bwd_spec S N K Kr P U kc pw Sok Hk Hu Hsrc Hrec Hgeo Hr visA2 visB2 fm sr gr nt cb2 store g VA2 VB2 N2)
    as (G2 & f2 & m2 & E2 & A2 & B2 & C2 & D2).
  exists G1, f1, m1, G2, f2, m2. split; [exact E1|]. split; [exact E2|]. split; [|split].
  - eapply sseq_trans; [exact A1|apply sseq_sym, A2].
  - intros t c Hc. rewrite B1, B2 by exact Hc. reflexivity.
  - intros k p Hp (A & h & Hh & Hkh). destruct (dom S K P (g_h h) p) eqn:Hd.
    + rewrite (C1 A h), (C2 A h) by assumption. reflexivity.
    + assert (X : forall A' h', In h' (kgrp N A') -> In k (g_M h') -> dom S K P (g_h h') p = false).
      { intros A' h' Hh' Hk'. assert (h = h') as <-; [|exact Hd]. apply (grp_uniq_M S N K P Hk A A' h h' k); assumption. }
      rewrite D1, D2 by assumption. reflexivity.
Qed.

(** ** Steps *)
Theorem stag_all_steps f u nt sr visA visB visA1 visB1 fq fq1 cb cb1 st0 st1 :
  fv true visA -> fv false visB -> fv true visA1 -> fv false visB1 -> (nt mod sr = 0)%Z -> nt_ok nt sr cb -> nt_ok nt 1 cb1 ->
  exists U1 R1 S1 U2 R2 S2,
    run visA visB fq sr f nt cb st0 u = Some (U1, R1, S1) /\
    run visA1 visB1 fq1 1 f nt cb1 st1 u = Some (U2, R2, S2) /\
    eqs U1 U2 /\ (forall t c, inC c -> R1 t c = R2 t c) /\
    (forall t, (0 <= t < nt)%Z -> exists Ut Rt St,
       run visA1 visB1 fq1 1 f t None st1 u = Some (Ut, Rt, St) /\
       forall c, inC c -> R1 t c = read_at P (sp_rec P c) (chsum S K c Ut)).
Proof.
  intros VA VB VA1 VB1 Hm N1 N2. destruct (nt_pos _ _ _ N1) as (Hs & Hn & _).
  assert (D : nt = (nt / sr * sr)%Z) by (pose proof (Z.div_mod nt sr); lia).
  assert (E : nsteps nt sr = nsteps nt 1) by (unfold nsteps; rewrite Z.div_1_r; lia).
  assert (M : nsteps nt sr = nt) by (unfold nsteps; lia).
  destruct (run_some visA visB fq sr f nt cb st0 u VA VB N1) as (U1 & R1 & S1 & E1).
  destruct (run_some visA1 visB1 fq1 1 f nt cb1 st1 u VA1 VB1 N2) as (U2 & R2 & S2 & E2).
  exists U1, R1, S1, U2, R2, S2. split; [exact E1|]. split; [exact E2|].
  destruct (run_same f f u nt sr nt 1 _ _ _ _ _ _ _ _ _ _ _ _ _ _ _ _ VA VB VA1 VB1 N1 N2 E ltac:(auto) E1 E2) as [H1 H2].
  split; [exact H1|]. split; [exact H2|]. intros t Ht.
  assert (Nt : nt_ok t 1 None) by (repeat split; lia).
  destruct (run_some visA1 visB1 fq1 1 f t None st1 u VA1 VB1 Nt) as (Ut & Rt & St & Et).
  exists Ut, Rt, St. split; [exact Et|]. intros c Hc.
  destruct (run_inv _ _ _ _ _ _ _ _ _ _ _ _ VA VB N1 E1) as [_ B].
  destruct (run_inv _ _ _ _ _ _ _ _ _ _ _ _ VA1 VB1 Nt Et) as [A _].
  rewrite B by exact Hc. replace ((0 <=? t) && (t <? nsteps nt sr))%Z with true
    by (symmetry; apply andb_true_iff; rewrite Z.leb_le, Z.ltb_lt; lia).
  assert (M1 : nsteps t 1 = t) by (unfold nsteps; rewrite Z.div_1_r; lia). rewrite M1 in A.
  apply (srec_ext S K P c _ _ (sseq_sym _ _ _ _ A)).
Qed.
Theorem stag_truncated f u nt sr visA1 visB1 visA2 visB2 fq1 fq2 cb1 cb2 st1 st2 U1 R1 S1 U2 R2 S2 :
  fv true visA1 -> fv false visB1 -> fv true visA2 -> fv false visB2 -> nt_ok nt sr cb1 -> nt_ok (nt / sr * sr) 1 cb2 ->
  run visA1 visB1 fq1 sr f nt cb1 st1 u = Some (U1, R1, S1) ->
  run visA2 visB2 fq2 1 f (nt / sr * sr) cb2 st2 u = Some (U2, R2, S2) ->
  eqs U1 U2 /\ forall t c, inC c -> R1 t c = R2 t c.
Proof.
  intros VA1 VB1 VA2 VB2 N1 N2. apply run_same; auto. unfold nsteps. rewrite Z.div_1_r. lia.
Qed.
Theorem stag_short_raises f u nt sr visA visB fq st0 : (0 < nt < sr)%Z -> run visA visB fq sr f nt None st0 u = None.
Proof.
  intros H. unfold k_fwd. destruct (Z.leb_spec nt 0); [lia|]. cbn [k_cf]. rewrite Z.div_small by lia. reflexivity.
Qed.

Lemma F_src f f' u t : (0 <= t)%Z -> (forall s c, (0 <= s < t)%Z -> inC c -> f s c = f' s c) -> eqs (F f (I0 u) t) (F f' (I0 u) t).
Proof.
  intros Ht H. unfold Fst. apply (sstate_src S K P Sok); [|apply sseq_refl]. intros s c p Hs Hc. rewrite (H s c) by (lia || exact Hc). reflexivity.
Qed.

(** Amplitudes of step [t] appear in the wavefields after it: those of the first half step ... *)
Theorem stag_source_samples f f' u visA visB visA' visB' fq fq' cb cb' st0 st' U1 R1 S1 U2 R2 S2 t :
  fv true visA -> fv false visB -> fv true visA' -> fv false visB' -> nt_ok (t + 1) 1 cb -> nt_ok (t + 1) 1 cb' -> (0 <= t)%Z ->
  (forall s c, (0 <= s < t)%Z -> inC c -> f s c = f' s c) ->
  run visA visB fq 1 f (t + 1) cb st0 u = Some (U1, R1, S1) ->
  run visA' visB' fq' 1 f' (t + 1) cb' st' u = Some (U2, R2, S2) ->
  forall x p, In x (allX S) -> inb (abox shape) p = true ->
  (xA S x = true \/ forall c, inC c -> cA S c = true -> f t c = f' t c) ->
  mn U1 x p - mn U2 x p = sumf (cinC S x) (fun c => amp_at P (sp_src P c) (f t c) p)
                          - sumf (cinC S x) (fun c => amp_at P (sp_src P c) (f' t c) p).
Proof.
  intros VA VB VA' VB' N1 N2 Ht Hf E1 E2 x p Hx Hp HA.
  destruct (run_inv _ _ _ _ _ _ _ _ _ _ _ _ VA VB N1 E1) as [[A1 _] _].
  destruct (run_inv _ _ _ _ _ _ _ _ _ _ _ _ VA' VB' N2 E2) as [[A2 _] _].
  assert (M1 : nsteps (t + 1) 1 = (t + 1)%Z) by (unfold nsteps; rewrite Z.div_1_r; lia). rewrite M1 in *.
  rewrite A1, A2 by exact Hx. rewrite !Fst_S by exact Ht.
  pose proof (F_src f f' u t Ht Hf) as Q.
  rewrite (sumf_ext K (cinC S x) (fun c => amp_at P (sp_src P c) (f t c) p) (fun c => srcf S K P (sp_src P c) (f t c) p)).
  2: { intros c Hc. apply In_cinC in Hc. symmetry. apply (srcf_amp S K P); tauto. }
  rewrite (sumf_ext K (cinC S x) (fun c => amp_at P (sp_src P c) (f' t c) p) (fun c => srcf S K P (sp_src P c) (f' t c) p)).
  2: { intros c Hc. apply In_cinC in Hc. symmetry. apply (srcf_amp S K P); tauto. }
  set (s1 := F f (I0 u) t) in *. set (s2 := F f' (I0 u) t) in *. set (cc := ccoe S K P kc) in *.
  assert (G : forall A (s s' : sst S K), eqs s s' -> xA S x = A ->
     mn (hstep S K P A cc (f t) s) x p - mn (hstep S K P A cc (f' t) s') x p
     = sumf (cinC S x) (fun c => srcf S K P (sp_src P c) (f t c) p) - sumf (cinC S x) (fun c => srcf S K P (sp_src P c) (f' t c) p)).
  { intros A s s' Q' EA. pose proof (hstep_ext S K P Sok A cc cc (fun _ => []) (fun _ => []) s s' (ceq_refl S K cc) ltac:(auto) Q') as [H _].
    specialize (H x p Hx). cbn [hstep mn] in H |- *. rewrite EA, Bool.eqb_reflx in *. unfold injs in *.
    assert (Z0 : forall A0 (l : list A0), sumf l (fun _ => 0) = (0 : K)) by (intros A0 l; apply (sumf_zero K Kr); auto).
    assert (Zs : forall c, srcf S K P (sp_src P c) [] p = 0).
    { intros c. unfold srcf. destruct (sp_src P c); reflexivity. }
    rewrite (sumf_zero K Kr (cinC S x)) in H by (intros; apply Zs).
    match goal with |- (?a + ?b) - (?a' + ?b') = _ => assert (X : a = a') end.
    { match type of H with ?l + 0 = ?r + 0 => assert (Y : l = r) by (transitivity (l + 0); [ring|rewrite H; ring]) end. exact Y. }
    rewrite X. ring. }
  unfold sstep. destruct (xA S x) eqn:EA.
  - cbn [hstep mn]. rewrite EA. cbn [Bool.eqb]. specialize (G true s1 s2 Q eq_refl). cbn [hstep mn] in G. rewrite EA in G. exact G.
  - apply G; [|reflexivity]. destruct HA as [HA|HA]; [discriminate|].
    apply (hstep_src S K P Sok); [|exact Q]. intros c q Hc Hc'. rewrite (HA c Hc Hc'). reflexivity.
Qed.

(** ** Causality *)
Theorem stag_causality f1 f2 u nt sr visA1 visB1 visA2 visB2 fq1 fq2 cb1 cb2 st1 st2 U1 R1 S1 U2 R2 S2 t0 :
  fv true visA1 -> fv false visB1 -> fv true visA2 -> fv false visB2 -> nt_ok nt sr cb1 -> nt_ok nt sr cb2 ->
  run visA1 visB1 fq1 sr f1 nt cb1 st1 u = Some (U1, R1, S1) ->
  run visA2 visB2 fq2 sr f2 nt cb2 st2 u = Some (U2, R2, S2) ->
  (forall t c, (0 <= t < t0)%Z -> inC c -> f1 t c = f2 t c) ->
  forall t c, (t <= t0)%Z -> inC c -> R1 t c = R2 t c.
Proof.
  intros VA1 VB1 VA2 VB2 N1 N2 E1 E2 Hf t c Ht Hc.
  destruct (run_inv _ _ _ _ _ _ _ _ _ _ _ _ VA1 VB1 N1 E1) as [_ B1].
  destruct (run_inv _ _ _ _ _ _ _ _ _ _ _ _ VA2 VB2 N2 E2) as [_ B2].
  rewrite B1, B2 by exact Hc. destruct ((0 <=? t)%Z && (t <? nsteps nt sr)%Z) eqn:Et; [|reflexivity].
  apply andb_true_iff in Et. rewrite Z.leb_le, Z.ltb_lt in Et. apply srec_ext, F_src; [lia|].
  intros s c' Hs Hc'. apply Hf; [lia|exact Hc'].
Qed.

(** ** No steps *)
Theorem stag_zero_steps f u sr visA visB fq cb st0 U' R' S' :
  fv true visA -> fv false visB -> nt_ok 0 sr cb ->
  run visA visB fq sr f 0 cb st0 u = Some (U', R', S') ->
  (forall x p, In x (allX S) -> mn U' x p = if dom S K P (xh S x) p then mn u x p else 0) /\
  (forall e p, In e (allE S) -> me U' e p = if dom S K P (eh S e) p && negb (ezone S K P pw e p) then me u e p else 0).
Proof.
  intros VA VB Nt E. destruct (run_inv _ _ _ _ _ _ _ _ _ _ _ _ VA VB Nt E) as [[A1 A2] _].
  assert (M : nsteps 0 sr = 0%Z) by (destruct (nt_pos _ _ _ Nt); unfold nsteps; rewrite Z.div_0_l; lia).
  rewrite M in *. split; intros v p Hv; [rewrite A1 by exact Hv|rewrite A2 by exact Hv]; reflexivity.
Qed.
End Run.
