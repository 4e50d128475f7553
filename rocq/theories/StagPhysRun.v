(** * Time reversal and reciprocity of runs of the staggered propagators (proofs). *)
From Coq Require Import List ZArith QArith Ring Ring_theory Lia Bool Permutation.
From Verif Require Import Ops Sums Grid Stencil DualNum ScalarModel ScalarRefine ScalarForward ScalarAdjoint Loop
  Stag StagAdj StagKernel StagCell StagRefine StagGrad StagEqs StagRun StagEnergy StagPhys StagRecip.
Import ListNotations.
Local Open Scope K_scope.

Local Arguments der : simpl never.
Local Arguments dmask : simpl never.
Local Arguments srcf : simpl never.
Local Arguments gat : simpl never.
Local Arguments term : simpl never.
Local Arguments nmem : simpl never.

(** One source or receiver of kind [c] at [l]; its amplitudes. *)
Definition one_loc {C} (ceq : C -> C -> bool) (c : C) (l : Z) : C -> list Z := fun ch => if ceq ch c then [l] else [].
Definition one_amp {C} {K : ops} (ceq : C -> C -> bool) (c : C) (q : Z -> K) : Z -> C -> list K := fun t ch => if ceq ch c then [q t] else [].
(** Everything at rest. *)
Definition rest (S : sys) (K : ops) : sst S K := mksst (fun _ _ => 0) (fun _ _ => 0).

Section Run.
Variable S : sys.
Variable N : kern S.
Variable K : ops.
Hypothesis Kr : is_ring K.
Add Ring KRing : Kr.
Variable P : spar S K.
Variable U : knum S N K.
Variable kc : sX S -> sE S -> arr K.
Variable pw : nat -> Z * Z.
Notation shape := (sp_shape P).
Notation fd := (fd_pad (sp_acc P)).
Notation nd := (length shape).
Hypothesis Sok : sys_ok S nd.
Hypothesis Hk : kern_ok S N nd.
Hypothesis Hu : num_ok S N K U kc.
Hypothesis Hgeo : sgeom S K P pw.
Hypothesis HN : no_layers nd pw.
Notation fv := (fvisits S N K P pw).
Notation run := (k_fwd S N K P U pw).
Notation F := (Fst S K P kc).
Notation I0 := (sinit S K P pw).
Notation inC c := (In c (allC S)).
Notation inX x := (In x (allX S)).
Notation cc := (ccoe S K P kc).

Lemma I0_meq u w : (forall x p, inX x -> updated P (xh S x) p -> mn u x p = w x p) -> msup S K P w -> meq S K (mn (I0 u)) w.
Proof.
  intros H Hw x p Hx. cbn [sinit mn]. destruct (dom S K P (xh S x) p) eqn:E.
  - apply H; [exact Hx|]. apply updated_dom, E.
  - symmetry. apply Hw; assumption.
Qed.
Lemma I0_sup u : msup S K P (mn (I0 u)).
Proof. intros x Hx p Hp. cbn [sinit mn]. rewrite Hp. reflexivity. Qed.
Lemma nsteps_1 n : (0 <= n)%Z -> nsteps n 1 = n.
Proof. intros _. unfold nsteps. rewrite Z.div_1_r. lia. Qed.

(** ** Time reversal *)
Section Rev.
Hypothesis Hsrc : locs_ok S K P (sp_src P).
Hypothesis Hrec : locs_ok S K P (sp_rec P).
Lemma silent_run f u n cb visA visB fq st u' r' s' : fv true visA -> fv false visB -> nt_ok n 1 cb ->
  (forall t c, inC c -> Forall (fun a => a = 0) (f t c)) ->
  run visA visB fq 1 f n cb st u = Some (u', r', s') ->
  meq S K (mn u') (mrun S K P cc (Z.to_nat n) (mn (I0 u))).
Proof.
  intros HA HB Hn Hf E. destruct (run_inv S N K Kr P U kc pw Sok Hk Hu Hsrc Hrec Hgeo _ _ _ _ _ _ _ _ _ _ _ _ HA HB Hn E) as [[Em _] _].
  rewrite nsteps_1 in Em by (destruct Hn as (_ & ? & _); assumption).
  eapply meq_trans; [intros x p Hx; apply Em, Hx|]. unfold Fst. apply (sstate_mrun S K Kr P pw Sok Hgeo HN). exact Hf.
Qed.
Theorem stag_time_reversal n u x f1 f2 f3 f4 vA1 vB1 vA2 vB2 vA3 vB3 vA4 vB4 fq1 fq2 fq3 fq4 cb1 cb2 cb3 cb4 st1 st2 st3 st4
    U1 R1 S1 U2 R2 S2 U3 R3 S3 U4 R4 S4 :
  fv true vA1 -> fv false vB1 -> fv true vA2 -> fv false vB2 -> fv true vA3 -> fv false vB3 -> fv true vA4 -> fv false vB4 ->
  nt_ok n 1 cb1 -> nt_ok (n + 1) 1 cb2 -> nt_ok 1 1 cb3 -> nt_ok n 1 cb4 ->
  (forall t c, inC c -> Forall (fun a => a = 0) (f1 t c)) -> (forall t c, inC c -> Forall (fun a => a = 0) (f2 t c)) ->
  (forall t c, inC c -> Forall (fun a => a = 0) (f3 t c)) -> (forall t c, inC c -> Forall (fun a => a = 0) (f4 t c)) ->
  run vA1 vB1 fq1 1 f1 n cb1 st1 u = Some (U1, R1, S1) ->
  run vA2 vB2 fq2 1 f2 (n + 1)%Z cb2 st2 u = Some (U2, R2, S2) ->
  run vA3 vB3 fq3 1 f3 1 cb3 st3 u = Some (U3, R3, S3) ->
  run vA4 vB4 fq4 1 f4 n cb4 st4 x = Some (U4, R4, S4) ->
  (forall v p, inX v -> updated P (xh S v) p -> mn x v p = if xA S v then - mn U2 v p else mn U1 v p) ->
  forall v p, inX v -> updated P (xh S v) p -> mn U4 v p = if xA S v then - mn U3 v p else mn u v p.
Proof.
  intros HA1 HB1 HA2 HB2 HA3 HB3 HA4 HB4 N1 N2 N3 N4 Z1 Z2 Z3 Z4 E1 E2 E3 E4 Hx v p Hv Hp.
  assert (P0 : (0 <= n)%Z) by (destruct N1 as (_ & ? & _); assumption).
  pose proof (silent_run f1 u n cb1 vA1 vB1 fq1 st1 U1 R1 S1 HA1 HB1 N1 Z1 E1) as Q1.
  pose proof (silent_run f2 u (n + 1) cb2 vA2 vB2 fq2 st2 U2 R2 S2 HA2 HB2 N2 Z2 E2) as Q2.
  pose proof (silent_run f3 u 1 cb3 vA3 vB3 fq3 st3 U3 R3 S3 HA3 HB3 N3 Z3 E3) as Q3.
  pose proof (silent_run f4 x n cb4 vA4 vB4 fq4 st4 U4 R4 S4 HA4 HB4 N4 Z4 E4) as Q4.
  set (m := mn (I0 u)) in *. assert (Hm : msup S K P m) by apply I0_sup.
  replace (Z.to_nat (n + 1)) with (Datatypes.S (Z.to_nat n)) in Q2 by lia. cbn [mrun] in Q2.
  change (Z.to_nat 1) with 1%nat in Q3. cbn [mrun] in Q3.
  set (k := Z.to_nat n) in *.
  assert (HA' : forall w y q, xA S y = true -> ms S K P cc w y q = hs S K P cc true w y q).
  { intros w y q Hy. unfold ms. unfold hs at 1. rewrite Hy. reflexivity. }
  assert (HB' : forall w y q, xA S y = false -> hs S K P cc true w y q = w y q).
  { intros w y q Hy. unfold hs. rewrite Hy. reflexivity. }
  assert (Q5 : meq S K (mn (I0 x)) (neg S K (hs S K P cc true (mrun S K P cc k m)))).
  { apply I0_meq.
    - intros y q Hy Hq. rewrite (Hx y q Hy Hq). unfold neg. destruct (xA S y) eqn:Ey.
      + rewrite (Q2 y q Hy), HA' by exact Ey. reflexivity.
      + rewrite HB' by exact Ey. apply Q1, Hy.
    - apply (neg_sup S K Kr P), (hs_sup S K P), (mrun_sup S K P), Hm. }
  rewrite (Q4 v p Hv), (mrun_ext S K P Sok cc k _ _ Q5 v p Hv), (rev_run S K Kr P Sok cc k m Hm v p Hv).
  unfold neg. destruct (xA S v) eqn:Ev.
  - rewrite (Q3 v p Hv), HA' by exact Ev. reflexivity.
  - rewrite HB' by exact Ev. unfold m. cbn [sinit mn]. apply updated_dom in Hp. rewrite Hp. reflexivity.
Qed.
End Rev.

(** ** Reciprocity *)
Section Rec.
Variable ceq : sC S -> sC S -> bool.
Hypothesis Hceq : forall a b, ceq a b = true <-> a = b.
Hypothesis HNC : NoDup (allC S).
Variable mate : sE S -> sE S.
Variable hC : sX S -> sX S -> field K.
Hypothesis HR : recip_ok S K nd cc mate hC.
Notation one := (one_loc ceq).
Notation okl := (okl S K P).
Notation rd := (rd S K P).
Notation mrun := (mrun S K P cc).
Notation ip := (impulse S K shape).
Notation dl := (dl S).
Notation sg := (sg K).

Lemma sloc_okl c l : (0 <= l)%Z -> sloc_ok S K P c l -> okl c l /\ inb (abox shape) (unidx shape l) = true.
Proof.
  intros H0 [H|(q & -> & Hq & H)]; [lia|]. unfold StagRecip.okl. rewrite unidx_idx by exact Hq. split; [exact H|exact Hq].
Qed.
Lemma one_ok c l : sloc_ok S K P c l -> locs_ok S K P (one c l).
Proof.
  intros H ch _. unfold one_loc. destruct (ceq ch c) eqn:E; [|constructor]. apply Hceq in E. subst ch. constructor; [exact H|constructor].
Qed.
Lemma one_inj c l (q : Z -> K) (g : sC S -> list K) t x p rec : (forall ch, g ch = one_amp ceq c q t ch) -> (0 <= l)%Z -> inC c -> inX x ->
  sumf (cinC S x) (fun ch => srcf S K (with_lists P (one c l) rec) (one c l ch) (g ch) p) = q t * ip c l x p.
Proof.
  intros Hg Hl Hc Hx. rewrite (sumf_ext K _ _ (fun ch => srcf S K (with_lists P (one c l) rec) (one c l ch) (one_amp ceq c q t ch) p)) by (intros ch _; rewrite Hg; reflexivity). unfold cinC. rewrite (sumf_filter_if K Kr).
  rewrite (sumf_single K Kr (allC S) c).
  - unfold impulse. destruct (cin S c x); [|ring]. unfold one_loc, one_amp. rewrite (proj2 (Hceq c c) eq_refl).
    unfold srcf. cbn [combine sumf fst snd with_lists sp_shape]. rewrite (proj2 (Z.leb_le 0 l) Hl). cbn [andb].
    destruct (pt_eq_dec (unidx shape l) p); ring.
  - exact HNC.
  - exact Hc.
  - intros ch _ Hne. destruct (cin S ch x); [|reflexivity]. unfold one_loc.
    destruct (ceq ch c) eqn:E; [apply Hceq in E; contradiction|]. reflexivity.
Qed.

(** The trace of one source at one receiver. *)
Definition trace_of c1 l1 c2 l2 (q : Z -> K) (n : nat) : K :=
  sumf (seq 0 n) (fun i => q (Z.of_nat i) * rd c2 l2 (mrun (n - 1 - i + dl c1) (ip c1 l1))).

Lemma one_run c1 l1 c2 l2 f q nt sr visA visB fq cb st u' r' s' :
  inC c1 -> inC c2 -> (0 <= l1)%Z -> sloc_ok S K P c1 l1 -> (0 <= l2)%Z -> sloc_ok S K P c2 l2 ->
  fv true visA -> fv false visB -> nt_ok nt sr cb -> (forall t ch, f t ch = one_amp ceq c1 q t ch) ->
  k_fwd S N K (with_lists P (one c1 l1) (one c2 l2)) U pw visA visB fq sr f nt cb st (rest S K) = Some (u', r', s') ->
  forall t, r' t c2 = [if (0 <=? t)%Z && (t <? nsteps nt sr)%Z then trace_of c1 l1 c2 l2 q (Z.to_nat t) else 0].
Proof.
  intros Hc1 Hc2 Hl1 Ho1 Hl2 Ho2 HA HB Hn Hf E t.
  set (P1 := with_lists P (one c1 l1) (one c2 l2)) in *.
  assert (Hs1 : locs_ok S K P1 (sp_src P1)) by exact (one_ok c1 l1 Ho1).
  assert (Hr1 : locs_ok S K P1 (sp_rec P1)) by exact (one_ok c2 l2 Ho2).
  assert (Hg1 : sgeom S K P1 pw) by (destruct Hgeo as [g1 g2]; constructor; [exact g1|exact g2]).
  destruct (run_inv S N K Kr P1 U kc pw Sok Hk Hu Hs1 Hr1 Hg1 _ _ _ _ _ _ _ _ _ _ _ _ HA HB Hn E) as [_ Er].
  rewrite (Er t c2 Hc2).
  assert (Erec : sp_rec P1 c2 = [l2]). { cbn. unfold one_loc. rewrite (proj2 (Hceq c2 c2) eq_refl). reflexivity. }
  destruct (_ && _) eqn:Et; [|rewrite Erec; reflexivity].
  unfold srec. rewrite Erec. unfold gat. cbn [map]. rewrite (proj2 (Z.leb_le 0 l2) Hl2). f_equal.
  change (chsum S K c2 (Fst S K P1 kc f (sinit S K P1 pw (rest S K)) t) (unidx (sp_shape P1) l2))
    with (rd c2 l2 (mn (Fst S K P1 kc f (sinit S K P1 pw (rest S K)) t))).
  unfold Fst.
  apply (drive_rd S K Kr P1 pw Sok Hg1 HN cc c1 l1 f q Hc1 (proj1 (sloc_okl c1 l1 Hl1 Ho1))).
  - intros u x p _ Hx. apply one_inj; auto.
  - intros x p Hx. cbn [sinit mn rest]. unfold mzero. destruct (dom _ _ _ _ _); reflexivity.
Qed.

Section Two.
Variables c1 c2 : sC S.
Variables l1 l2 : Z.
Variables a1 a2 b1 b2 : K.
Variables q1 q2 h : Z -> K.
Hypothesis Hc1 : inC c1.
Hypothesis Hc2 : inC c2.
Hypothesis Hl1 : (0 <= l1)%Z.
Hypothesis Hl2 : (0 <= l2)%Z.
Hypothesis Ho1 : sloc_ok S K P c1 l1.
Hypothesis Ho2 : sloc_ok S K P c2 l2.
Hypothesis He1 : eig S K P hC c1 l1 a1.
Hypothesis He2 : eig S K P hC c2 l2 a2.
Hypothesis Hq1 : forall t, b1 * q1 t = a1 * h t.
Hypothesis Hq2 : forall t, b2 * q2 t = a2 * h t.

Lemma sym12 n : a1 * rd c2 l2 (mrun n (ip c1 l1)) = sg (cA S c1) * sg (cA S c2) * (a2 * rd c1 l1 (mrun n (ip c2 l2))).
Proof.
  apply (imp_sym S K Kr P Sok cc mate hC HR); try assumption; apply sloc_okl; assumption.
Qed.
Lemma trace_same n : cA S c1 = cA S c2 -> b1 * trace_of c1 l1 c2 l2 q1 n = b2 * trace_of c2 l2 c1 l1 q2 n.
Proof.
  intros HA. unfold trace_of. rewrite <- !(sumf_scal K Kr). apply (sumf_ext K). intros i _.
  assert (Hd : dl c1 = dl c2) by (unfold StagRecip.dl; rewrite HA; reflexivity). rewrite Hd.
  set (j := (n - 1 - i + dl c2)%nat). pose proof (sym12 j) as H. rewrite HA, (sg_sg K Kr) in H.
  transitivity (h (Z.of_nat i) * (a1 * rd c2 l2 (mrun j (ip c1 l1)))).
  - transitivity ((b1 * q1 (Z.of_nat i)) * rd c2 l2 (mrun j (ip c1 l1))); [ring|]. rewrite Hq1. ring.
  - rewrite H. transitivity ((b2 * q2 (Z.of_nat i)) * rd c1 l1 (mrun j (ip c2 l2))); [rewrite Hq2; ring|ring].
Qed.
Lemma trace_mixed n : cA S c1 = false -> cA S c2 = true ->
  b1 * trace_of c1 l1 c2 l2 q1 (Datatypes.S n) = - (b2 * trace_of c2 l2 c1 l1 q2 n).
Proof.
  intros HA1 HA2. unfold trace_of. rewrite seq_S, (sumf_app K Kr). cbn [sumf Nat.add].
  replace (Datatypes.S n - 1 - n + dl c1)%nat with 0%nat by (unfold StagRecip.dl; rewrite HA1; lia). cbn [StagPhys.mrun].
  rewrite (ip_other S K Kr P Sok c1 l1 c2 l2 Hc1 Hc2) by (rewrite HA1, HA2; discriminate).
  rewrite <- (sumf_scal K Kr), <- (sumf_opp K Kr).
  transitivity (b1 * sumf (seq 0 n) (fun i => q1 (Z.of_nat i) * rd c2 l2 (mrun (Datatypes.S n - 1 - i + dl c1) (ip c1 l1)))); [ring|].
  rewrite <- (sumf_scal K Kr). apply (sumf_ext K). intros i Hi. apply in_seq in Hi.
  replace (Datatypes.S n - 1 - i + dl c1)%nat with (n - i)%nat by (unfold StagRecip.dl; rewrite HA1; lia).
  replace (n - 1 - i + dl c2)%nat with (n - i)%nat by (unfold StagRecip.dl; rewrite HA2; lia).
  set (j := (n - i)%nat). pose proof (sym12 j) as H. rewrite HA1, HA2 in H. cbn in H.
  transitivity (h (Z.of_nat i) * (a1 * rd c2 l2 (mrun j (ip c1 l1)))).
  - transitivity ((b1 * q1 (Z.of_nat i)) * rd c2 l2 (mrun j (ip c1 l1))); [ring|]. rewrite Hq1. ring.
  - rewrite H. transitivity (- ((b2 * q2 (Z.of_nat i)) * rd c1 l1 (mrun j (ip c2 l2)))); [rewrite Hq2; ring|ring].
Qed.

Notation PA := (with_lists P (one c1 l1) (one c2 l2)).
Notation PB := (with_lists P (one c2 l2) (one c1 l1)).

Theorem stag_reciprocity f1 f2 nt sr vA1 vB1 vA2 vB2 fq1 fq2 cb1 cb2 st1 st2 U1 R1 S1 U2 R2 S2 :
  fv true vA1 -> fv false vB1 -> fv true vA2 -> fv false vB2 -> nt_ok nt sr cb1 -> nt_ok nt sr cb2 ->
  (forall t ch, f1 t ch = one_amp ceq c1 q1 t ch) -> (forall t ch, f2 t ch = one_amp ceq c2 q2 t ch) ->
  k_fwd S N K PA U pw vA1 vB1 fq1 sr f1 nt cb1 st1 (rest S K) = Some (U1, R1, S1) ->
  k_fwd S N K PB U pw vA2 vB2 fq2 sr f2 nt cb2 st2 (rest S K) = Some (U2, R2, S2) ->
  (cA S c1 = cA S c2 -> forall t, map (omul K b1) (R1 t c2) = map (omul K b2) (R2 t c1)) /\
  (cA S c1 = false -> cA S c2 = true -> forall t, (0 <= t)%Z -> (t + 1 < nsteps nt sr)%Z ->
     map (omul K b1) (R1 (t + 1)%Z c2) = map (fun r => - (b2 * r)) (R2 t c1)).
Proof.
  intros HA1 HB1 HA2 HB2 N1 N2 F1 F2 E1 E2.
  pose proof (one_run c1 l1 c2 l2 f1 q1 nt sr vA1 vB1 fq1 cb1 st1 U1 R1 S1 Hc1 Hc2 Hl1 Ho1 Hl2 Ho2 HA1 HB1 N1 F1 E1) as T1.
  pose proof (one_run c2 l2 c1 l1 f2 q2 nt sr vA2 vB2 fq2 cb2 st2 U2 R2 S2 Hc2 Hc1 Hl2 Ho2 Hl1 Ho1 HA2 HB2 N2 F2 E2) as T2.
  split.
  - intros HA t. rewrite T1, T2. cbn [map]. f_equal. destruct (_ && _); [apply trace_same, HA|ring].
  - intros HA HB t Ht0 Ht. rewrite T1, T2. cbn [map]. f_equal.
    rewrite (proj2 (Z.leb_le 0 t) Ht0), (proj2 (Z.leb_le 0 (t + 1)) ltac:(lia)).
    rewrite (proj2 (Z.ltb_lt t (nsteps nt sr)) ltac:(lia)), (proj2 (Z.ltb_lt (t + 1) (nsteps nt sr)) Ht). cbn [andb].
    replace (Z.to_nat (t + 1)) with (Datatypes.S (Z.to_nat t)) by lia. apply trace_mixed; assumption.
Qed.
End Two.
End Rec.
End Run.
