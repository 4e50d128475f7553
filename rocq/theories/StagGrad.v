(** * Gradients returned by the staggered-grid drivers (proofs). *)
From Coq Require Import List ZArith QArith Ring Ring_theory Lia Bool Permutation.
From Verif Require Import Ops Sums Grid Stencil DualNum ScalarModel ScalarRefine ScalarForward ScalarAdjoint ScalarApi Loop
  Stag StagAdj StagKernel StagCell StagRefine.
Import ListNotations.
Local Open Scope K_scope.

Local Arguments der : simpl never.
Local Arguments dmask : simpl never.
Local Arguments term : simpl never.
Local Arguments nmem : simpl never.

(** ** What the caller sees: inner products over the visible part of the arrays. *)
Section User.
Variable S : sys.
Variable N : kern S.
Variable K : ops.
Variable P : spar S K.
Definition cpts : list pt := filter (crop S K P) (spts S K P).
Definition udots (a b : sst S K) : K :=
  sumf (allX S) (fun x => dot cpts (mn a x) (mn b x)) + sumf (allE S) (fun e => dot cpts (me a e) (me b e)).
Definition rdot (nt : Z) (a b : krec S K) : K := sumf (zrange 0 nt) (fun t => cdot S K (a t) (b t)).
Definition allM : list (kM N) := flat_map g_M (kgrp N true ++ kgrp N false).
Definition mdot (a b : kM N -> arr K) : K :=
  sumf allM (fun k => sumf (spts S K P) (fun p => a k (idx (sp_shape P) p) * b k (idx (sp_shape P) p))).
End User.

Section Grad.
Variable S : sys.
Variable N : kern S.
Variable K : ops.
Hypothesis Kr : is_ring K.
Add Ring KRing : Kr.
Variable P : spar S K.
Variable U : knum S N K.
Variable UD : knum S N (dual K).
Variable kcD : sX S -> sE S -> arr (dual K).
Variable pw : nat -> Z * Z.
Notation shape := (sp_shape P).
Notation nd := (length shape).
Notation DP := (dspar P).
Notation dK := (dual K).
Notation Dr := (dual_is_ring K Kr).
Notation kc := (fun x e i => fst (kcD x e i)).
Hypothesis Sok : sys_ok S nd.
Hypothesis Hk : kern_ok S N nd.
Hypothesis Hu : num_ok S N K U kc.
Hypothesis HuD : num_ok S N dK UD kcD.
Hypothesis Hsrc : locs_ok S K P (sp_src P).
Hypothesis Hrec : locs_ok S K P (sp_rec P).
Hypothesis Hgeo : sgeom S K P pw.
Hypothesis Hroom : sroom S K P pw.

Lemma sgeom_dual : sgeom S dK DP pw.
Proof.
  destruct Hgeo as [G1 G2]. split; [exact G1|]. intros h d y Hd Hy. destruct (G2 h d y Hd Hy) as [E1 E2].
  cbn [dspar sp_a sp_b]. unfold dconst. rewrite E1, E2. split; reflexivity.
Qed.

Lemma sdot_sinit g y : ssup S K P y -> szone S K P pw y -> sdot S K P (sinit S K P pw g) y = udots S K P g y.
Proof.
  intros [SX SE] Sz. unfold sdot, udots. f_equal.
  - apply (sumf_ext K). intros x Hx. unfold dot, cpts. rewrite (sumf_filter_if K Kr). apply (sumf_ext K). intros p _. cbn [mn sinit].
    destruct (dom S K P (xh S x) p) eqn:Hd; [rewrite (dom_crop S K P _ _ Hd); reflexivity|].
    rewrite (SX x Hx p Hd). destruct (crop S K P p); ring.
  - apply (sumf_ext K). intros e He. unfold dot, cpts. rewrite (sumf_filter_if K Kr). apply (sumf_ext K). intros p _. cbn [me sinit].
    destruct (dom S K P (eh S e) p) eqn:Hd.
    + rewrite (dom_crop S K P _ _ Hd). destruct (ezone S K P pw e p) eqn:Ez; cbn [andb negb]; [|reflexivity].
      rewrite (Sz e p He Ez). ring.
    + rewrite (SE e He p Hd). cbn [andb]. destruct (crop S K P p); ring.
Qed.
Lemma sdot_comm a b : sdot S K P a b = sdot S K P b a.
Proof.
  unfold sdot, dot. f_equal; apply (sumf_ext K); intros; apply (sumf_ext K); intros; ring.
Qed.
Lemma udots_comm a b : udots S K P a b = udots S K P b a.
Proof.
  unfold udots, dot. f_equal; apply (sumf_ext K); intros; apply (sumf_ext K); intros; ring.
Qed.
Lemma udots_ext a a' b b' : sseq S K a a' -> sseq S K b b' -> udots S K P a b = udots S K P a' b'.
Proof.
  intros [A1 A2] [B1 B2]. unfold udots, dot. f_equal; apply (sumf_ext K); intros x Hx; apply (sumf_ext K); intros p _;
    [rewrite A1, B1 by exact Hx|rewrite A2, B2 by exact Hx]; reflexivity.
Qed.

Lemma szone_Fst f s0 t : szone S K P pw s0 -> szone S K P pw (Fst S K P kc f s0 t).
Proof.
  intros H. unfold Fst. revert s0 H. generalize 0%Z. induction (Z.to_nat t) as [|n IH]; intros z s0 H; [exact H|].
  cbn [sstate]. apply IH. apply (szone_hstep S K Kr P pw Sok Hgeo), (szone_hstep S K Kr P pw Sok Hgeo), H.
Qed.
Lemma szone_Gst gr T g0 t : szone S K P pw g0 -> szone S K P pw (Gst S K P kc gr T g0 t).
Proof.
  intros H. unfold Gst. destruct (Z.to_nat (T - t)); [exact H|]. cbn [sbst].
  apply (szone_sbstep S K Kr P pw Sok Hgeo).
Qed.
Lemma ssup_Gst gr T g0 t : ssup S K P g0 -> ssup S K P (Gst S K P kc gr T g0 t).
Proof. intros H. apply (ssup_sbst S K Kr P Sok Hrec), H. Qed.

(** Contribution of one step to the product of the model gradients with a perturbation. *)
Lemma kdot_models (f : sC S -> list K) (s g : sst S K) (dMod : kM N -> arr K) :
  ssup S K P g ->
  (forall A h Y T i, In h (kgrp N A) ->
     sumf (g_X h) (fun x => sumf (incE S x) (fun e => Y x * T e * snd (kcD x e i))) =
     sumf (g_M h) (fun k => n_gm U k Y (fun q => n_sto U q T) (ofZ K 1) * dMod k i)) ->
  kdot S K P (grad_c S K P (ccoe S K P kc) f s g) (cep (ccoe S dK DP kcD)) =
  sumf (kgrp N true ++ kgrp N false) (fun h => sumf (g_M h) (fun k => sumf (spts S K P) (fun p =>
     if dom S K P (g_h h) p
     then n_gm U k (fun x => mn (bhalf S K P false (ccoe S K P kc) g) x p)
            (fun q => snap S N K P U kc f s (match g_X h with x :: _ => xA S x | [] => true end) q p) (ofZ K 1)
          * dMod k (idx shape p)
     else 0))).
Proof.
  intros Sg Hid. unfold kdot.
  set (g1 := bhalf S K P false (ccoe S K P kc) g).
  assert (S1 : ssup S K P g1) by (apply (ssup_bhalf S K Kr P Sok), Sg).
  assert (FM : forall l : list (grp S (kQ N) (kM N)), sumf (flat_map g_X l) (fun x => sumf (incE S x) (fun e =>
             dot (spts S K P) (grad_c S K P (ccoe S K P kc) f s g x e) (cep (ccoe S dK DP kcD) x e)))
           = sumf l (fun h => sumf (g_X h) (fun x => sumf (incE S x) (fun e =>
             dot (spts S K P) (grad_c S K P (ccoe S K P kc) f s g x e) (cep (ccoe S dK DP kcD) x e))))).
  { induction l as [|h l IH]; cbn [flat_map sumf]; [reflexivity|]. rewrite (sumf_app K Kr), IH. reflexivity. }
  rewrite (sumf_perm K Kr _ _ _ (ko_X S N nd Hk)), FM. clear FM.
  apply (sumf_ext K). intros h Hh.
  assert (Hh' : exists A, In h (kgrp N A)) by (apply in_app_or in Hh; destruct Hh; eauto). destruct Hh' as [A Hg].
  assert (EA : match g_X h with x :: _ => xA S x | [] => true end = A).
  { destruct (g_X h) as [|x l] eqn:EX; [exfalso; apply (ko_ne S N nd Hk A h Hg EX)|].
    apply (ko_Xg S N nd Hk A h x Hg). rewrite EX. left. reflexivity. }
  rewrite EA.
  set (sA := if A then s else hstep S K P true (ccoe S K P kc) f s).
  (* all sums over points outside *)
  assert (E1 : sumf (g_X h) (fun x => sumf (incE S x) (fun e =>
       dot (spts S K P) (grad_c S K P (ccoe S K P kc) f s g x e) (cep (ccoe S dK DP kcD) x e)))
     = sumf (spts S K P) (fun p => sumf (g_X h) (fun x => sumf (incE S x) (fun e =>
         mn g1 x p * term S K P sA e p * snd (kcD x e (idx shape p)))))).
  { rewrite (sumf_swap K Kr). apply (sumf_ext K). intros x Hx. rewrite (sumf_swap K Kr). apply (sumf_ext K). intros e He.
    apply incE_spec in He. unfold dot. apply (sumf_ext K). intros p _. unfold grad_c. fold g1.
    pose proof (ko_inc S N nd Hk A h x e Hg Hx (proj1 He) (proj2 He)) as Heg.
    rewrite (proj1 (ko_Eg S N nd Hk A h e Hg Heg)). reflexivity. }
  rewrite E1. etransitivity; [|apply (sumf_swap K Kr)]. apply (sumf_ext K). intros p _.
  destruct (dom S K P (g_h h) p) eqn:Hd.
  - rewrite (Hid A h (fun x => mn g1 x p) (fun e => term S K P sA e p) (idx shape p) Hg). reflexivity.
  - transitivity (o0 K); [|symmetry; apply (sumf_zero K Kr); reflexivity].
    apply (sumf_zero K Kr).
    + intros x Hx. destruct (ko_Xg S N nd Hk A h x Hg Hx) as [_ Hxh].
      rewrite (proj1 S1 x (grp_X S N K P Hk A h x Hg Hx) p) by (rewrite <- (dom_ext S K P _ _ p Hxh); exact Hd).
      apply (sumf_zero K Kr). intros; ring.
Qed.

(** Points of a visit list. *)
Definition fvisits (A : bool) vis := Permutation (svisits S N K P (fpml_b S K P pw) (fpml_e S K P pw) A) vis.
Definition bvisits (A : bool) vis := Permutation (svisits S N K P (bpml_b S K P pw) (bpml_e S K P pw) A) vis.

Definition kre (r : krec S dK) : krec S K := fun t c => lre (r t c).
Definition kep (r : krec S dK) : krec S K := fun t c => lep (r t c).

Lemma sumk_zrange nt (h : Z -> K) : (0 <= nt)%Z -> sumk K (Z.to_nat nt) (fun k => h (0 + Z.of_nat k)%Z) = sumf (zrange 0 nt) h.
Proof.
  intros H. unfold sumk, zrange. rewrite (sumf_map K). rewrite Z.sub_0_r. reflexivity.
Qed.

Lemma rdot_trunc T nt (a b : krec S K) : (0 <= T <= nt)%Z ->
  (forall t c, (T <= t < nt)%Z -> In c (allC S) -> ldot (a t c) (b t c) = 0) ->
  rdot S K nt a b = sumf (zrange 0 T) (fun t => cdot S K (a t) (b t)).
Proof.
  intros HT H. unfold rdot. rewrite (zrange_app 0 T nt) by lia. rewrite (sumf_app K Kr).
  rewrite (sumf_zero K Kr (zrange T nt)); [ring|]. intros t Ht. apply In_zrange in Ht.
  unfold cdot. apply (sumf_zero K Kr). intros c Hc. apply H; assumption.
Qed.

(** All gradients, the step ratio being arbitrary: [step] is the exact contribution of step [t]. *)
Theorem stag_duality (fD : krec S dK) (u : sst S dK) (g : sst S K) (gr : krec S K)
    sr nt visDA visDB visFA visFB visBA visBB cbD cbF cbB fqD fq fm store0D store0 (dMod : kM N -> arr K) :
  (forall A h Y T i, In h (kgrp N A) ->
     sumf (g_X h) (fun x => sumf (incE S x) (fun e => Y x * T e * snd (kcD x e i))) =
     sumf (g_M h) (fun k => n_gm U k Y (fun q => n_sto U q T) (ofZ K 1) * dMod k i)) ->
  (forall A h k q, In h (kgrp N A) -> In k (g_M h) -> fm k = true -> In q (g_Q h) -> fq q = true) ->
  (forall k i, In k (allM S N) -> fm k = false -> dMod k i = 0) ->
  fvisits true visDA -> fvisits false visDB -> fvisits true visFA -> fvisits false visFB ->
  bvisits true visBA -> bvisits false visBB ->
  nt_ok nt sr cbD -> nt_ok nt sr cbF -> nt_ok nt sr cbB ->
  exists uD rD stD uK rK stK g' gf gm,
    k_fwd S N dK DP UD pw visDA visDB fqD sr fD nt cbD store0D u = Some (uD, rD, stD) /\
    k_fwd S N K P U pw visFA visFB fq sr (kre fD) nt cbF store0 (ssre u) = Some (uK, rK, stK) /\
    k_bwd S N K P U pw visBA visBB fm sr gr nt cbB stK g = Some (g', gf, gm) /\
    sseq S K uK (ssre uD) /\ (forall t c, In c (allC S) -> rK t c = lre (rD t c)) /\
    (sr = 1%Z \/ (forall k i, In k (allM S N) -> dMod k i = 0) ->
     udots S K P g (ssep uD) + rdot S K nt gr (kep rD)
     = udots S K P g' (ssep u) + rdot S K nt gf (kep fD) + mdot S N K P gm dMod).
Proof.
  intros Hid Hfq Hfm VDA VDB VFA VFB VBA VBB NtD NtF NtB.
  set (T := nsteps nt sr).
  assert (HT : (0 <= T <= nt)%Z) by (split; [apply (nsteps_nonneg nt sr cbF NtF)|apply (nsteps_le nt sr cbF NtF)]).
  destruct (k_fwd_spec S N dK Dr DP UD kcD pw Sok Hk HuD Hsrc Hrec sgeom_dual visDA visDB fqD sr fD nt cbD store0D u VDA VDB NtD)
    as (uD & rD & stD & ED & QD & RD & _).
  destruct (k_fwd_spec S N K Kr P U kc pw Sok Hk Hu Hsrc Hrec Hgeo visFA visFB fq sr (kre fD) nt cbF store0 (ssre u) VFA VFB NtF)
    as (uK & rK & stK & EK & QK & RK & StK).
  destruct (k_bwd_spec S N K Kr P U kc pw Sok Hk Hu Hsrc Hrec Hgeo Hroom visBA visBB fm sr gr nt cbB stK g VBA VBB NtB)
    as (g' & gf & gm & EB & QB & RB & GB & GB0).
  fold T in QD, RD, QK, RK, StK, QB, RB, GB.
  exists uD, rD, stD, uK, rK, stK, g', gf, gm. do 3 (split; [assumption|]).
  set (s0 := sinit S dK DP pw u) in *. set (sk := sinit S K P pw (ssre u)) in *.
  set (g0 := sinit S K P pw g) in *.
  set (cD := fun _ : Z => ccoe S dK DP kcD).
  assert (Q0 : sseq S K (ssre s0) sk).
  { split; intros x p Hx; unfold s0, sk; cbn [ssre mn me sinit]; unfold fre.
    - change (dom S dK DP (xh S x) p) with (dom S K P (xh S x) p). destruct (dom S K P (xh S x) p); reflexivity.
    - change (dom S dK DP (eh S x) p) with (dom S K P (eh S x) p).
      change (ezone S dK DP pw x p) with (ezone S K P pw x p).
      destruct (dom S K P (eh S x) p && negb (ezone S K P pw x p)); reflexivity. }
  (* states of the two forward runs *)
  assert (QF : forall t, sseq S K (ssre (Fst S dK DP kcD fD s0 t)) (Fst S K P kc (kre fD) sk t)).
  { intros t. unfold Fst.
    apply (sseq_trans S K _ (sstate S K P (fun z => cre (cD z)) (fun z ch => lre (fD z ch)) (Z.to_nat t) 0 (ssre s0))).
    - apply (ssre_sstate S K P).
      exact Sok.
    - apply (sstate_ext S K P Sok); [intros z x e p Hx He; reflexivity|reflexivity|exact Q0]. }
  split; [|split].
  { apply (sseq_trans S K _ _ _ QK). apply (sseq_trans S K _ (ssre (Fst S dK DP kcD fD s0 T))).
    - apply sseq_sym, QF.
    - destruct QD as [D1 D2]. split; intros x p Hx; cbn [ssre mn me]; unfold fre; [rewrite D1|rewrite D2]; auto. }
  { intros t c Hc. rewrite RK, RD by exact Hc. destruct ((0 <=? t) && (t <? T))%Z.
    - rewrite (lre_srec S K P). apply (srec_ext S K P). apply sseq_sym, QF.
    - unfold lre. rewrite map_map. reflexivity. }
  intros Hsr.
  (* duality *)
  assert (SsD : ssup S dK DP s0) by (apply ssup_sinit).
  assert (Sep : forall s : sst S dK, ssup S dK DP s -> ssup S K P (ssep s)).
  { intros s [A1 A2]. split; intros x Hx p Hp; cbn [ssep mn me]; unfold fep; [rewrite A1|rewrite A2]; auto. }
  assert (Szep : forall s : sst S dK, szone S dK DP pw s -> szone S K P pw (ssep s)).
  { intros s A1 e p He Hz. cbn [ssep me]. unfold fep. rewrite A1; auto. }
  pose proof (run_duality S K Kr P Sok Hsrc Hrec cD fD gr (Z.to_nat T) 0 s0 g0 (ssup_sinit S K P pw g) (Sep _ SsD)) as D.
  cbv zeta in D.
  (* left: final state *)
  assert (L1 : sdot S K P g0 (ssep (sstate S dK DP cD fD (Z.to_nat T) 0 s0)) = udots S K P g (ssep uD)).
  { unfold g0. rewrite sdot_sinit.
    - apply udots_ext; [apply sseq_refl|]. destruct QD as [D1 D2].
      split; intros x p Hx; cbn [ssep mn me]; unfold fep; [rewrite D1|rewrite D2]; auto.
    - apply Sep. apply (ssup_sstate S dK Dr DP Hsrc), SsD.
    - apply Szep. assert (G : forall n z s, szone S dK DP pw s -> szone S dK DP pw (sstate S dK DP cD fD n z s)).
      { induction n as [|n IH]; intros z s H; [exact H|]. cbn [sstate]. apply IH.
        apply (szone_hstep S dK Dr DP pw Sok sgeom_dual), (szone_hstep S dK Dr DP pw Sok sgeom_dual), H. }
      apply G, szone_sinit. }
  rewrite L1 in D. clear L1.
  (* left: receivers *)
  assert (L2 : sumk K (Z.to_nat T) (fun k => cdot S K (gr (0 + Z.of_nat k)%Z) (fun ch => lep (srec S dK DP ch (sstate S dK DP cD fD k 0 s0))))
               = rdot S K nt gr (kep rD)).
  { rewrite (rdot_trunc T nt) by (auto; intros t c Ht Hc; unfold kep; rewrite RD by exact Hc;
      replace ((0 <=? t) && (t <? T))%Z with false by (symmetry; apply not_true_iff_false; rewrite andb_true_iff, Z.ltb_lt; lia);
      unfold lep; rewrite map_map; apply (ldot_zero_r K Kr)).
    rewrite <- (sumk_zrange T) by lia. apply (sumf_ext K). intros k Hkk. apply in_seq in Hkk. apply (sumf_ext K). intros c Hc.
    f_equal. unfold kep. rewrite RD by exact Hc.
    replace ((0 <=? 0 + Z.of_nat k) && (0 + Z.of_nat k <? T))%Z with true
      by (symmetry; rewrite andb_true_iff, Z.leb_le, Z.ltb_lt; lia).
    unfold Fst. replace (Z.to_nat (0 + Z.of_nat k)) with k by lia. reflexivity. }
  rewrite L2 in D. clear L2.
  (* right: initial state *)
  set (ck := fun z : Z => cre (cD z)) in *.
  assert (GE : forall z, sbst S K P ck gr (Z.to_nat (T - z)) z g0 = Gst S K P kc gr T g0 z) by reflexivity.
  assert (R1 : sdot S K P (sbst S K P ck gr (Z.to_nat T) 0 g0) (ssep s0) = udots S K P g' (ssep u)).
  { pose proof (GE 0%Z) as E0. rewrite Z.sub_0_r in E0. rewrite E0.
    assert (E1 : sdot S K P (Gst S K P kc gr T g0 0) (ssep s0) = sdot S K P (Gst S K P kc gr T g0 0) (sinit S K P pw (ssep u))).
    { apply (sdot_ext S K P); [apply sseq_refl|]. split; intros x p Hx; unfold s0; cbn [ssep mn me sinit]; unfold fep.
      - change (dom S dK DP (xh S x) p) with (dom S K P (xh S x) p). destruct (dom S K P (xh S x) p); reflexivity.
      - change (dom S dK DP (eh S x) p) with (dom S K P (eh S x) p).
        change (ezone S dK DP pw x p) with (ezone S K P pw x p).
        destruct (dom S K P (eh S x) p && negb (ezone S K P pw x p)); reflexivity. }
    rewrite E1, sdot_comm, sdot_sinit.
    - rewrite udots_comm. apply udots_ext; [apply sseq_sym, QB|apply sseq_refl].
    - apply ssup_Gst, ssup_sinit.
    - apply szone_Gst, szone_sinit. }
  rewrite R1 in D. clear R1.
  assert (GK : forall k, (k < Z.to_nat T)%nat ->
     sbst S K P ck gr (Z.to_nat T - 1 - k) (0 + Z.of_nat k + 1) g0 = Gst S K P kc gr T g0 (Z.of_nat k + 1)).
  { intros k Hkk. rewrite <- GE. f_equal; lia. }
  assert (R2 : sumk K (Z.to_nat T) (fun k => cdot S K (grad_f S K P (cre (cD (0 + Z.of_nat k)%Z))
                 (sbst S K P ck gr (Z.to_nat T - 1 - k) (0 + Z.of_nat k + 1) g0)) (fun ch => lep (fD (0 + Z.of_nat k)%Z ch)))
               = rdot S K nt gf (kep fD)).
  { rewrite (rdot_trunc T nt) by (auto; intros t c Ht Hc; rewrite RB by exact Hc;
      replace ((0 <=? t) && (t <? T))%Z with false by (symmetry; apply not_true_iff_false; rewrite andb_true_iff, Z.ltb_lt; lia);
      apply (ldot_zero_l K Kr)).
    rewrite <- (sumk_zrange T) by lia. apply (sumf_ext K). intros k Hkk. apply in_seq in Hkk. apply (sumf_ext K). intros c Hc.
    rewrite GK by lia. rewrite RB by exact Hc.
    replace ((0 <=? 0 + Z.of_nat k) && (0 + Z.of_nat k <? T))%Z with true
      by (symmetry; rewrite andb_true_iff, Z.leb_le, Z.ltb_lt; lia).
    reflexivity. }
  rewrite R2 in D. clear R2.
  rewrite D. f_equal. clear D.
  (* right: models *)
  set (Lg := kgrp N true ++ kgrp N false).
  set (hA := fun h : grp S (kQ N) (kM N) => match g_X h with x :: _ => xA S x | [] => true end).
  set (C := fun (t : Z) (h : grp S (kQ N) (kM N)) (k : kM N) (p : pt) =>
     if dom S K P (g_h h) p
     then n_gm U k (fun x => mn (bhalf S K P false (ccoe S K P kc) (Gst S K P kc gr T g0 (t + 1))) x p)
            (fun q => snap S N K P U kc (kre fD t) (Fst S K P kc (kre fD) sk t) (hA h) q p) (ofZ K 1)
          * dMod k (idx shape p)
     else 0).
  assert (E1 : sumk K (Z.to_nat T) (fun k => kdot S K P (grad_c S K P (cre (cD (0 + Z.of_nat k)%Z)) (fun ch => lre (fD (0 + Z.of_nat k)%Z ch))
      (sstate S K P ck (fun z ch => lre (fD z ch)) k 0 (ssre s0)) (sbst S K P ck gr (Z.to_nat T - 1 - k) (0 + Z.of_nat k + 1) g0))
      (cep (cD (0 + Z.of_nat k)%Z)))
    = sumf (zrange 0 T) (fun t => sumf Lg (fun h => sumf (g_M h) (fun k => sumf (spts S K P) (fun p => C t h k p))))).
  { rewrite <- (sumk_zrange T) by lia. apply (sumf_ext K). intros k Hkk. apply in_seq in Hkk. rewrite GK by lia.
    assert (QS : sseq S K (sstate S K P ck (fun z ch => lre (fD z ch)) k 0 (ssre s0)) (Fst S K P kc (kre fD) sk (0 + Z.of_nat k))).
    { unfold Fst. replace (Z.to_nat (0 + Z.of_nat k)) with k by lia.
      apply (sstate_ext S K P Sok); [intros z x e p Hx He; reflexivity|reflexivity|exact Q0]. }
    replace (Z.of_nat k + 1)%Z with (0 + Z.of_nat k + 1)%Z by lia.
    transitivity (kdot S K P (grad_c S K P (ccoe S K P kc) (kre fD (0 + Z.of_nat k)%Z) (Fst S K P kc (kre fD) sk (0 + Z.of_nat k))
                    (Gst S K P kc gr T g0 (0 + Z.of_nat k + 1))) (cep (ccoe S dK DP kcD)));
      [|refine (kdot_models (kre fD (0 + Z.of_nat k)%Z) (Fst S K P kc (kre fD) sk (0 + Z.of_nat k))
           (Gst S K P kc gr T g0 (0 + Z.of_nat k + 1)) dMod _ Hid); apply ssup_Gst, ssup_sinit].
    - unfold kdot. apply (sumf_ext K). intros x Hx. apply (sumf_ext K). intros e He. apply incE_spec in He.
      apply (dot_ext K); [|reflexivity]. intros p _. unfold grad_c. f_equal.
      apply (term_ext S K P Sok); [|tauto]. destruct (eA S e); [exact QS|].
      apply (hstep_ext S K P Sok); [intros ? ? ? ? ?; reflexivity|reflexivity|exact QS]. }
  rewrite E1. clear E1.
  assert (E2 : mdot S N K P gm dMod = sumf Lg (fun h => sumf (g_M h) (fun k => sumf (spts S K P) (fun p =>
                  gm k (idx shape p) * dMod k (idx shape p))))).
  { unfold mdot, allM. fold Lg. generalize Lg. intros l. induction l as [|h l IH]; cbn [flat_map sumf]; [reflexivity|].
    rewrite (sumf_app K Kr), IH. reflexivity. }
  rewrite E2. rewrite (sumf_swap K Kr). apply (sumf_ext K). intros h Hh.
  rewrite (sumf_swap K Kr). apply (sumf_ext K). intros k Hkk.
  rewrite (sumf_swap K Kr). apply (sumf_ext K). intros p Hp. apply In_spts in Hp.
  assert (HkM : In k (allM S N)) by (apply in_flat_map; exists h; split; assumption).
  assert (Hh' : exists A, In h (kgrp N A)) by (apply in_app_or in Hh; destruct Hh; eauto). destruct Hh' as [A Hg].
  assert (EA : hA h = A).
  { unfold hA. destruct (g_X h) as [|x l] eqn:EX; [exfalso; apply (ko_ne S N nd Hk A h Hg EX)|].
    apply (ko_Xg S N nd Hk A h x Hg). rewrite EX. left. reflexivity. }
  assert (Zero : dMod k (idx shape p) = 0 -> sumf (zrange 0 T) (fun t => C t h k p) = gm k (idx shape p) * dMod k (idx shape p)).
  { intros E. rewrite E. rewrite (sumf_zero K Kr); [ring|]. intros t _. unfold C. rewrite E.
    destruct (dom S K P (g_h h) p); ring. }
  destruct Hsr as [-> | Hz]; [|apply Zero, Hz, HkM].
  destruct (fm k) eqn:Fk; [|apply Zero, Hfm; assumption].
  destruct (dom S K P (g_h h) p) eqn:Hd.
  - rewrite (GB A h k p Hg Hkk Hd). rewrite <- (sumf_scal_r K Kr). apply (sumf_ext K). intros t Ht. apply In_zrange in Ht.
    unfold C. rewrite Hd, Fk, Z.mod_1_r. cbn [andb Z.eqb]. f_equal. unfold g_inc.
    apply (no_gm S N K U kc Hu A h k); auto. intros q Hq. rewrite EA. symmetry.
    apply (StK A h q t p); auto; [apply (Hfq A h k q); assumption|apply Z.mod_1_r].
  - rewrite (GB0 k p Hp).
    + rewrite (sumf_zero K Kr); [ring|]. intros t _. unfold C. rewrite Hd. reflexivity.
    + intros A' h' Hg' Hk'. assert (E : h = h').
      { apply (NoDup_flat_map_unique g_M Lg h h' k); auto; [apply (ko_M S N nd Hk)|].
        apply in_or_app. destruct A'; auto. }
      subst h'. exact Hd.
Qed.
End Grad.

(** ** Sums over the arrays. *)
Section Sum.
Variable S : sys.
Variable K : ops.
Hypothesis Kr : is_ring K.
Variable P : spar S K.
Variable pw : nat -> Z * Z.
Notation shape := (sp_shape P).
Notation fd := (fd_pad (sp_acc P)).
Hypothesis Hgeo : sgeom S K P pw.

(** Cells returned to the caller: [fd .. n - fd] in every dimension. *)
Definition upts : list pt := box_pts (map (fun n => (fd, n - (fd - 1))%Z) shape).

Lemma shape_pos : Forall (fun n => 0 < n)%Z shape.
Proof.
  apply Forall_forall. intros n Hn. apply (In_nth _ _ 0%Z) in Hn. destruct Hn as (d & Hd & <-).
  destruct (sg_dims S K P pw Hgeo d Hd) as (? & ? & ?). pose proof (fd_pad_pos (sp_acc P)). lia.
Qed.
Lemma adot_spts (x y : arr K) :
  adot (prodZ shape) x y = sumf (spts S K P) (fun p => x (idx shape p) * y (idx shape p)).
Proof.
  unfold adot. set (g := fun i => x i * y i).
  change (sumf (zrange 0 (prodZ shape)) g = sumf (spts S K P) (fun p => g (idx shape p))).
  rewrite <- (sumf_map K (idx shape)). apply (sumf_perm K Kr). apply NoDup_Permutation.
  - apply NoDup_zrange.
  - apply NoDup_map_inj; [|apply NoDup_spts].
    intros p q Hp Hq E. apply In_spts in Hp, Hq. apply (idx_inj shape); auto.
  - intros i. rewrite In_zrange, in_map_iff. split.
    + intros Hi. exists (unidx shape i). split; [apply idx_unidx; auto using shape_pos|].
      apply In_spts. apply unidx_in_array; auto using shape_pos.
    + intros (p & <- & Hp). apply In_spts in Hp. apply idx_bound; exact Hp.
Qed.
Lemma crop_upts p : In p upts <-> crop S K P p = true.
Proof.
  unfold upts, crop. rewrite In_box_pts, inb_spec, (dom_spec S K P).
  rewrite map_length.
  set (F := fun n : Z => (fd, n - (fd - 1))%Z).
  assert (E : forall d, (d < length shape)%nat -> nth d (map F shape) (0, 0)%Z = F (nth d shape 0%Z)).
  { intros d Hd. rewrite (nth_indep _ _ (F 0%Z)) by (rewrite map_length; exact Hd). apply map_nth. }
  split; intros [L H]; (split; [exact L|]); intros d Hd; specialize (H d Hd); specialize (E d Hd).
  - rewrite E in H. unfold F in H. cbn [fst snd] in H. lia.
  - rewrite E. unfold F. cbn [fst snd]. lia.
Qed.
Lemma sumf_cpts (g : pt -> K) : sumf (cpts S K P) g = sumf upts g.
Proof.
  apply (sumf_perm K Kr). apply NoDup_Permutation.
  - apply NoDup_filter, NoDup_spts.
  - apply NoDup_box_pts.
  - intros p. rewrite crop_upts. unfold cpts. rewrite filter_In. split; [tauto|]. intros H. split; [|exact H].
    apply In_spts. exact (dom_array S K P _ p H).
Qed.
End Sum.
