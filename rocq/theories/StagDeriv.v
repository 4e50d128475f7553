(** * Gradients of the acoustic and elastic propagators are derivatives of real functions. *)
From Coq Require Import List ZArith QArith Qreals Reals Lia Lra Bool Permutation FunctionalExtensionality.
From Verif Require Import Ops Sums Grid Stencil StencilOrder DualNum ScalarModel ScalarRefine ScalarForward ScalarAdjoint ScalarApi Param Deriv DerivScalar
  Stag StagAdj StagKernel StagCell StagRefine StagGrad StagParam AcousticModel AcousticThm ElasticModel ElasticThm StagShotsThm StagShotsInst.
Import ListNotations.

Section FwdRel.
Variable S : sys.
Variable N : kern S.
Variables K1 K2 : ops.
Variable Q : K1 -> K2 -> Prop.
Hypothesis RO : oprel K1 K2 Q.
Variable P1 : spar S K1.
Variable P2 : spar S K2.
Hypothesis HP : sprel S K1 K2 Q P1 P2.
Notation shape := (sp_shape P1).
Notation nd := (length shape).
Notation n := (prodZ shape).
Variable U1 : knum S N K1.
Variable U2 : knum S N K2.
Hypothesis HU : numrel S N K1 K2 Q n U1 U2.
Hypothesis Sok : sys_ok S nd.
Hypothesis Nok : kern_ok S N nd.
Hypothesis Hsrc : forall c, Forall (fun l => (l < n)%Z) (sp_src P1 c).
Hypothesis Hrec : forall c, Forall (fun l => (l < n)%Z) (sp_rec P1 c).
Variable pw : nat -> Z * Z.
Notation cr p := (crop S K1 P1 p = true).

Lemma crop_eq p : crop S K2 P2 p = crop S K1 P1 p.
Proof. unfold crop, dom, dbox. rewrite (sr_acc _ _ _ _ _ _ HP), (sr_shape _ _ _ _ _ _ HP). reflexivity. Qed.
Lemma edge_eq h p : edge S K2 P2 h p = edge S K1 P1 h p.
Proof. unfold edge. rewrite (sr_acc _ _ _ _ _ _ HP), (sr_shape _ _ _ _ _ _ HP). reflexivity. Qed.
Lemma ezone_eq e p : ezone S K2 P2 pw e p = ezone S K1 P1 pw e p.
Proof. unfold ezone. rewrite (sr_acc _ _ _ _ _ _ HP), (sr_shape _ _ _ _ _ _ HP). reflexivity. Qed.

Definition surel (u1 : sst S K1) (u2 : sst S K2) : Prop :=
  (forall x p, cr p -> Q (mn u1 x p) (mn u2 x p)) /\ (forall e p, cr p -> Q (me u1 e p) (me u2 e p)).

Notation W := (fun _ : svar (sX S) (sE S) (kQ N) (kM N) => True).
Notation TW := (fun _ : Z => True).
Notation pr := (prrel S N K1 K2 Q P1 W TW).

Lemma init_rel st1 st2 u1 u2 : (forall q si, arel K1 K2 Q n (st1 q si) (st2 q si)) -> surel u1 u2 ->
  mrel S N K1 K2 Q P1 W (k_init S N K1 P1 pw st1 u1) (k_init S N K2 P2 pw st2 u2).
Proof.
  intros Hst [H1 H2] v _ i Hi. pose proof (or_0 _ _ _ RO) as R0.
  destruct v; cbn [k_init]; rewrite ?crop_eq, ?edge_eq, ?ezone_eq, ?(sr_shape _ _ _ _ _ _ HP).
  - destruct (crop S K1 P1 (unidx shape i)) eqn:E; [|exact R0]. destruct (edge _ _ _ _ _); auto.
  - destruct (crop S K1 P1 (unidx shape i)) eqn:E; [|exact R0]. destruct (_ || _); auto.
  - exact R0.
  - apply Hst. exact Hi.
  - exact R0.
Qed.

Lemma out_rel m1 m2 : mrel S N K1 K2 Q P1 W m1 m2 -> surel (k_out S N K1 P1 m1) (k_out S N K2 P2 m2).
Proof.
  intros H. split; intros z p Hp; cbn [k_out mn me]; rewrite crop_eq, Hp, (sr_shape _ _ _ _ _ _ HP);
    (apply H; [exact I|apply idx_bound, (dom_array S K1 P1 _ p Hp)]).
Qed.

Lemma k_fwd_rel visA visB fq f1 f2 nt cb st1 st2 u1 u2 :
  (forall c, In c visA -> cellok S N K1 P1 true c) -> (forall c, In c visB -> cellok S N K1 P1 false c) ->
  (forall t c, (0 <= t < nt)%Z -> Forall2 Q (f1 t c) (f2 t c)) -> (forall q si, arel K1 K2 Q n (st1 q si) (st2 q si)) ->
  (forall c, cb = Some c -> (0 < c)%Z) -> surel u1 u2 ->
  match k_fwd S N K1 P1 U1 pw visA visB fq 1 f1 nt cb st1 u1, k_fwd S N K2 P2 U2 pw visA visB fq 1 f2 nt cb st2 u2 with
  | Some (a1, r1, s1), Some (a2, r2, s2) => surel a1 a2 /\ (forall t c, Forall2 Q (r1 t c) (r2 t c))
  | None, None => True
  | _, _ => False
  end.
Proof.
  intros HA HB Hf Hst Hcb Hu. unfold k_fwd.
  assert (Hi : pr (k_init S N K1 P1 pw st1 u1, k_rec0 S K1 (sp_rec P1)) (k_init S N K2 P2 pw st2 u2, k_rec0 S K2 (sp_rec P2))).
  { split; cbn [fst snd]; [apply init_rel; assumption|]. intros t c _. unfold k_rec0. rewrite (sr_rec _ _ _ _ _ _ HP).
    pose proof (or_0 _ _ _ RO) as R0. clear - R0. induction (sp_rec P1 c); cbn; constructor; auto. }
  destruct (nt <=? 0)%Z eqn:En.
  - destruct Hi as [I1 I2]. split; [apply out_rel; exact I1|intros t c; apply I2; exact I].
  - rewrite !Z.div_1_r. destruct (k_cf nt 1 cb =? 0)%Z eqn:Ec; [exact I|]. apply Z.leb_gt in En. apply Z.eqb_neq in Ec.
    assert (Hc : (0 < k_cf nt 1 cb)%Z).
    { unfold k_cf in *. destruct cb as [c|]; [apply Hcb; reflexivity|]. rewrite Z.div_1_r in *. lia. }
    set (cf := k_cf nt 1 cb) in *. clearbody cf.
    assert (Hl : forall s, In s (range_up nt cf) -> (0 <= s)%Z).
    { intros s Hs. unfold range_up in Hs. apply in_map_iff in Hs. destruct Hs as (i & <- & Hi'). apply In_zrange in Hi'. nia. }
    assert (Hfold : pr
       (fold_left (fun mr s => k_forward S N K1 P1 U1 visA visB fq 1 f1 (Z.min (nt - s) cf * 1) (s * 1) mr) (range_up nt cf) (k_init S N K1 P1 pw st1 u1, k_rec0 S K1 (sp_rec P1)))
       (fold_left (fun mr s => k_forward S N K2 P2 U2 visA visB fq 1 f2 (Z.min (nt - s) cf * 1) (s * 1) mr) (range_up nt cf) (k_init S N K2 P2 pw st2 u2, k_rec0 S K2 (sp_rec P2)))).
    { revert Hi Hl. generalize (k_init S N K1 P1 pw st1 u1, k_rec0 S K1 (sp_rec P1)) (k_init S N K2 P2 pw st2 u2, k_rec0 S K2 (sp_rec P2)).
      induction (range_up nt cf) as [|s l IH]; intros a b Hab Hl; [exact Hab|]. cbn [fold_left]. apply IH; [|intros; apply Hl; right; assumption].
      apply (k_forward_rel S N K1 K2 Q RO P1 P2 HP U1 U2 HU Sok Nok Hsrc Hrec W (fun _ => I) (fun _ => I) TW); auto.
      intros t c Ht. apply Hf. pose proof (Hl s (or_introl eq_refl)). lia. }
    destruct Hfold as [F1 F2]. split; [apply out_rel; exact F1|intros t c; apply F2; exact I].
Qed.
End FwdRel.

(** ** Curves *)
Definition krcurve {S : sys} (nt : Z) (r : R -> krec S R_ops) (dr : krec S R_ops) : Prop := forall c, rcurve nt (fun h t => r h t c) (fun t => dr t c).
Definition sscurve {S : sys} (P : spar S R_ops) (u : R -> sst S R_ops) (du : sst S R_ops) : Prop :=
  (forall x p, crop S R_ops P p = true -> derivable_pt_lim (fun h => mn (u h) x p) 0 (mn du x p)) /\
  (forall e p, crop S R_ops P p = true -> derivable_pt_lim (fun h => me (u h) e p) 0 (me du e p)).

Definition fspar {S : sys} (P : spar S R_ops) : spar S fun_ops :=
  mkspar (K := fun_ops) (sp_acc P) (sp_shape P) (fun d _ => sp_rd P d) (fun h d y _ => sp_a P h d y) (fun h d y _ => sp_b P h d y) (sp_src P) (sp_rec P).
Lemma fspar_at {S : sys} (P : spar S R_ops) h : sprel S fun_ops R_ops (at_h h) (fspar P) P.
Proof. split; unfold at_h; reflexivity. Qed.
Lemma fspar_deriv {S : sys} (P : spar S R_ops) : sprel S fun_ops (dual R_ops) has_deriv (fspar P) (dspar P).
Proof. split; unfold has_deriv; cbn; intros; try reflexivity; (split; [reflexivity|apply derivable_pt_lim_const]). Qed.

Definition fsst {S : sys} (u : R -> sst S R_ops) : sst S fun_ops := @mksst S fun_ops (fun x p h => mn (u h) x p) (fun e p h => me (u h) e p).
Definition dsst {S : sys} (u du : sst S R_ops) : sst S (dual R_ops) :=
  @mksst S (dual R_ops) (fun x p => (mn u x p, mn du x p)) (fun e p => (me u e p, me du e p)).
Definition dkrec {S : sys} (r dr : krec S R_ops) : krec S (dual R_ops) := fun t c => drow (fun t => r t c) (fun t => dr t c) t.

Section Curve.
Variable S : sys.
Variable N : kern S.
Variable P : spar S R_ops.
Notation nd := (length (sp_shape P)).
Notation n := (prodZ (sp_shape P)).
Variable NK : forall K : ops, K -> (kM N -> arr K) -> knum S N K.
Hypothesis Hnum : forall K1 K2 Q, oprel K1 K2 Q -> forall n (d1 : K1) (d2 : K2) m1 m2, Q d1 d2 ->
  (forall q i, (0 <= i < n)%Z -> Q (m1 q i) (m2 q i)) -> numrel S N K1 K2 Q n (NK K1 d1 m1) (NK K2 d2 m2).
Hypothesis Sok : sys_ok S nd.
Hypothesis Nok : kern_ok S N nd.
Hypothesis Hsrc : forall c, Forall (fun l => (l < n)%Z) (sp_src P c).
Hypothesis Hrec : forall c, Forall (fun l => (l < n)%Z) (sp_rec P c).
Variable pw : nat -> Z * Z.
Variable dt : R.

Lemma k_forward_curve M dM F dF U dU visA visB fq nt cb store uD rD stD :
  (forall c, In c visA -> cellok S N R_ops P true c) -> (forall c, In c visB -> cellok S N R_ops P false c) -> (forall c, cb = Some c -> (0 < c)%Z) ->
  (forall q, acurve n (fun h => M h q) (dM q)) -> krcurve nt F dF -> sscurve P U dU ->
  k_fwd S N (dual R_ops) (dspar P) (NK (dual R_ops) (dconst (K := R_ops) dt) (fun q i => (M 0%R q i, dM q i))) pw visA visB fq 1
    (dkrec (F 0%R) dF) nt cb (fun q s i => dconst (K := R_ops) (store q s i)) (dsst (U 0%R) dU) = Some (uD, rD, stD) ->
  exists Uh Rh Sh,
    (forall h, k_fwd S N R_ops P (NK R_ops dt (M h)) pw visA visB fq 1 (F h) nt cb store (U h) = Some (Uh h, Rh h, Sh h)) /\
    sscurve P Uh (ssep uD) /\ krcurve nt Rh (fun t c => lep (rD t c)).
Proof.
  intros HA HB Hcb HM HF HU ED.
  set (ff := (fun t c => frow (fun h t => F h t c) (fun t => dF t c) t) : krec S fun_ops).
  set (fM := (fun q i h => M h q i) : kM N -> arr fun_ops).
  set (fst0 := (fun q s i _ => store q s i) : kQ N -> Z -> arr fun_ops).
  pose proof (k_fwd_rel S N fun_ops (dual R_ops) has_deriv has_deriv_op (fspar P) (dspar P) (fspar_deriv P) (NK fun_ops (fun _ => dt) fM)
     (NK (dual R_ops) (dconst (K := R_ops) dt) (fun q i => (M 0%R q i, dM q i)))
     ltac:(apply Hnum; [exact has_deriv_op|split; [reflexivity|apply derivable_pt_lim_const]|intros q i Hi; split; [reflexivity|apply HM; exact Hi]])
     Sok Nok Hsrc Hrec pw visA visB fq ff (dkrec (F 0%R) dF) nt cb fst0 (fun q s i => dconst (K := R_ops) (store q s i)) (fsst U) (dsst (U 0%R) dU)
     HA HB ltac:(intros t c Ht; apply (frow_deriv (fun h t => F h t c) (fun t => dF t c) t nt (HF c) Ht))
     ltac:(intros q si i _; split; [reflexivity|apply derivable_pt_lim_const]) Hcb
     ltac:(destruct HU as [H1 H2]; split; intros z p Hp; (split; [reflexivity|cbn; auto]))) as HD.
  assert (HR : forall h, match k_fwd S N fun_ops (fspar P) (NK fun_ops (fun _ => dt) fM) pw visA visB fq 1 ff nt cb fst0 (fsst U),
      k_fwd S N R_ops P (NK R_ops dt (M h)) pw visA visB fq 1 (F h) nt cb store (U h) with
     | Some (a1, r1, s1), Some (a2, r2, s2) => surel S fun_ops R_ops (at_h h) (fspar P) a1 a2 /\ (forall t c, Forall2 (at_h h) (r1 t c) (r2 t c))
     | None, None => True | _, _ => False end).
  { intros h. apply (k_fwd_rel S N fun_ops R_ops (at_h h) (at_h_op h) (fspar P) P (fspar_at P h)); auto.
    - apply Hnum; [apply at_h_op|reflexivity|intros q i Hi; reflexivity].
    - intros t c Ht. apply (frow_at (fun h t => F h t c) (fun t => dF t c) h t), (proj1 (HF c t Ht)).
    - intros q si i _. reflexivity.
    - split; intros; reflexivity. }
  rewrite ED in HD.
  destruct (k_fwd S N fun_ops (fspar P) (NK fun_ops (fun _ => dt) fM) pw visA visB fq 1 ff nt cb fst0 (fsst U)) as [[[Uf Rf] Sf]|]; [|contradiction].
  destruct HD as ([D1 D2] & DR).
  set (run := fun h => k_fwd S N R_ops P (NK R_ops dt (M h)) pw visA visB fq 1 (F h) nt cb store (U h)) in *.
  exists (fun h => match run h with Some (a, _, _) => a | None => U h end),
    (fun h => match run h with Some (_, b, _) => b | None => F h end),
    (fun h => match run h with Some (_, _, c) => c | None => store end).
  assert (HR' : forall h, exists a b c, run h = Some (a, b, c) /\ surel S fun_ops R_ops (at_h h) (fspar P) Uf a /\ (forall t c, Forall2 (at_h h) (Rf t c) (b t c))).
  { intros h. specialize (HR h). fold (run h) in HR. destruct (run h) as [[[a b] c]|]; [|contradiction].
    exists a, b, c. split; [reflexivity|]. exact HR. }
  clear HR. split; [|split].
  - intros h. fold (run h). destruct (HR' h) as (a & b & c & -> & _). reflexivity.
  - split.
    + intros x p Hp. apply (derivable_ext (mn Uf x p)); [|exact (proj2 (D1 x p Hp))].
      intros h. destruct (HR' h) as (a & b & c & -> & [A1 A2] & _). exact (A1 x p Hp).
    + intros e p Hp. apply (derivable_ext (me Uf e p)); [|exact (proj2 (D2 e p Hp))].
      intros h. destruct (HR' h) as (a & b & c & -> & [A1 A2] & _). exact (A2 e p Hp).
  - intros c t Ht. apply (row_curve (Rf t c)); [|apply DR].
    intros h. destruct (HR' h) as (a & b & c' & -> & _ & A). apply A.
Qed.
End Curve.

(** ** Acoustic and elastic *)
Definition ac_obj_gradient (nd : nat) (P : spar (ac_sys nd) R_ops) (nt : Z) (obj : sst (ac_sys nd) R_ops -> krec (ac_sys nd) R_ops -> R) U0 R0 g gr : Prop :=
  forall u r du dr, u 0%R = U0 -> r 0%R = R0 -> sscurve P u du -> krcurve nt r dr ->
    derivable_pt_lim (fun h => obj (u h) (r h)) 0 (ac_udot nd R_ops P g du + ac_rdot nd R_ops nt gr dr)%R.
Definition el_obj_gradient (nd : nat) (P : spar (el_sys nd) R_ops) (nt : Z) (obj : sst (el_sys nd) R_ops -> krec (el_sys nd) R_ops -> R) U0 R0 g gr : Prop :=
  forall u r du dr, u 0%R = U0 -> r 0%R = R0 -> sscurve P u du -> krcurve nt r dr ->
    derivable_pt_lim (fun h => obj (u h) (r h)) 0 (el_udot nd R_ops P g du + el_rdot nd R_ops nt gr dr)%R.

Lemma dkrec_re {S : sys} (r dr : krec S R_ops) : (fun t c => lre (dkrec r dr t c)) = r.
Proof. apply functional_extensionality; intros t. apply functional_extensionality; intros c. apply (lre_drow (fun t => r t c)). Qed.
Lemma dsst_re {S : sys} (u du : sst S R_ops) : ssre (dsst u du) = u.
Proof. destruct u. reflexivity. Qed.
Lemma dkrec_ep {S : sys} nt (r : R -> krec S R_ops) dr t c : krcurve nt r dr -> (0 <= t < nt)%Z -> lep (dkrec (r 0%R) dr t c) = dr t c.
Proof. intros H Ht. apply (lep_drow (fun t => r 0%R t c)). apply (H c t Ht). Qed.

Section Acoustic.
Variable nd : nat.
Variable P : spar (ac_sys nd) R_ops.
Variable pw : nat -> Z * Z.
Hypothesis Hnd : length (sp_shape P) = nd.
Hypothesis Hsrc : forall c, Forall (sloc_ok (ac_sys nd) R_ops P c) (sp_src P c).
Hypothesis Hrec : forall c, Forall (sloc_ok (ac_sys nd) R_ops P c) (sp_rec P c).
Hypothesis Hgeo : sgeom (ac_sys nd) R_ops P pw.
Hypothesis Hroom : sroom (ac_sys nd) R_ops P pw.

Theorem acoustic_gradient_real obj dt (M : R -> aM -> arr R_ops) dM (F : R -> krec (ac_sys nd) R_ops) dF (U : R -> sst (ac_sys nd) R_ops) dU g gr
    nt visFA visFB visBA visBB cbF cbB kg bg store U0 R0 S0 :
  nt_ok nt 1 cbF -> nt_ok nt 1 cbB -> ac_fvis nd R_ops P pw true visFA -> ac_fvis nd R_ops P pw false visFB ->
  ac_bvis nd R_ops P pw true visBA -> ac_bvis nd R_ops P pw false visBB ->
  (kg = false -> forall i, dM MK i = 0%R) -> (bg = false -> forall d i, dM (MB d) i = 0%R) ->
  (forall q, acurve (prodZ (sp_shape P)) (fun h => M h q) (dM q)) -> krcurve nt F dF -> sscurve P U dU ->
  acoustic_forward nd R_ops P pw dt (M 0%R) visFA visFB kg bg 1 (F 0%R) nt cbF store (U 0%R) = Some (U0, R0, S0) ->
  ac_obj_gradient nd P nt obj U0 R0 g gr ->
  exists J g' gf gm,
    (forall h, exists Uh Rh Sh, acoustic_forward nd R_ops P pw dt (M h) visFA visFB kg bg 1 (F h) nt cbF store (U h) = Some (Uh, Rh, Sh) /\ J h = obj Uh Rh) /\
    acoustic_backward nd R_ops P pw dt (M 0%R) visBA visBB kg bg 1 gr nt cbB S0 g = Some (g', gf, gm) /\
    derivable_pt_lim J 0 (ac_udot nd R_ops P g' dU + ac_rdot nd R_ops nt gf dF + ac_mdot nd R_ops P gm dM)%R.
Proof.
  intros NF NB VFA VFB VBA VBB Hk Hb HM HF HU E0 Hobj.
  destruct (acoustic_gradient_exact nd R_ops R_is_ring P pw Hnd (fun c _ => Hsrc c) (fun c _ => Hrec c) Hgeo Hroom oq1 dt
     (fun q i => (M 0%R q i, dM q i)) (dkrec (F 0%R) dF) (dsst (U 0%R) dU) g gr nt visFA visFB visFA visFB visBA visBB cbF cbF cbB kg bg kg bg
     (fun q s i => dconst (K := R_ops) (store q s i)) store Hk Hb VFA VFB VFA VFB VBA VBB NF NF NB)
    as (uD & rD & stD & uK & rK & stK & g' & gf & gm & E1 & E2 & E3 & _ & _ & E4).
  change (fun k => are (fun i => (M 0%R k i, dM k i))) with (M 0%R) in E2, E3. rewrite dkrec_re, dsst_re, E0 in E2. injection E2 as <- <- <-.
  assert (Sok : sys_ok (ac_sys nd) (length (sp_shape P))) by (rewrite Hnd; apply ac_sys_ok).
  assert (Nok : kern_ok (ac_sys nd) (ac_kern nd) (length (sp_shape P))) by (rewrite Hnd; apply ac_kern_ok).
  destruct (k_forward_curve (ac_sys nd) (ac_kern nd) P (ac_num nd) (fun K1 K2 Q RO n d1 d2 m1 m2 => ac_numrel nd K1 K2 Q RO n d1 d2 m1 m2) Sok Nok
     (fun c => Forall_impl _ (fun l => sloc_lt (ac_sys nd) R_ops P pw Hgeo c l) (Hsrc c)) (fun c => Forall_impl _ (fun l => sloc_lt (ac_sys nd) R_ops P pw Hgeo c l) (Hrec c))
     pw dt M dM F dF U dU visFA visFB (ac_flag kg bg) nt cbF store uD rD stD
     (fv_cell _ _ R_ops P pw Hgeo _ _ VFA) (fv_cell _ _ R_ops P pw Hgeo _ _ VFB) ltac:(intros c ->; apply NF) HM HF HU E1)
    as (Uh & Rh & Sh & C1 & C2 & C3).
  exists (fun h => obj (Uh h) (Rh h)), g', gf, gm. split; [|split].
  - intros h. exists (Uh h), (Rh h), (Sh h). split; [apply C1|reflexivity].
  - exact E3.
  - pose proof (C1 0%R) as C0. unfold acoustic_forward in E0. rewrite E0 in C0. injection C0 as A1 A2 _.
    eapply derivable_eq; [|exact (Hobj Uh Rh _ _ (eq_sym A1) (eq_sym A2) C2 C3)].
    etransitivity; [exact E4|]. cbn [oadd R_ops]. f_equal. f_equal.
    unfold ac_rdot. apply sumf_ext. intros t Ht. apply In_zrange in Ht. rewrite (dkrec_ep nt F dF t XP HF Ht). f_equal.
    apply sumf_ext. intros d _. rewrite (dkrec_ep nt F dF t (XV d) HF Ht). reflexivity.
Qed.
End Acoustic.

Section Elastic.
Variable nd : nat.
Variable P : spar (el_sys nd) R_ops.
Variable pw : nat -> Z * Z.
Hypothesis Hnd : length (sp_shape P) = nd.
Hypothesis Hpos : (0 < nd)%nat.
Hypothesis Hsrc : forall c, Forall (sloc_ok (el_sys nd) R_ops P c) (sp_src P c).
Hypothesis Hrec : forall c, Forall (sloc_ok (el_sys nd) R_ops P c) (sp_rec P c).
Hypothesis Hgeo : sgeom (el_sys nd) R_ops P pw.
Hypothesis Hroom : sroom (el_sys nd) R_ops P pw.

Theorem elastic_gradient_real obj dt (M : R -> eM -> arr R_ops) dM (F : R -> krec (el_sys nd) R_ops) dF (U : R -> sst (el_sys nd) R_ops) dU g gr
    nt visFA visFB visBA visBB cbF cbB lg mg bg store U0 R0 S0 :
  nt_ok nt 1 cbF -> nt_ok nt 1 cbB -> el_fvis nd R_ops P pw true visFA -> el_fvis nd R_ops P pw false visFB ->
  el_bvis nd R_ops P pw true visBA -> el_bvis nd R_ops P pw false visBB ->
  (lg = false -> forall i, dM ML i = 0%R) -> (mg = false -> forall i, dM MMU i = 0%R /\ forall a b, dM (MS a b) i = 0%R) ->
  (bg = false -> forall d i, dM (EB d) i = 0%R) ->
  (forall q, acurve (prodZ (sp_shape P)) (fun h => M h q) (dM q)) -> krcurve nt F dF -> sscurve P U dU ->
  elastic_forward nd R_ops P pw dt (M 0%R) visFA visFB lg mg bg 1 (F 0%R) nt cbF store (U 0%R) = Some (U0, R0, S0) ->
  el_obj_gradient nd P nt obj U0 R0 g gr ->
  exists J g' gf gm,
    (forall h, exists Uh Rh Sh, elastic_forward nd R_ops P pw dt (M h) visFA visFB lg mg bg 1 (F h) nt cbF store (U h) = Some (Uh, Rh, Sh) /\ J h = obj Uh Rh) /\
    elastic_backward nd R_ops P pw dt (M 0%R) visBA visBB lg mg bg 1 gr nt cbB S0 g = Some (g', gf, gm) /\
    derivable_pt_lim J 0 (el_udot nd R_ops P g' dU + el_rdot nd R_ops nt gf dF + el_mdot nd R_ops P gm dM)%R.
Proof.
  intros NF NB VFA VFB VBA VBB Hl Hm Hb HM HF HU E0 Hobj.
  destruct (elastic_gradient_exact nd R_ops R_is_ring P pw Hnd Hpos (fun c _ => Hsrc c) (fun c _ => Hrec c) Hgeo Hroom oq1 dt
     (fun q i => (M 0%R q i, dM q i)) (dkrec (F 0%R) dF) (dsst (U 0%R) dU) g gr nt visFA visFB visFA visFB visBA visBB cbF cbF cbB lg mg bg lg mg bg
     (fun q s i => dconst (K := R_ops) (store q s i)) store Hl Hm Hb VFA VFB VFA VFB VBA VBB NF NF NB)
    as (uD & rD & stD & uK & rK & stK & g' & gf & gm & E1 & E2 & E3 & _ & _ & E4).
  change (fun k => are (fun i => (M 0%R k i, dM k i))) with (M 0%R) in E2, E3. rewrite dkrec_re, dsst_re, E0 in E2. injection E2 as <- <- <-.
  assert (Sok : sys_ok (el_sys nd) (length (sp_shape P))) by (rewrite Hnd; apply el_sys_ok).
  assert (Nok : kern_ok (el_sys nd) (el_kern nd) (length (sp_shape P))) by (rewrite Hnd; apply el_kern_ok, Hpos).
  destruct (k_forward_curve (el_sys nd) (el_kern nd) P (el_num nd) (fun K1 K2 Q RO n d1 d2 m1 m2 => el_numrel nd K1 K2 Q RO n d1 d2 m1 m2) Sok Nok
     (fun c => Forall_impl _ (fun l => sloc_lt (el_sys nd) R_ops P pw Hgeo c l) (Hsrc c)) (fun c => Forall_impl _ (fun l => sloc_lt (el_sys nd) R_ops P pw Hgeo c l) (Hrec c))
     pw dt M dM F dF U dU visFA visFB (el_fq lg mg bg) nt cbF store uD rD stD
     (fv_cell _ _ R_ops P pw Hgeo _ _ VFA) (fv_cell _ _ R_ops P pw Hgeo _ _ VFB) ltac:(intros c ->; apply NF) HM HF HU E1)
    as (Uh & Rh & Sh & C1 & C2 & C3).
  exists (fun h => obj (Uh h) (Rh h)), g', gf, gm. split; [|split].
  - intros h. exists (Uh h), (Rh h), (Sh h). split; [apply C1|reflexivity].
  - exact E3.
  - pose proof (C1 0%R) as C0. unfold elastic_forward in E0. rewrite E0 in C0. injection C0 as A1 A2 _.
    eapply derivable_eq; [|exact (Hobj Uh Rh _ _ (eq_sym A1) (eq_sym A2) C2 C3)].
    etransitivity; [exact E4|]. cbn [oadd R_ops]. f_equal. f_equal.
    unfold el_rdot. apply sumf_ext. intros t Ht. apply In_zrange in Ht.
    apply sumf_ext. intros c _. rewrite (dkrec_ep nt F dF t c HF Ht). reflexivity.
Qed.
End Elastic.
