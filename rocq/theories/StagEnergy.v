(** * Energy of the discrete acoustic and elastic wavefields without PML: conservation in any ring. *)
From Coq Require Import List ZArith QArith Ring Ring_theory Lia Bool Permutation.
From Verif Require Import Ops Sums Grid Stencil ScalarModel ScalarRefine ScalarAdjoint Stag StagAdj StagKernel StagCell StagRefine
  StagGrad AcousticModel AcousticThm ElasticModel ElasticThm StagEqs.
Import ListNotations.
Local Open Scope K_scope.

Local Arguments deriv : simpl never.
Local Arguments SD1 : simpl never.
Local Arguments SDH1 : simpl never.

(** A field restricted to the cells the propagator updates, zero elsewhere. *)
Definition cut {S : sys} {K : ops} (P : spar S K) (h : nat -> bool) (f : field K) : field K :=
  fun p => if dom S K P h p then f p else 0.
(** Inner product over the array. *)
Definition inner {S : sys} {K : ops} (P : spar S K) (f g : field K) : K := sumf (box_pts (abox (sp_shape P))) (fun p => f p * g p).

(** Energy of an acoustic state ([v] half a step before [p]): [wk], [wb] are the inverses of the bulk modulus and of the
    buoyancies.  [|p|^2/K + |v|^2/B - dt <v, grad p>], that is [|p|^2/K + <v, v_next>/B]. *)
Definition acoustic_energy (nd : nat) (K : ops) (P : spar (ac_sys nd) K) (dt : K) (wk : field K) (wb : nat -> field K)
    (s : sst (ac_sys nd) K) : K :=
  let p := cut P (fun _ => false) (mn s XP) in
  let v := fun d => cut P (Nat.eqb d) (mn s (XV d)) in
  inner P p (fun q => wk q * p q)
  + sumf (seq 0 nd) (fun d => inner P (v d) (fun q => wb d q * v d q))
  - dt * sumf (seq 0 nd) (fun d => inner P (v d) (deriv P true d p)).

Section Dot.
Variable S : sys.
Variable K : ops.
Hypothesis Kr : is_ring K.
Add Ring KRing : Kr.
Variable P : spar S K.
Notation L := (spts S K P).
Notation nd := (length (sp_shape P)).

Lemma inner_dot f g : inner P f g = dot L f g.
Proof. reflexivity. Qed.
Lemma cut_fsup h f : fsup S K P h (cut P h f).
Proof. intros p Hp. unfold cut. rewrite Hp. reflexivity. Qed.
Lemma cut_id h f p : fsup S K P h f -> cut P h f p = f p.
Proof. intros H. unfold cut. destruct (dom S K P h p) eqn:E; [reflexivity|]. symmetry. apply H, E. Qed.
Lemma inner_ext f f' g g' : (forall p, f p = f' p) -> (forall p, g p = g' p) -> inner P f g = inner P f' g'.
Proof. intros H1 H2. apply (sumf_ext K). intros p _. rewrite H1, H2. reflexivity. Qed.
Lemma deriv_ext b d (f g : field K) p : (forall q, f q = g q) -> deriv P b d f p = deriv P b d g p.
Proof. intros H. unfold deriv, SDH1, SD1. destruct b; [apply SDIFFH1_ext|apply SDIFF1_ext]; intros; apply H. Qed.
Lemma deriv_sbp b d f g : supp L f -> supp L g -> inner P f (deriv P b d g) = - inner P (deriv P (negb b) d f) g.
Proof.
  intros Hf Hg. rewrite !inner_dot. unfold deriv. destruct b; cbn [negb].
  - apply (SDH1_sbp K Kr); auto using NoDup_spts.
  - apply (SD1_sbp K Kr); auto using NoDup_spts.
Qed.
Lemma inner_comm f g : inner P f g = inner P g f.
Proof. apply (sumf_ext K). intros p _. ring. Qed.
Lemma inner_sum_r {A} (l : list A) f (g : A -> field K) : inner P f (fun p => sumf l (fun x => g x p)) = sumf l (fun x => inner P f (g x)).
Proof. rewrite inner_dot. apply (dot_sum_r S K Kr P). Qed.
(** The update [f' = f + dt c g] where [w c = 1], or [c = 0] and [f = 0], changes [<f, w f>] by [dt <f + f', g>]. *)
Lemma energy_update h (f f' g c w : field K) (dt : K) :
  fsup S K P h f -> fsup S K P h f' ->
  (forall p, dom S K P h p = true -> f' p = f p + dt * c p * g p) ->
  (forall p, dom S K P h p = true -> w p * c p = 1 \/ (c p = 0 /\ f p = 0)) ->
  inner P f' (fun p => w p * f' p) = inner P f (fun p => w p * f p) + dt * inner P f g + dt * inner P f' g.
Proof.
  intros H1 H2 Hu Hw. unfold inner. rewrite <- !(sumf_scal K Kr), <- !(sumf_add K Kr). apply (sumf_ext K). intros p _.
  destruct (dom S K P h p) eqn:E; [|rewrite (H1 p E), (H2 p E); ring].
  rewrite (Hu p E). destruct (Hw p E) as [H|[Hc Hf]]; [|rewrite Hc, Hf; ring].
  transitivity (f p * (w p * f p) + w p * c p * (dt * g p * f p + dt * g p * f p + dt * g p * (dt * c p * g p))); [ring|].
  rewrite H. ring.
Qed.
End Dot.

(** No PML: width zero on every side. *)
Definition no_layers (nd : nat) (pw : nat -> Z * Z) : Prop := forall d, (d < nd)%nat -> pw d = (0, 0)%Z.

Section NoPml.
Variable S : sys.
Variable K : ops.
Hypothesis Kr : is_ring K.
Add Ring KRing0 : Kr.
Variable P : spar S K.
Variable pw : nat -> Z * Z.
Hypothesis Hgeo : sgeom S K P pw.
Hypothesis HN : no_layers (length (sp_shape P)) pw.
Lemma no_prof h d p : (d < length (sp_shape P))%nat -> updated P h p -> sp_a P (h d) d (coord d p) = 0 /\ sp_b P (h d) d (coord d p) = 0.
Proof.
  intros Hd [_ Hp]. specialize (Hp d Hd). apply (sg_prof S K P pw Hgeo); [exact Hd|]. rewrite (HN d Hd). cbn [fst snd].
  destruct (h d); lia.
Qed.
End NoPml.

Section Ac.
Variable nd : nat.
Variable K : ops.
Hypothesis Kr : is_ring K.
Add Ring KRing1 : Kr.
Notation S := (ac_sys nd).
Variable P : spar S K.
Variable pw : nat -> Z * Z.
Hypothesis Hnd : length (sp_shape P) = nd.
Hypothesis Hsrc : locs_ok S K P (sp_src P).
Hypothesis Hrec : locs_ok S K P (sp_rec P).
Hypothesis Hgeo : sgeom S K P pw.
Hypothesis HN : no_layers nd pw.
Variable dt : K.
Variable kb : aM -> arr K.
Notation shape := (sp_shape P).
Notation I_ := (fun q => idx shape q).

Lemma ac_xh_V d p : dom S K P (xh S (XV d)) p = dom S K P (Nat.eqb d) p.
Proof. apply dom_ext. intros e _. cbn. apply Nat.eqb_sym. Qed.

(** The inverse of a modulus, or a field at rest where the modulus is zero. *)
Definition ac_cells (wk : field K) (wb : nat -> field K) (s : sst S K) : Prop :=
  (forall q, updated P (fun _ => false) q -> wk q * kb MK (I_ q) = 1 \/ (kb MK (I_ q) = 0 /\ mn s XP q = 0)) /\
  (forall d q, (d < nd)%nat -> updated P (Nat.eqb d) q -> wb d q * kb (MB d) (I_ q) = 1 \/ (kb (MB d) (I_ q) = 0 /\ mn s (XV d) q = 0)).

Section Step.
Variables W W' : sst S K.
Hypothesis Hs : ssup S K P W.
Hypothesis He : acoustic_eqs nd K P dt kb (fun _ _ => 0) W W'.

Lemma ac_step_v d p : (d < nd)%nat -> dom S K P (Nat.eqb d) p = true ->
  mn W' (XV d) p = mn W (XV d) p + (- dt) * kb (MB d) (I_ p) * deriv P true d (mn W XP) p.
Proof.
  intros Hd Hp. apply updated_dom in Hp. rewrite (ae_v _ _ _ _ _ _ _ _ He d p Hd Hp), (ae_psi _ _ _ _ _ _ _ _ He d p Hd Hp).
  pose proof (no_prof S K P pw Hgeo ltac:(rewrite Hnd; exact HN) (Nat.eqb d) d p ltac:(lia) Hp) as [Ha Hb].
  rewrite Nat.eqb_refl in Ha, Hb. rewrite Ha, Hb. ring.
Qed.
Lemma ac_step_p p : dom S K P (fun _ => false) p = true ->
  mn W' XP p = mn W XP p + (- dt) * kb MK (I_ p) * sumf (seq 0 nd) (fun d => deriv P false d (mn W' (XV d)) p).
Proof.
  intros Hp. apply updated_dom in Hp. rewrite (ae_p _ _ _ _ _ _ _ _ He p Hp).
  rewrite (sumf_ext K (seq 0 nd) _ (fun d => deriv P false d (mn W' (XV d)) p)); [ring|].
  intros d Hd. apply in_seq in Hd. rewrite (ae_phi _ _ _ _ _ _ _ _ He d p ltac:(lia) Hp).
  destruct (no_prof S K P pw Hgeo ltac:(rewrite Hnd; exact HN) (fun _ => false) d p ltac:(lia) Hp) as [Ha Hb].
  rewrite Ha, Hb. ring.
Qed.
Lemma ac_sup_p : fsup S K P (fun _ => false) (mn W XP).
Proof. apply (proj1 Hs XP). apply In_ac_allX. exact I. Qed.
Lemma ac_sup_v d : (d < nd)%nat -> fsup S K P (Nat.eqb d) (mn W (XV d)).
Proof. intros Hd p Hp. apply (proj1 Hs (XV d)); [apply In_ac_allX, Hd|]. rewrite ac_xh_V. exact Hp. Qed.
Lemma ac_sup_p' : fsup S K P (fun _ => false) (mn W' XP).
Proof. intros p Hp. apply (ae_out _ _ _ _ _ _ _ _ He p). intros X. apply updated_dom in X. congruence. Qed.
Lemma ac_sup_v' d : (d < nd)%nat -> fsup S K P (Nat.eqb d) (mn W' (XV d)).
Proof. intros Hd p Hp. apply (ae_out _ _ _ _ _ _ _ _ He p); [exact Hd|]. intros X. apply updated_dom in X. congruence. Qed.

Lemma ac_cells_step wk wb : ac_cells wk wb W -> ac_cells wk wb W'.
Proof.
  intros [H1 H2]. split.
  - intros q Hq. destruct (H1 q Hq) as [H|[Hc H]]; [left; exact H|right; split; [exact Hc|]].
    rewrite ac_step_p by (apply updated_dom, Hq). rewrite Hc, H. ring.
  - intros d q Hd Hq. destruct (H2 d q Hd Hq) as [H|[Hc H]]; [left; exact H|right; split; [exact Hc|]].
    rewrite ac_step_v by (apply updated_dom, Hq || exact Hd). rewrite Hc, H. ring.
Qed.

Lemma acoustic_energy_id (s : sst S K) wk wb : fsup S K P (fun _ => false) (mn s XP) -> (forall d, (d < nd)%nat -> fsup S K P (Nat.eqb d) (mn s (XV d))) ->
  acoustic_energy nd K P dt wk wb s =
  inner P (mn s XP) (fun q => wk q * mn s XP q)
  + sumf (seq 0 nd) (fun d => inner P (mn s (XV d)) (fun q => wb d q * mn s (XV d) q))
  - dt * sumf (seq 0 nd) (fun d => inner P (mn s (XV d)) (deriv P true d (mn s XP))).
Proof.
  intros H1 H2. unfold acoustic_energy. f_equal; [f_equal|f_equal].
  - apply inner_ext; intros p; rewrite cut_id by exact H1; reflexivity.
  - apply (sumf_ext K). intros d Hd. apply in_seq in Hd. apply inner_ext; intros p; rewrite cut_id by (apply H2; lia); reflexivity.
  - apply (sumf_ext K). intros d Hd. apply in_seq in Hd. apply inner_ext; intros p; [apply cut_id, H2; lia|].
    apply deriv_ext. intros q. apply cut_id, H1.
Qed.

Lemma acoustic_energy_step wk wb : ac_cells wk wb W -> acoustic_energy nd K P dt wk wb W' = acoustic_energy nd K P dt wk wb W.
Proof.
  intros [C1 C2].
  rewrite !acoustic_energy_id; [|exact ac_sup_p|exact ac_sup_v|exact ac_sup_p'|exact ac_sup_v'].
  rewrite (energy_update S K Kr P (fun _ => false) (mn W XP) (mn W' XP)
    (fun p => sumf (seq 0 nd) (fun d => deriv P false d (mn W' (XV d)) p)) (fun q => kb MK (I_ q)) wk (- dt)
    ac_sup_p ac_sup_p' ac_step_p) by (intros p Hp; apply C1, updated_dom, Hp).
  assert (EV : forall d, In d (seq 0 nd) -> inner P (mn W' (XV d)) (fun q => wb d q * mn W' (XV d) q)
     = inner P (mn W (XV d)) (fun q => wb d q * mn W (XV d) q)
       + (- dt) * inner P (mn W (XV d)) (deriv P true d (mn W XP)) + (- dt) * inner P (mn W' (XV d)) (deriv P true d (mn W XP))).
  { intros d Hd. apply in_seq in Hd.
    apply (energy_update S K Kr P (Nat.eqb d) (mn W (XV d)) (mn W' (XV d)) _ (fun q => kb (MB d) (I_ q)));
      [apply ac_sup_v; lia|apply ac_sup_v'; lia|intros p Hp; apply ac_step_v; [lia|exact Hp]|].
    intros p Hp. apply C2; [lia|]. apply updated_dom, Hp. }
  rewrite (sumf_ext K _ _ _ EV).
  assert (SB : forall s, fsup S K P (fun _ => false) s ->
    inner P s (fun p => sumf (seq 0 nd) (fun d => deriv P false d (mn W' (XV d)) p))
    = - sumf (seq 0 nd) (fun d => inner P (mn W' (XV d)) (deriv P true d s))).
  { intros s Hsup. rewrite (inner_sum_r S K Kr P), <- (sumf_opp K Kr). apply (sumf_ext K). intros d Hd. apply in_seq in Hd.
    rewrite (deriv_sbp S K Kr P). cbn [negb]. 2:{ apply (fsup_supp S K P (fun _ => false)), Hsup. }
    2:{ apply (fsup_supp S K P (Nat.eqb d)), ac_sup_v'. lia. }
    rewrite (inner_comm S K Kr P). reflexivity. }
  rewrite !SB by (apply ac_sup_p || apply ac_sup_p').
  rewrite !(sumf_add K Kr), !(sumf_scal K Kr). ring.
Qed.
End Step.

(** The states of a run. *)
Lemma acoustic_trace f u nt sr visA visB kg bg cb store U R st :
  ac_fvis nd K P pw true visA -> ac_fvis nd K P pw false visB -> nt_ok nt sr cb ->
  acoustic_forward nd K P pw dt kb visA visB kg bg sr f nt cb store u = Some (U, R, st) ->
  exists W, sseq S K U (W (nsteps nt sr)) /\ W 0%Z = sinit S K P pw u /\
    (forall t, (0 <= t)%Z -> ssup S K P (W t)) /\
    (forall t, (0 <= t)%Z -> acoustic_eqs nd K P dt kb (fun c => amp_at P (sp_src P c) (f t c)) (W t) (W (t + 1)%Z)).
Proof.
  intros VA VB Hnt E.
  assert (Sok : sys_ok S (length (sp_shape P))) by (rewrite Hnd; apply ac_sys_ok).
  assert (Hk : kern_ok S (ac_kern nd) (length (sp_shape P))) by (rewrite Hnd; apply ac_kern_ok).
  destruct (k_fwd_spec S (ac_kern nd) K Kr P (ac_num nd K dt kb) (ac_kc dt kb) pw Sok Hk (ac_num_ok nd K Kr dt kb) Hsrc Hrec Hgeo
     visA visB (ac_flag kg bg) sr f nt cb store u VA VB Hnt) as (u' & r' & st' & E' & A1 & _).
  unfold acoustic_forward in E. rewrite E' in E. injection E as <- _ _.
  set (W := Fst S K P (ac_kc dt kb) f (sinit S K P pw u)) in *.
  assert (HW : forall t, (0 <= t)%Z -> W (t + 1)%Z = sstep S K P (ccoe S K P (ac_kc dt kb)) (f t) (W t)) by (intros t Ht; apply Fst_S, Ht).
  assert (Hsup : forall t, (0 <= t)%Z -> ssup S K P (W t)).
  { intros t Ht. rewrite <- (Z2Nat.id t Ht). induction (Z.to_nat t) as [|n IH].
    - apply ssup_sinit.
    - replace (Z.of_nat (Datatypes.S n)) with (Z.of_nat n + 1)%Z by lia. rewrite HW by lia. unfold sstep.
      apply (ssup_hstep S K Kr P Hsrc), (ssup_hstep S K Kr P Hsrc), IH. }
  exists W. split; [exact A1|]. split; [reflexivity|]. split; [exact Hsup|].
  intros t Ht. rewrite HW by lia. apply (acoustic_step_eqs nd K Kr P Hsrc). rewrite <- HW by lia. apply Hsup. lia.
Qed.

Lemma amp_zero locs amps p : Forall (fun x => x = 0) amps -> amp_at P locs amps p = 0.
Proof.
  intros H. unfold amp_at. apply (sumf_zero K Kr). intros [l a] Hin. apply in_combine_r in Hin. cbn [fst snd].
  rewrite Forall_forall in H. rewrite (H a Hin). destruct (l =? _)%Z; reflexivity.
Qed.
Lemma acoustic_eqs_src src src' W W' : (forall c p, src c p = src' c p) ->
  acoustic_eqs nd K P dt kb src W W' -> acoustic_eqs nd K P dt kb src' W W'.
Proof.
  intros H [E1 E2 E3 E4 E5]. split; auto.
  - intros d p Hd Hp. rewrite E2 by assumption. rewrite H. reflexivity.
  - intros p Hp. rewrite E4 by assumption. rewrite H. reflexivity.
Qed.

Lemma acoustic_energy_ext wk wb s s' : sseq S K s s' -> acoustic_energy nd K P dt wk wb s = acoustic_energy nd K P dt wk wb s'.
Proof.
  intros [H _]. unfold acoustic_energy.
  assert (HP : forall p, cut P (fun _ => false) (mn s XP) p = cut P (fun _ => false) (mn s' XP) p).
  { intros p. unfold cut. rewrite (H XP p) by (apply In_ac_allX; exact I). reflexivity. }
  assert (HV : forall d p, (d < nd)%nat -> cut P (Nat.eqb d) (mn s (XV d)) p = cut P (Nat.eqb d) (mn s' (XV d)) p).
  { intros d p Hd. unfold cut. rewrite (H (XV d) p) by (apply In_ac_allX; exact Hd). reflexivity. }
  f_equal; [f_equal|f_equal].
  - apply inner_ext; intros p; rewrite HP; reflexivity.
  - apply (sumf_ext K). intros d Hd. apply in_seq in Hd. apply inner_ext; intros p; rewrite HV by lia; reflexivity.
  - apply (sumf_ext K). intros d Hd. apply in_seq in Hd. apply inner_ext; intros p; [apply HV; lia|apply deriv_ext, HP].
Qed.
Lemma acoustic_energy_sinit wk wb u : acoustic_energy nd K P dt wk wb (sinit S K P pw u) = acoustic_energy nd K P dt wk wb u.
Proof.
  unfold acoustic_energy. cbn [mn sinit].
  assert (HP : forall p, cut P (fun _ => false) (fun p => if dom S K P (xh S XP) p then mn u XP p else 0) p = cut P (fun _ => false) (mn u XP) p).
  { intros p. unfold cut. change (xh S XP) with (fun _ : nat => false). destruct (dom S K P _ p); reflexivity. }
  assert (HV : forall d p, cut P (Nat.eqb d) (fun p => if dom S K P (xh S (XV d)) p then mn u (XV d) p else 0) p = cut P (Nat.eqb d) (mn u (XV d)) p).
  { intros d p. unfold cut. rewrite ac_xh_V. destruct (dom S K P _ p); reflexivity. }
  f_equal; [f_equal|f_equal].
  - apply inner_ext; intros p; rewrite HP; reflexivity.
  - apply (sumf_ext K). intros d Hd. apply inner_ext; intros p; rewrite HV; reflexivity.
  - apply (sumf_ext K). intros d Hd. apply inner_ext; intros p; [apply HV|apply deriv_ext, HP].
Qed.

(** Conservation over a run without sources. *)
Lemma acoustic_conserved wk wb f u nt sr visA visB kg bg cb store U R st :
  ac_fvis nd K P pw true visA -> ac_fvis nd K P pw false visB -> nt_ok nt sr cb ->
  (forall t c, (0 <= t)%Z -> Forall (fun x => x = 0) (f t c)) ->
  ac_cells wk wb u ->
  acoustic_forward nd K P pw dt kb visA visB kg bg sr f nt cb store u = Some (U, R, st) ->
  acoustic_energy nd K P dt wk wb U = acoustic_energy nd K P dt wk wb u /\ ac_cells wk wb U.
Proof.
  intros VA VB Hnt Hf Hc E. destruct (acoustic_trace f u nt sr visA visB kg bg cb store U R st VA VB Hnt E) as (W & A & W0 & Hsup & He).
  assert (Hn : (0 <= nsteps nt sr)%Z) by (unfold nsteps; destruct Hnt as (? & ? & _); apply Z.mul_nonneg_nonneg; [apply Z.div_pos|]; lia).
  assert (C0 : ac_cells wk wb (W 0%Z)).
  { rewrite W0. destruct Hc as [C1 C2]. split.
    - intros q Hq. cbn [mn sinit]. destruct (C1 q Hq) as [H|[Hc H]]; [left; exact H|right; split; [exact Hc|]].
      rewrite H. destruct (dom S K P (xh S XP) q); reflexivity.
    - intros d q Hd Hq. cbn [mn sinit]. destruct (C2 d q Hd Hq) as [H|[Hc H]]; [left; exact H|right; split; [exact Hc|]].
      rewrite H. destruct (dom S K P (xh S (XV d)) q); reflexivity. }
  assert (X : forall n : nat, acoustic_energy nd K P dt wk wb (W (Z.of_nat n)) = acoustic_energy nd K P dt wk wb u /\ ac_cells wk wb (W (Z.of_nat n))).
  { induction n as [|n [IH1 IH2]].
    - change (Z.of_nat 0) with 0%Z. split; [|exact C0]. rewrite W0. apply acoustic_energy_sinit.
    - replace (Z.of_nat (Datatypes.S n)) with (Z.of_nat n + 1)%Z by lia.
      assert (He' : acoustic_eqs nd K P dt kb (fun _ _ => 0) (W (Z.of_nat n)) (W (Z.of_nat n + 1)%Z)).
      { eapply acoustic_eqs_src; [|apply He; lia]. intros c p. apply amp_zero, Hf. lia. }
      split.
      + rewrite (acoustic_energy_step _ _ (Hsup (Z.of_nat n) ltac:(lia)) He' wk wb IH2). exact IH1.
      + exact (ac_cells_step _ _ He' wk wb IH2). }
  specialize (X (Z.to_nat (nsteps nt sr))). rewrite Z2Nat.id in X by exact Hn. destruct X as [X1 X2]. split.
  - rewrite (acoustic_energy_ext wk wb U _ A). exact X1.
  - destruct A as [A _]. destruct X2 as [Y1 Y2]. split.
    + intros q Hq. rewrite (A XP q) by (apply In_ac_allX; exact I). apply Y1, Hq.
    + intros d q Hd Hq. rewrite (A (XV d) q) by (apply In_ac_allX; exact Hd). apply Y2; assumption.
Qed.
End Ac.

(** Strains of an elastic state: fields [en i], [es i j] ([i < j]) whose stresses are those of the state,
    [sigma_ii = lambda sum_l en_l + 2 mu en_i], [sigma_ij = mu_ij es_ij].  Where the moduli are invertible they are
    determined by the state; zero stress has strain zero whatever the moduli. *)
Definition strain_of (nd : nat) (K : ops) (P : spar (el_sys nd) K) (md : eM -> arr K) (s : sst (el_sys nd) K)
    (en : nat -> field K) (es : nat -> nat -> field K) : Prop :=
  (forall i q, (i < nd)%nat -> updated P (fun _ => false) q ->
     mn s (Sg i i) q = md ML (idx (sp_shape P) q) * sumf (seq 0 nd) (fun l => en l q) + two * md MMU (idx (sp_shape P) q) * en i q) /\
  (forall i j q, (i < j < nd)%nat -> updated P (on_s i j) q -> mn s (Sg i j) q = md (MS i j) (idx (sp_shape P) q) * es i j q).

(** Stress restricted to the updated cells. *)
Definition cut_stress {nd : nat} {K : ops} (P : spar (el_sys nd) K) (s : sst (el_sys nd) K) (i j : nat) : field K :=
  if (i <=? j)%nat then cut P (on_s i j) (mn s (Sg i j)) else cut P (on_s j i) (mn s (Sg j i)).

(** Energy of an elastic state ([v] half a step before the stresses); [wb]: densities (inverses of the buoyancies);
    [|v|^2/B + <strain, stress> + dt <v, div stress>], that is [<v, v_next>/B + <strain, stress>]. *)
Definition elastic_energy (nd : nat) (K : ops) (P : spar (el_sys nd) K) (dt : K) (wb : nat -> field K) (s : sst (el_sys nd) K)
    (en : nat -> field K) (es : nat -> nat -> field K) : K :=
  let v := fun i => cut P (on_v i) (mn s (VL i)) in
  let T := cut_stress P s in
  sumf (seq 0 nd) (fun i => inner P (v i) (fun q => wb i q * v i q))
  + (sumf (seq 0 nd) (fun i => inner P (en i) (T i i))
     + sumf (pairs nd) (fun ij => inner P (es (fst ij) (snd ij)) (T (fst ij) (snd ij))))
  + dt * sumf (seq 0 nd) (fun i => sumf (seq 0 nd) (fun j => inner P (v i) (deriv P (Nat.eqb i j) j (T i j)))).

Lemma sum_all_pairs (K : ops) (Kr : is_ring K) nd (f : nat -> nat -> K) :
  sumf (seq 0 nd) (fun i => sumf (seq 0 nd) (f i))
  = sumf (seq 0 nd) (fun i => f i i) + sumf (pairs nd) (fun ij => f (fst ij) (snd ij) + f (snd ij) (fst ij)).
Proof.
  assert (F : forall (l m : list nat), sumf l (fun i => sumf m (f i)) = sumf (flat_map (fun i => map (fun j => (i, j)) m) l) (fun ij => f (fst ij) (snd ij))).
  { intros l m. induction l as [|i l IH]; [reflexivity|]. cbn [flat_map sumf]. rewrite (sumf_app K Kr), (sumf_map K), IH. reflexivity. }
  rewrite F, (sumf_add K Kr).
  replace (sumf (seq 0 nd) (fun i => f i i)) with (sumf (map (fun i => (i, i)) (seq 0 nd)) (fun ij => f (fst ij) (snd ij)))
    by (rewrite (sumf_map K); reflexivity).
  replace (sumf (pairs nd) (fun ij => f (snd ij) (fst ij)))
    with (sumf (map (fun ij : nat * nat => (snd ij, fst ij)) (pairs nd)) (fun ij => f (fst ij) (snd ij))) by (rewrite (sumf_map K); reflexivity).
  rewrite <- !(sumf_app K Kr). apply (sumf_perm K Kr). apply NoDup_Permutation.
  - apply NoDup_flat_map_i; [apply seq_NoDup|intros i _; apply NoDup_map_i; [congruence|apply seq_NoDup]|].
    intros i j x _ _ H1 H2. apply in_map_iff in H1, H2. destruct H1 as (a & <- & _), H2 as (b & E & _). congruence.
  - apply NoDup_app; [apply NoDup_map_i; [congruence|apply seq_NoDup]| |].
    + apply NoDup_app; [apply NoDup_pairs|apply NoDup_map_i; [|apply NoDup_pairs]|].
      * intros [a b] [c d] E. cbn in E. congruence.
      * intros [a b] H1 H2. apply In_pairs in H1. apply in_map_iff in H2. destruct H2 as ([c d] & E & H2). apply In_pairs in H2.
        cbn in E. injection E as -> ->. lia.
    + intros [a b] H1 H2. apply in_map_iff in H1. destruct H1 as (c & E & _). injection E as -> ->. apply in_app_iff in H2.
      destruct H2 as [H2|H2]; [apply In_pairs in H2; lia|]. apply in_map_iff in H2. destruct H2 as ([c d] & E & H2). apply In_pairs in H2.
      cbn in E. injection E as -> ->. lia.
  - intros [a b]. rewrite in_flat_map, !in_app_iff, !in_map_iff. split.
    + intros (i & Hi & H). apply in_seq in Hi. apply in_map_iff in H. destruct H as (j & E & Hj). injection E as -> ->. apply in_seq in Hj.
      destruct (lt_eq_lt_dec a b) as [[H|H]|H].
      * right. left. apply In_pairs. lia.
      * subst b. left. exists a. split; [reflexivity|apply in_seq; lia].
      * right. right. exists (b, a). split; [reflexivity|apply In_pairs; lia].
    + intros [(i & E & H)|[H|([c d] & E & H)]].
      * injection E as -> ->. apply in_seq in H. exists b. split; [apply in_seq; lia|]. apply in_map_iff; eexists; split; [reflexivity|apply in_seq; lia].
      * apply In_pairs in H. exists a. split; [apply in_seq; lia|]. apply in_map_iff; eexists; split; [reflexivity|apply in_seq; lia].
      * apply In_pairs in H. cbn in E. injection E as -> ->. exists a. split; [apply in_seq; lia|]. apply in_map_iff; eexists; split; [reflexivity|apply in_seq; lia].
Qed.

Section El.
Variable nd : nat.
Variable K : ops.
Hypothesis Kr : is_ring K.
Add Ring KRing2 : Kr.
Notation S := (el_sys nd).
Variable P : spar S K.
Variable pw : nat -> Z * Z.
Hypothesis Hnd : length (sp_shape P) = nd.
Hypothesis Hpos : (0 < nd)%nat.
Hypothesis Hsrc : locs_ok S K P (sp_src P).
Hypothesis Hrec : locs_ok S K P (sp_rec P).
Hypothesis Hgeo : sgeom S K P pw.
Hypothesis HN : no_layers nd pw.
Variable dt : K.
Variable md : eM -> arr K.
Notation shape := (sp_shape P).
Notation I_ := (fun q => idx shape q).

Definition el_cells (wb : nat -> field K) (s : sst S K) : Prop :=
  forall i q, (i < nd)%nat -> updated P (on_v i) q ->
    wb i q * md (EB i) (I_ q) = 1 \/ (md (EB i) (I_ q) = 0 /\ mn s (VL i) q = 0).

Lemma on_s_diag i p : updated P (on_s i i) p <-> updated P (fun _ => false) p.
Proof. apply updated_ext. intros d _. unfold on_s. rewrite Nat.eqb_refl. reflexivity. Qed.

Section Step.
Variables W W' : sst S K.
Hypothesis Hs : ssup S K P W.
Hypothesis He : elastic_eqs nd K P dt md (fun _ _ => 0) W W'.
Let HN' : no_layers (length shape) pw. Proof. rewrite Hnd. exact HN. Qed.

Lemma el_sup_v i : (i < nd)%nat -> fsup S K P (on_v i) (mn W (VL i)).
Proof.
  intros Hi p Hp. apply (proj1 Hs (VL i)); [apply In_el_allX, Hi|].
  destruct (dom S K P (xh S (VL i)) p) eqn:E; [|reflexivity]. apply (UV nd K P), updated_dom in E. congruence.
Qed.
Lemma el_sup_s i j : (i <= j < nd)%nat -> fsup S K P (on_s i j) (mn W (Sg i j)).
Proof. intros Hi p Hp. apply (proj1 Hs (Sg i j)); [apply In_el_allX, Hi|]. exact Hp. Qed.
Lemma el_sup_v' i : (i < nd)%nat -> fsup S K P (on_v i) (mn W' (VL i)).
Proof. intros Hi p Hp. apply (ee_out _ _ _ _ _ _ _ _ He p); [exact Hi|]. intros X. apply updated_dom in X. congruence. Qed.
Lemma el_sup_s' i j : (i <= j < nd)%nat -> fsup S K P (on_s i j) (mn W' (Sg i j)).
Proof. intros Hi p Hp. apply (ee_out _ _ _ _ _ _ _ _ He p); [exact Hi|]. intros X. apply updated_dom in X. congruence. Qed.

Lemma el_step_v i p : (i < nd)%nat -> dom S K P (on_v i) p = true ->
  mn W' (VL i) p = mn W (VL i) p + dt * md (EB i) (I_ p) * sumf (seq 0 nd) (fun j => deriv P (Nat.eqb i j) j (stress W i j) p).
Proof.
  intros Hi Hp. apply updated_dom in Hp. rewrite (ee_v _ _ _ _ _ _ _ _ He i p Hi Hp).
  rewrite (sumf_ext K (seq 0 nd) _ (fun j => deriv P (Nat.eqb i j) j (stress W i j) p)); [ring|].
  intros j Hj. apply in_seq in Hj. rewrite (ee_mv _ _ _ _ _ _ _ _ He i j p Hi ltac:(lia) Hp).
  destruct (no_prof S K P pw Hgeo HN' (on_v i) j p ltac:(lia) Hp) as [Ha Hb].
  unfold on_v in Ha, Hb. rewrite Ha, Hb. ring.
Qed.
Definition d_en (i : nat) : field K := fun p => deriv P false i (mn W' (VL i)) p.
Definition d_es (i j : nat) : field K := fun p => deriv P true j (mn W' (VL i)) p + deriv P true i (mn W' (VL j)) p.
Lemma el_mem i j p : (i < nd)%nat -> (j < nd)%nat -> updated P (on_s i j) p -> me W' (DV i j) p = 0.
Proof.
  intros Hi Hj Hp. rewrite (ee_ms _ _ _ _ _ _ _ _ He i j p Hi Hj Hp).
  destruct (no_prof S K P pw Hgeo HN' (on_s i j) j p ltac:(lia) Hp) as [Ha Hb].
  unfold on_s in Ha, Hb. rewrite Nat.eqb_refl, orb_true_r, andb_true_r in Ha, Hb. rewrite Ha, Hb. ring.
Qed.
Lemma on_s_sym i j p : updated P (on_s i j) p <-> updated P (on_s j i) p.
Proof. apply updated_ext. intros d _. unfold on_s. rewrite (Nat.eqb_sym i j), (orb_comm (d =? i)%nat). reflexivity. Qed.
Lemma el_step_n i p : (i < nd)%nat -> updated P (fun _ => false) p ->
  mn W' (Sg i i) p = mn W (Sg i i) p + dt * (md ML (I_ p) * sumf (seq 0 nd) (fun l => d_en l p) + two * md MMU (I_ p) * d_en i p).
Proof.
  intros Hi Hp. pose proof (ee_n _ _ _ _ _ _ _ _ He i p Hi Hp) as E. cbv zeta in E. rewrite E. unfold d_en.
  rewrite (sumf_ext K (seq 0 nd) _ (fun l => deriv P false l (mn W' (VL l)) p)).
  - rewrite el_mem by (exact Hi || apply on_s_diag, Hp). ring.
  - intros l Hl. apply in_seq in Hl. rewrite el_mem by (lia || apply on_s_diag, Hp). ring.
Qed.
Lemma el_step_s i j p : (i < j < nd)%nat -> updated P (on_s i j) p ->
  mn W' (Sg i j) p = mn W (Sg i j) p + dt * md (MS i j) (I_ p) * d_es i j p.
Proof.
  intros Hi Hp. rewrite (ee_s _ _ _ _ _ _ _ _ He i j p Hi Hp). unfold d_es.
  rewrite (el_mem i j), (el_mem j i) by (lia || apply on_s_sym, Hp || exact Hp). ring.
Qed.

Lemma el_cells_step wb : el_cells wb W -> el_cells wb W'.
Proof.
  intros H1 i q Hi Hq. destruct (H1 i q Hi Hq) as [H|[Hc H]]; [left; exact H|right; split; [exact Hc|]].
  rewrite el_step_v by (apply updated_dom, Hq || exact Hi). rewrite Hc, H. ring.
Qed.
Lemma strain_step en es : strain_of nd K P md W en es ->
  strain_of nd K P md W' (fun i p => en i p + dt * d_en i p) (fun i j p => es i j p + dt * d_es i j p).
Proof.
  intros [H1 H2]. split.
  - intros i q Hi Hq. rewrite el_step_n by assumption. rewrite (H1 i q Hi Hq), (sumf_add K Kr), (sumf_scal K Kr). ring.
  - intros i j q Hi Hq. rewrite el_step_s by assumption. rewrite (H2 i j q Hi Hq). ring.
Qed.

Lemma cut_stress_id (s : sst S K) i j p : (i < nd)%nat -> (j < nd)%nat -> (forall i j, (i <= j < nd)%nat -> fsup S K P (on_s i j) (mn s (Sg i j))) ->
  cut_stress P s i j p = stress s i j p.
Proof. intros Hi Hj H. unfold cut_stress, stress. destruct (Nat.leb_spec i j); apply cut_id, H; lia. Qed.

Lemma elastic_energy_id (s : sst S K) wb en es : (forall i, (i < nd)%nat -> fsup S K P (on_v i) (mn s (VL i))) ->
  (forall i j, (i <= j < nd)%nat -> fsup S K P (on_s i j) (mn s (Sg i j))) ->
  elastic_energy nd K P dt wb s en es =
  sumf (seq 0 nd) (fun i => inner P (mn s (VL i)) (fun q => wb i q * mn s (VL i) q))
  + (sumf (seq 0 nd) (fun i => inner P (en i) (stress s i i))
     + sumf (pairs nd) (fun ij => inner P (es (fst ij) (snd ij)) (stress s (fst ij) (snd ij))))
  + dt * sumf (seq 0 nd) (fun i => sumf (seq 0 nd) (fun j => inner P (mn s (VL i)) (deriv P (Nat.eqb i j) j (stress s i j)))).
Proof.
  intros H1 H2. unfold elastic_energy. f_equal; [f_equal; [|f_equal]|f_equal].
  - apply (sumf_ext K). intros i Hi. apply in_seq in Hi. apply inner_ext; intros p; rewrite cut_id by (apply H1; lia); reflexivity.
  - apply (sumf_ext K). intros i Hi. apply in_seq in Hi. apply inner_ext; intros p; [reflexivity|]. apply cut_stress_id; (lia || exact H2).
  - apply (sumf_ext K). intros [i j] Hi. apply In_pairs in Hi. cbn [fst snd]. apply inner_ext; intros p; [reflexivity|].
    apply cut_stress_id; (lia || exact H2).
  - apply (sumf_ext K). intros i Hi. apply (sumf_ext K). intros j Hj. apply in_seq in Hi, Hj. apply inner_ext; intros p; [apply cut_id, H1; lia|].
    apply deriv_ext. intros q. apply cut_stress_id; (lia || exact H2).
Qed.

(** The work done by the stress [T] on the new velocities. *)
Lemma work (s : sst S K) : (forall i j, (i <= j < nd)%nat -> fsup S K P (on_s i j) (mn s (Sg i j))) ->
  sumf (seq 0 nd) (fun i => inner P (d_en i) (stress s i i)) + sumf (pairs nd) (fun ij => inner P (d_es (fst ij) (snd ij)) (stress s (fst ij) (snd ij)))
  = - sumf (seq 0 nd) (fun i => sumf (seq 0 nd) (fun j => inner P (mn W' (VL i)) (deriv P (Nat.eqb i j) j (stress s i j)))).
Proof.
  intros H2.
  assert (SP : forall i j, (i < nd)%nat -> (j < nd)%nat -> supp (spts S K P) (stress s i j)).
  { intros i j Hi Hj. unfold stress. destruct (Nat.leb_spec i j); [apply (fsup_supp S K P (on_s i j)), H2|apply (fsup_supp S K P (on_s j i)), H2]; lia. }
  assert (SB : forall i j, (i < nd)%nat -> (j < nd)%nat -> inner P (mn W' (VL i)) (deriv P (Nat.eqb i j) j (stress s i j))
     = - inner P (deriv P (negb (Nat.eqb i j)) j (mn W' (VL i))) (stress s i j)).
  { intros i j Hi Hj. apply (deriv_sbp S K Kr P); [|apply SP; assumption]. apply (fsup_supp S K P (on_v i)), el_sup_v', Hi. }
  rewrite (sum_all_pairs K Kr).
  rewrite (sumf_ext K (seq 0 nd) (fun i => inner P (mn W' (VL i)) _) (fun i => - inner P (d_en i) (stress s i i))).
  2:{ intros i Hi. apply in_seq in Hi. rewrite SB by lia. rewrite Nat.eqb_refl. reflexivity. }
  rewrite (sumf_ext K (pairs nd) (fun ij => inner P (mn W' (VL (fst ij))) _ + _) (fun ij => - inner P (d_es (fst ij) (snd ij)) (stress s (fst ij) (snd ij)))).
  2:{ intros [i j] Hi. apply In_pairs in Hi. cbn [fst snd]. rewrite !SB by lia. destruct (Nat.eqb_spec i j); [lia|]. destruct (Nat.eqb_spec j i); [lia|].
      cbn [negb]. unfold d_es, inner. rewrite <- !(sumf_opp K Kr), <- (sumf_add K Kr). apply (sumf_ext K). intros p _.
      assert (E : stress s j i = stress s i j).
      { unfold stress. destruct (Nat.leb_spec j i), (Nat.leb_spec i j); try lia; reflexivity. }
      rewrite E. ring. }
  rewrite !(sumf_opp K Kr). ring.
Qed.

Lemma elastic_energy_step wb en es : el_cells wb W -> strain_of nd K P md W en es ->
  elastic_energy nd K P dt wb W' (fun i p => en i p + dt * d_en i p) (fun i j p => es i j p + dt * d_es i j p) = elastic_energy nd K P dt wb W en es.
Proof.
  intros C HS. pose proof (strain_step en es HS) as HS'.
  rewrite !elastic_energy_id; [|exact el_sup_v|exact el_sup_s|exact el_sup_v'|exact el_sup_s'].
  assert (EV : forall i, In i (seq 0 nd) -> inner P (mn W' (VL i)) (fun q => wb i q * mn W' (VL i) q)
     = inner P (mn W (VL i)) (fun q => wb i q * mn W (VL i) q)
       + dt * sumf (seq 0 nd) (fun j => inner P (mn W (VL i)) (deriv P (Nat.eqb i j) j (stress W i j)))
       + dt * sumf (seq 0 nd) (fun j => inner P (mn W' (VL i)) (deriv P (Nat.eqb i j) j (stress W i j)))).
  { intros i Hi. apply in_seq in Hi. rewrite <- !(inner_sum_r S K Kr P).
    apply (energy_update S K Kr P (on_v i) (mn W (VL i)) (mn W' (VL i)) _ (fun q => md (EB i) (I_ q)));
      [apply el_sup_v; lia|apply el_sup_v'; lia|intros p Hp; apply el_step_v; [lia|exact Hp]|].
    intros p Hp. apply C; [lia|]. apply updated_dom, Hp. }
  rewrite (sumf_ext K _ _ _ EV). rewrite !(sumf_add K Kr), !(sumf_scal K Kr).
  pose proof (work W el_sup_s) as W1. pose proof (work W' el_sup_s') as W2.
  (* <strain', stress'> - <strain, stress> = dt <d strain, stress + stress'>, by the symmetry of the moduli *)
  assert (EN : sumf (seq 0 nd) (fun i => inner P (fun p => en i p + dt * d_en i p) (stress W' i i))
     = sumf (seq 0 nd) (fun i => inner P (en i) (stress W i i)) + dt * sumf (seq 0 nd) (fun i => inner P (d_en i) (stress W i i))
       + dt * sumf (seq 0 nd) (fun i => inner P (d_en i) (stress W' i i))).
  { unfold inner. rewrite !(sumf_swap K Kr (seq 0 nd)). rewrite <- !(sumf_scal K Kr), <- !(sumf_add K Kr). apply (sumf_ext K). intros p _.
    destruct (dom S K P (fun _ => false) p) eqn:E.
    - apply updated_dom in E. destruct HS as [H1 _].
      assert (A : forall i, stress W i i p = mn W (Sg i i) p) by (intros i; unfold stress; rewrite Nat.leb_refl; reflexivity).
      assert (A' : forall i, stress W' i i p = mn W' (Sg i i) p) by (intros i; unfold stress; rewrite Nat.leb_refl; reflexivity).
      set (la := md ML (I_ p)) in *. set (mu := md MMU (I_ p)) in *.
      set (Se := sumf (seq 0 nd) (fun l => en l p)). set (Sd := sumf (seq 0 nd) (fun l => d_en l p)).
      rewrite (sumf_ext K (seq 0 nd) (fun i => (en i p + dt * d_en i p) * stress W' i i p)
        (fun i => en i p * stress W i i p + dt * (la * Sd * en i p) + dt * (two * mu * (en i p * d_en i p)) + dt * (d_en i p * stress W' i i p))).
      2:{ intros i Hi. apply in_seq in Hi. rewrite A, A'. rewrite (el_step_n i p) by (lia || exact E). fold la mu Sd. ring. }
      rewrite (sumf_ext K (seq 0 nd) (fun i => d_en i p * stress W i i p) (fun i => la * Se * d_en i p + two * mu * (en i p * d_en i p))).
      2:{ intros i Hi. apply in_seq in Hi. rewrite A, (H1 i p) by (lia || exact E). fold la mu Se. ring. }
      rewrite !(sumf_add K Kr), !(sumf_scal K Kr).
      fold Se Sd. ring.
    - assert (Z : forall i, In i (seq 0 nd) -> stress W i i p = 0 /\ stress W' i i p = 0).
      { intros i Hi. apply in_seq in Hi. unfold stress. rewrite Nat.leb_refl.
        assert (E' : dom S K P (on_s i i) p = false).
        { destruct (dom S K P (on_s i i) p) eqn:E'; [|reflexivity]. apply updated_dom, on_s_diag, updated_dom in E'. congruence. }
        split; [apply (el_sup_s i i)|apply (el_sup_s' i i)]; (lia || exact E'). }
      rewrite !(sumf_zero K Kr (seq 0 nd)); [ring| | | |]; intros i Hi; destruct (Z i Hi) as [Z1 Z2]; rewrite ?Z1, ?Z2; ring. }
  assert (ES : sumf (pairs nd) (fun ij => inner P (fun p => es (fst ij) (snd ij) p + dt * d_es (fst ij) (snd ij) p) (stress W' (fst ij) (snd ij)))
     = sumf (pairs nd) (fun ij => inner P (es (fst ij) (snd ij)) (stress W (fst ij) (snd ij)))
       + dt * sumf (pairs nd) (fun ij => inner P (d_es (fst ij) (snd ij)) (stress W (fst ij) (snd ij)))
       + dt * sumf (pairs nd) (fun ij => inner P (d_es (fst ij) (snd ij)) (stress W' (fst ij) (snd ij)))).
  { rewrite <- !(sumf_scal K Kr), <- !(sumf_add K Kr). apply (sumf_ext K). intros [i j] Hi. apply In_pairs in Hi. cbn [fst snd].
    unfold inner. rewrite <- !(sumf_scal K Kr), <- !(sumf_add K Kr). apply (sumf_ext K). intros p _.
    assert (A : stress W i j p = mn W (Sg i j) p) by (unfold stress; destruct (Nat.leb_spec i j); [reflexivity|lia]).
    assert (A' : stress W' i j p = mn W' (Sg i j) p) by (unfold stress; destruct (Nat.leb_spec i j); [reflexivity|lia]).
    rewrite A, A'. destruct (dom S K P (on_s i j) p) eqn:E.
    - apply updated_dom in E. destruct HS as [_ H2]. rewrite (el_step_s i j p Hi E), (H2 i j p Hi E). ring.
    - rewrite (el_sup_s i j ltac:(lia) p E), (el_sup_s' i j ltac:(lia) p E). ring. }
  rewrite EN, ES.
  set (a1 := sumf (seq 0 nd) (fun i => inner P (d_en i) (stress W i i))) in *.
  set (a2 := sumf (pairs nd) (fun ij => inner P (d_es (fst ij) (snd ij)) (stress W (fst ij) (snd ij)))) in *.
  set (b1 := sumf (seq 0 nd) (fun i => inner P (d_en i) (stress W' i i))) in *.
  set (b2 := sumf (pairs nd) (fun ij => inner P (d_es (fst ij) (snd ij)) (stress W' (fst ij) (snd ij)))) in *.
  set (x := sumf (seq 0 nd) (fun i => sumf (seq 0 nd) (fun j => inner P (mn W' (VL i)) (deriv P (Nat.eqb i j) j (stress W i j))))) in *.
  set (y := sumf (seq 0 nd) (fun i => sumf (seq 0 nd) (fun j => inner P (mn W' (VL i)) (deriv P (Nat.eqb i j) j (stress W' i j))))) in *.
  assert (X : x = - (a1 + a2)) by (rewrite W1; ring). assert (Y : y = - (b1 + b2)) by (rewrite W2; ring).
  rewrite X, Y. ring.
Qed.
End Step.

Lemma elastic_trace f u nt sr visA visB lg mg bg cb store U R st :
  el_fvis nd K P pw true visA -> el_fvis nd K P pw false visB -> nt_ok nt sr cb ->
  elastic_forward nd K P pw dt md visA visB lg mg bg sr f nt cb store u = Some (U, R, st) ->
  exists W, sseq S K U (W (nsteps nt sr)) /\ W 0%Z = sinit S K P pw u /\
    (forall t, (0 <= t)%Z -> ssup S K P (W t)) /\
    (forall t, (0 <= t)%Z -> elastic_eqs nd K P dt md (fun c => amp_at P (sp_src P c) (f t c)) (W t) (W (t + 1)%Z)).
Proof.
  intros VA VB Hnt E.
  assert (Sok : sys_ok S (length (sp_shape P))) by (rewrite Hnd; apply el_sys_ok).
  assert (Hk : kern_ok S (el_kern nd) (length (sp_shape P))) by (rewrite Hnd; apply el_kern_ok, Hpos).
  destruct (k_fwd_spec S (el_kern nd) K Kr P (el_num nd K dt md) (el_kc dt md) pw Sok Hk (el_num_ok nd K Kr dt md) Hsrc Hrec Hgeo
     visA visB (el_fq lg mg bg) sr f nt cb store u VA VB Hnt) as (u' & r' & st' & E' & A1 & _).
  unfold elastic_forward in E. rewrite E' in E. injection E as <- _ _.
  set (W := Fst S K P (el_kc dt md) f (sinit S K P pw u)) in *.
  assert (HW : forall t, (0 <= t)%Z -> W (t + 1)%Z = sstep S K P (ccoe S K P (el_kc dt md)) (f t) (W t)) by (intros t Ht; apply Fst_S, Ht).
  assert (Hsup : forall t, (0 <= t)%Z -> ssup S K P (W t)).
  { intros t Ht. rewrite <- (Z2Nat.id t Ht). induction (Z.to_nat t) as [|n IH].
    - apply ssup_sinit.
    - replace (Z.of_nat (Datatypes.S n)) with (Z.of_nat n + 1)%Z by lia. rewrite HW by lia. unfold sstep.
      apply (ssup_hstep S K Kr P Hsrc), (ssup_hstep S K Kr P Hsrc), IH. }
  exists W. split; [exact A1|]. split; [reflexivity|]. split; [exact Hsup|].
  intros t Ht. rewrite HW by lia. apply (elastic_step_eqs nd K Kr P Hnd Hpos Hsrc). rewrite <- HW by lia. apply Hsup. lia.
Qed.

Lemma el_amp_zero locs amps p : Forall (fun x => x = 0) amps -> amp_at P locs amps p = 0.
Proof.
  intros H. unfold amp_at. apply (sumf_zero K Kr). intros [l a] Hin. apply in_combine_r in Hin. cbn [fst snd].
  rewrite Forall_forall in H. rewrite (H a Hin). destruct (l =? _)%Z; reflexivity.
Qed.
Lemma elastic_eqs_src src src' W W' : (forall c p, src c p = src' c p) ->
  elastic_eqs nd K P dt md src W W' -> elastic_eqs nd K P dt md src' W W'.
Proof.
  intros H [E1 E2 E3 E4 E5 E6]. split; auto.
  - intros d p Hd Hp. rewrite E2 by assumption. rewrite H. reflexivity.
  - intros d p Hd Hp. cbv zeta in E4. rewrite E4 by assumption. rewrite H. reflexivity.
Qed.

(** States equal on the updated cells have the same energy. *)
Lemma elastic_energy_ext wb (s s' : sst S K) en es : (forall i q, (i < nd)%nat -> updated P (on_v i) q -> mn s (VL i) q = mn s' (VL i) q) ->
  (forall i j q, (i <= j < nd)%nat -> updated P (on_s i j) q -> mn s (Sg i j) q = mn s' (Sg i j) q) ->
  elastic_energy nd K P dt wb s en es = elastic_energy nd K P dt wb s' en es.
Proof.
  intros H1 H2. unfold elastic_energy.
  assert (HV : forall i p, (i < nd)%nat -> cut P (on_v i) (mn s (VL i)) p = cut P (on_v i) (mn s' (VL i)) p).
  { intros i p Hi. unfold cut. destruct (dom S K P (on_v i) p) eqn:E; [|reflexivity]. apply H1; [exact Hi|apply updated_dom, E]. }
  assert (HT : forall i j p, (i < nd)%nat -> (j < nd)%nat -> cut_stress P s i j p = cut_stress P s' i j p).
  { intros i j p Hi Hj. unfold cut_stress, cut. destruct (Nat.leb_spec i j); [destruct (dom S K P (on_s i j) p) eqn:E|destruct (dom S K P (on_s j i) p) eqn:E];
      try reflexivity; (apply H2; [lia|apply updated_dom, E]). }
  f_equal; [f_equal; [|f_equal]|f_equal].
  - apply (sumf_ext K). intros i Hi. apply in_seq in Hi. apply inner_ext; intros p; rewrite HV by lia; reflexivity.
  - apply (sumf_ext K). intros i Hi. apply in_seq in Hi. apply inner_ext; intros p; [reflexivity|]. apply HT; lia.
  - apply (sumf_ext K). intros [i j] Hi. apply In_pairs in Hi. cbn [fst snd]. apply inner_ext; intros p; [reflexivity|]. apply HT; lia.
  - apply (sumf_ext K). intros i Hi. apply (sumf_ext K). intros j Hj. apply in_seq in Hi, Hj. apply inner_ext; intros p; [apply HV; lia|].
    apply deriv_ext. intros q. apply HT; lia.
Qed.
Lemma strain_ext (s s' : sst S K) en es : (forall i j q, (i <= j < nd)%nat -> updated P (on_s i j) q -> mn s (Sg i j) q = mn s' (Sg i j) q) ->
  strain_of nd K P md s en es -> strain_of nd K P md s' en es.
Proof.
  intros H [H1 H2]. split.
  - intros i q Hi Hq. rewrite <- H by (lia || apply on_s_diag, Hq). apply H1; assumption.
  - intros i j q Hi Hq. rewrite <- H by (lia || exact Hq). apply H2; assumption.
Qed.

(** Conservation over a run without sources: some strains of the final state have the energy of the initial state. *)
Lemma elastic_conserved wb en es f u nt sr visA visB lg mg bg cb store U R st :
  el_fvis nd K P pw true visA -> el_fvis nd K P pw false visB -> nt_ok nt sr cb ->
  (forall t c, (0 <= t)%Z -> Forall (fun x => x = 0) (f t c)) ->
  el_cells wb u -> strain_of nd K P md u en es ->
  elastic_forward nd K P pw dt md visA visB lg mg bg sr f nt cb store u = Some (U, R, st) ->
  exists en' es', strain_of nd K P md U en' es' /\ el_cells wb U /\
    elastic_energy nd K P dt wb U en' es' = elastic_energy nd K P dt wb u en es.
Proof.
  intros VA VB Hnt Hf Hc Hst E. destruct (elastic_trace f u nt sr visA visB lg mg bg cb store U R st VA VB Hnt E) as (W & A & W0 & Hsup & He).
  assert (Hn : (0 <= nsteps nt sr)%Z) by (unfold nsteps; destruct Hnt as (? & ? & _); apply Z.mul_nonneg_nonneg; [apply Z.div_pos|]; lia).
  assert (V0 : forall i q, (i < nd)%nat -> updated P (on_v i) q -> mn (W 0%Z) (VL i) q = mn u (VL i) q).
  { intros i q Hi Hq. rewrite W0. cbn [mn sinit]. apply (UV nd K P) in Hq. rewrite Hq. reflexivity. }
  assert (S0 : forall i j q, (i <= j < nd)%nat -> updated P (on_s i j) q -> mn (W 0%Z) (Sg i j) q = mn u (Sg i j) q).
  { intros i j q Hi Hq. rewrite W0. cbn [mn sinit]. apply updated_dom in Hq. change (dom S K P (xh S (Sg i j)) q = true) in Hq. rewrite Hq. reflexivity. }
  assert (C0 : el_cells wb (W 0%Z)) by (intros i q Hi Hq; rewrite V0 by assumption; apply Hc; assumption).
  assert (T0 : strain_of nd K P md (W 0%Z) en es) by (revert Hst; apply strain_ext; intros i j q Hi Hq; symmetry; apply S0; assumption).
  assert (X : forall n : nat, exists en' es', strain_of nd K P md (W (Z.of_nat n)) en' es' /\ el_cells wb (W (Z.of_nat n)) /\
     elastic_energy nd K P dt wb (W (Z.of_nat n)) en' es' = elastic_energy nd K P dt wb u en es).
  { induction n as [|n (en' & es' & IH1 & IH2 & IH3)].
    - change (Z.of_nat 0) with 0%Z. exists en, es. split; [exact T0|]. split; [exact C0|]. apply elastic_energy_ext; assumption.
    - replace (Z.of_nat (Datatypes.S n)) with (Z.of_nat n + 1)%Z by lia.
      assert (He' : elastic_eqs nd K P dt md (fun _ _ => 0) (W (Z.of_nat n)) (W (Z.of_nat n + 1)%Z)).
      { eapply elastic_eqs_src; [|apply He; lia]. intros c p. apply el_amp_zero, Hf. lia. }
      eexists _, _. split; [exact (strain_step _ _ He' en' es' IH1)|]. split; [exact (el_cells_step _ _ He' wb IH2)|].
      rewrite (elastic_energy_step _ _ (Hsup (Z.of_nat n) ltac:(lia)) He' wb en' es' IH2 IH1). exact IH3. }
  destruct (X (Z.to_nat (nsteps nt sr))) as (en' & es' & X1 & X2 & X3). rewrite Z2Nat.id in X1, X2, X3 by exact Hn. destruct A as [A _].
  exists en', es'. split; [|split].
  - revert X1. apply strain_ext. intros i j q Hi Hq. symmetry. apply A, In_el_allX. exact Hi.
  - intros i q Hi Hq. rewrite (A (VL i) q) by (apply In_el_allX; exact Hi). apply X2; assumption.
  - rewrite <- X3. apply elastic_energy_ext; intros; apply A, In_el_allX; assumption.
Qed.

(** The energy depends on the stresses only: any strains of the same state give the same value. *)
Lemma elastic_energy_strain wb (s : sst S K) en es en' es' : strain_of nd K P md s en es -> strain_of nd K P md s en' es' ->
  elastic_energy nd K P dt wb s en es = elastic_energy nd K P dt wb s en' es'.
Proof.
  intros [N1 S1] [N2 S2]. unfold elastic_energy. f_equal. f_equal. f_equal.
  - unfold inner. rewrite !(sumf_swap K Kr (seq 0 nd)). apply (sumf_ext K). intros q _.
    destruct (dom S K P (fun _ => false) q) eqn:Eq.
    + apply updated_dom in Eq. set (l := md ML (I_ q)). set (m := md MMU (I_ q)).
      assert (Tq : forall i e, In i (seq 0 nd) -> (forall i, (i < nd)%nat -> mn s (Sg i i) q = l * sumf (seq 0 nd) (fun l => e l q) + two * m * e i q) ->
        cut_stress P s i i q = l * sumf (seq 0 nd) (fun l => e l q) + two * m * e i q).
      { intros i e Hi He. apply in_seq in Hi. rewrite <- He by lia. unfold cut_stress. rewrite Nat.leb_refl. unfold cut.
        apply (on_s_diag i), updated_dom in Eq. rewrite Eq. reflexivity. }
      rewrite (sumf_ext K (seq 0 nd) (fun i => en i q * cut_stress P s i i q)
        (fun i => l * sumf (seq 0 nd) (fun l => en' l q) * en i q + two * m * (en i q * en' i q))).
      2:{ intros i Hi. rewrite (Tq i en' Hi) by (intros; apply N2; assumption). ring. }
      rewrite (sumf_ext K (seq 0 nd) (fun i => en' i q * cut_stress P s i i q)
        (fun i => l * sumf (seq 0 nd) (fun l => en l q) * en' i q + two * m * (en i q * en' i q))).
      2:{ intros i Hi. rewrite (Tq i en Hi) by (intros; apply N1; assumption). ring. }
      rewrite !(sumf_add K Kr), !(sumf_scal K Kr). ring.
    + apply (sumf_ext K). intros i _. unfold cut_stress. rewrite Nat.leb_refl. unfold cut.
      replace (dom S K P (on_s i i) q) with false; [ring|]. symmetry. destruct (dom S K P (on_s i i) q) eqn:X; [|reflexivity].
      apply updated_dom, on_s_diag, updated_dom in X. congruence.
  - apply (sumf_ext K). intros [i j] Hij. apply In_pairs in Hij. cbn [fst snd]. unfold inner. apply (sumf_ext K). intros q _.
    unfold cut_stress. replace (i <=? j)%nat with true by (symmetry; apply Nat.leb_le; lia). unfold cut.
    destruct (dom S K P (on_s i j) q) eqn:Eq; [|ring]. apply updated_dom in Eq.
    transitivity (es i j q * (md (MS i j) (I_ q) * es' i j q)); [rewrite <- (S2 i j q) by (assumption || lia); reflexivity|].
    transitivity (es' i j q * (md (MS i j) (I_ q) * es i j q)); [ring|rewrite <- (S1 i j q) by (assumption || lia); reflexivity].
Qed.

Lemma elastic_conserved_all wb en es en' es' f u nt sr visA visB lg mg bg cb store U R st :
  el_fvis nd K P pw true visA -> el_fvis nd K P pw false visB -> nt_ok nt sr cb ->
  (forall t c, (0 <= t)%Z -> Forall (fun x => x = 0) (f t c)) ->
  el_cells wb u -> strain_of nd K P md u en es -> strain_of nd K P md U en' es' ->
  elastic_forward nd K P pw dt md visA visB lg mg bg sr f nt cb store u = Some (U, R, st) ->
  elastic_energy nd K P dt wb U en' es' = elastic_energy nd K P dt wb u en es.
Proof.
  intros VA VB Hnt Hf Hc Hst Hst' E.
  destruct (elastic_conserved wb en es f u nt sr visA visB lg mg bg cb store U R st VA VB Hnt Hf Hc Hst E) as (en2 & es2 & H2 & _ & HE).
  rewrite <- HE. apply elastic_energy_strain; assumption.
Qed.
End El.
