(** * The equations the acoustic and elastic propagators solve.

    Specifications written out from the documentation (docs: velocity-stress equations with convolutional PML), without
    the tables of [AcousticModel.v] and [ElasticModel.v]; the compiled forward functions are shown to follow them. *)
From Coq Require Import List ZArith QArith Ring Ring_theory Lia Bool Permutation.
From Verif Require Import Ops Sums Grid Stencil ScalarModel ScalarRefine Stag StagAdj StagKernel StagCell StagRefine StagGrad
  AcousticModel AcousticThm ElasticModel ElasticThm.
Import ListNotations.
Local Open Scope K_scope.

(** Cells updated by the propagators: [h d] tells whether the quantity lies at half positions in dimension [d]. *)
Definition updated {S : sys} {K : ops} (P : spar S K) (h : nat -> bool) (p : pt) : Prop :=
  length p = length (sp_shape P) /\
  forall d, (d < length (sp_shape P))%nat ->
    (fd_pad (sp_acc P) <= coord d p < nth d (sp_shape P) 0 - fd_pad (sp_acc P) + (if h d then 0 else 1))%Z.
(** Derivative along [d], at half positions or at integer positions. *)
Definition deriv {S : sys} {K : ops} (P : spar S K) (half : bool) (d : nat) (f : field K) : field K :=
  if half then SDH1 (sp_acc P) (sp_rd P d) d f else SD1 (sp_acc P) (sp_rd P d) d f.
(** Sum of the amplitudes of the sources in cell [p]. *)
Definition amp_at {S : sys} {K : ops} (P : spar S K) (locs : list Z) (amps : list K) (p : pt) : K :=
  sumf (combine locs amps) (fun la => if (fst la =? idx (sp_shape P) p)%Z then snd la else 0).
(** Values at receiver locations; negative locations are ignored. *)
Definition read_at {S : sys} {K : ops} (P : spar S K) (locs : list Z) (f : field K) : list K :=
  map (fun l => if (0 <=? l)%Z then f (unidx (sp_shape P) l) else 0) locs.

(** One step [W -> W'] of the acoustic equations with source terms [src]:
    dv/dt = -b grad p, dp/dt = -k div v'. *)
Record acoustic_eqs (nd : nat) (K : ops) (P : spar (ac_sys nd) K) (dt : K) (kb : aM -> arr K) (src : aX -> field K)
    (W W' : sst (ac_sys nd) K) : Prop := {
  ae_psi : forall d p, (d < nd)%nat -> updated P (Nat.eqb d) p ->
    me W' (EV d) p = sp_b P true d (coord d p) * deriv P true d (mn W XP) p + sp_a P true d (coord d p) * me W (EV d) p;
  ae_v : forall d p, (d < nd)%nat -> updated P (Nat.eqb d) p ->
    mn W' (XV d) p = mn W (XV d) p - dt * kb (MB d) (idx (sp_shape P) p) * (deriv P true d (mn W XP) p + me W' (EV d) p)
                     + src (XV d) p;
  ae_phi : forall d p, (d < nd)%nat -> updated P (fun _ => false) p ->
    me W' (EP d) p = sp_b P false d (coord d p) * deriv P false d (mn W' (XV d)) p + sp_a P false d (coord d p) * me W (EP d) p;
  ae_p : forall p, updated P (fun _ => false) p ->
    mn W' XP p = mn W XP p
                 - dt * kb MK (idx (sp_shape P) p) * sumf (seq 0 nd) (fun d => deriv P false d (mn W' (XV d)) p + me W' (EP d) p)
                 + src XP p;
  ae_out : forall p, (forall d, (d < nd)%nat -> ~ updated P (Nat.eqb d) p -> mn W' (XV d) p = 0) /\
                     (~ updated P (fun _ => false) p -> mn W' XP p = 0)
}.

(** One step of the elastic equations: dv_i/dt = b_i sum_j d_j sigma_ij,
    dsigma_ii/dt = lambda div v' + 2 mu d_i v'_i, dsigma_ij/dt = mu_ij (d_i v'_j + d_j v'_i).
    Each derivative is extended by its PML memory variable; sources of pressure are added to all normal stresses. *)
Definition stress {nd : nat} {K : ops} (W : sst (el_sys nd) K) (i j : nat) : field K :=
  if (i <=? j)%nat then mn W (Sg i j) else mn W (Sg j i).
Definition on_v (i : nat) : nat -> bool := Nat.eqb i.
Definition on_s (i j d : nat) : bool := negb (Nat.eqb i j) && (Nat.eqb d i || Nat.eqb d j).
Record elastic_eqs (nd : nat) (K : ops) (P : spar (el_sys nd) K) (dt : K) (md : eM -> arr K) (src : eC -> field K)
    (W W' : sst (el_sys nd) K) : Prop := {
  ee_mv : forall i j p, (i < nd)%nat -> (j < nd)%nat -> updated P (on_v i) p ->
    me W' (DS i j) p = sp_b P (Nat.eqb i j) j (coord j p) * deriv P (Nat.eqb i j) j (stress W i j) p
                       + sp_a P (Nat.eqb i j) j (coord j p) * me W (DS i j) p;
  ee_v : forall i p, (i < nd)%nat -> updated P (on_v i) p ->
    mn W' (VL i) p = mn W (VL i) p
      + dt * md (EB i) (idx (sp_shape P) p) * sumf (seq 0 nd) (fun j => deriv P (Nat.eqb i j) j (stress W i j) p + me W' (DS i j) p)
      + src (CV i) p;
  ee_ms : forall i j p, (i < nd)%nat -> (j < nd)%nat -> updated P (on_s i j) p ->
    me W' (DV i j) p = sp_b P (negb (Nat.eqb i j)) j (coord j p) * deriv P (negb (Nat.eqb i j)) j (mn W' (VL i)) p
                       + sp_a P (negb (Nat.eqb i j)) j (coord j p) * me W (DV i j) p;
  ee_n : forall i p, (i < nd)%nat -> updated P (fun _ => false) p ->
    let strain l := deriv P false l (mn W' (VL l)) p + me W' (DV l l) p in
    mn W' (Sg i i) p = mn W (Sg i i) p
      + dt * (md ML (idx (sp_shape P) p) * sumf (seq 0 nd) strain + two * md MMU (idx (sp_shape P) p) * strain i)
      + src CP p;
  ee_s : forall i j p, (i < j < nd)%nat -> updated P (on_s i j) p ->
    mn W' (Sg i j) p = mn W (Sg i j) p
      + dt * md (MS i j) (idx (sp_shape P) p)
        * ((deriv P true j (mn W' (VL i)) p + me W' (DV i j) p) + (deriv P true i (mn W' (VL j)) p + me W' (DV j i) p));
  ee_out : forall p, (forall i, (i < nd)%nat -> ~ updated P (on_v i) p -> mn W' (VL i) p = 0) /\
                     (forall i j, (i <= j < nd)%nat -> ~ updated P (on_s i j) p -> mn W' (Sg i j) p = 0)
}.

(** Scaling of the source amplitudes (acoustic.py:563-587): by the model at the source and the time step. *)
Definition ac_model (c : aX) : aM := match c with XP => MK | XV d => MB d end.
Definition ac_prep {K : ops} (dt : K) (kb : aM -> arr K) (locs : aX -> list Z) (amps : aX -> list K) : aX -> list K :=
  fun c => map (fun la => snd la * kb (ac_model c) (py_masked (fst la)) * dt) (combine (locs c) (amps c)).
(** Scaling of the source amplitudes (elastic.py:924-976). *)
Definition el_prep {K : ops} (dt : K) (md : eM -> arr K) (locs : eC -> list Z) (amps : eC -> list K) : eC -> list K :=
  fun c => map (fun la => match c with
                          | CV d => snd la * md (EB d) (py_masked (fst la)) * dt
                          | CP => - snd la * dt
                          end) (combine (locs c) (amps c)).
(** Recorded amplitudes (elastic.py:1033-1035): [-outputs[-1] / ndim]. *)
Definition el_post {K : ops} (nd : nat) (R : Z -> eC -> list K) : Z -> eC -> list K :=
  fun t c => match c with CV d => R t (CV d) | CP => map (fun x => - x * oq K (1 # Pos.of_nat nd)) (R t CP) end.

Local Arguments deriv : simpl never.
Local Arguments dmask : simpl never.
Local Arguments srcf : simpl never.
Local Arguments gat : simpl never.

Section Gen.
Variable S : sys.
Variable K : ops.
Hypothesis Kr : is_ring K.
Add Ring KRing : Kr.
Variable P : spar S K.
Notation shape := (sp_shape P).
Notation nd := (length shape).

Lemma updated_dom h p : updated P h p <-> dom S K P h p = true.
Proof. symmetry. apply dom_spec. Qed.
Lemma updated_ext h h' p : (forall d, (d < nd)%nat -> h d = h' d) -> updated P h p <-> updated P h' p.
Proof. intros H. rewrite !updated_dom. rewrite (dom_ext S K P h h' p H). reflexivity. Qed.

Lemma srcf_amp c amps p : In c (allC S) -> locs_ok S K P (sp_src P) -> inb (abox shape) p = true ->
  srcf S K P (sp_src P c) amps p = amp_at P (sp_src P c) amps p.
Proof.
  intros Hc HL Hp. specialize (HL c Hc). rewrite Forall_forall in HL. unfold srcf, amp_at. apply (sumf_ext K).
  intros [l a] Hin. apply in_combine_l in Hin. specialize (HL l Hin). cbn [fst snd].
  pose proof (idx_bound shape p Hp) as Hb.
  destruct HL as [Hl|(q & -> & Hq & _)].
  - destruct (Z.leb_spec 0 l); [lia|]. cbn. destruct (Z.eqb_spec l (idx shape p)); [lia|reflexivity].
  - pose proof (idx_bound shape q Hq). destruct (Z.leb_spec 0 (idx shape q)); [|lia]. cbn [andb].
    rewrite unidx_idx by exact Hq. destruct (pt_eq_dec q p) as [<-|Hn]; [rewrite Z.eqb_refl; reflexivity|].
    destruct (Z.eqb_spec (idx shape q) (idx shape p)) as [E|]; [|reflexivity].
    exfalso. apply Hn, (idx_inj shape); assumption.
Qed.

Hypothesis Hsrc : locs_ok S K P (sp_src P).

Variable c : coe S K.
Variable f : sC S -> list K.
Variable s : sst S K.
Notation s' := (sstep S K P c f s).
(** Values after a step, phase 1 and phase 2. *)
Lemma step_A x p : xA S x = true -> dom S K P (xh S x) p = true ->
  mn s' x p = mn s x p + sumf (incE S x) (fun e => c x e p * (der S K P e (mn s (esrc S e)) p + nmem S K P s e p))
              + sumf (cinC S x) (fun k => srcf S K P (sp_src P k) (f k) p).
Proof.
  intros Hx Hd. unfold sstep, hstep. cbn [mn]. rewrite Hx. cbn [Bool.eqb]. unfold injs, dmask. rewrite Hd. reflexivity.
Qed.
Lemma step_EA e : eA S e = true -> me s' e = nmem S K P s e.
Proof. intros He. unfold sstep, hstep. cbn [me]. rewrite He. reflexivity. Qed.
Lemma step_B x p : xA S x = false -> (forall e, In e (incE S x) -> eA S e = false) -> dom S K P (xh S x) p = true ->
  (forall e, In e (incE S x) -> xA S (esrc S e) = true) ->
  mn s' x p = mn s x p + sumf (incE S x) (fun e => c x e p * (der S K P e (mn s' (esrc S e)) p + me s' e p))
              + sumf (cinC S x) (fun k => srcf S K P (sp_src P k) (f k) p).
Proof.
  intros Hx He Hd Hs. unfold sstep at 1. set (h := hstep S K P true c f s). unfold hstep. cbn [mn]. rewrite Hx. cbn [Bool.eqb].
  unfold injs, dmask. rewrite Hd. f_equal. f_equal.
  - unfold h, hstep. cbn [mn]. rewrite Hx. reflexivity.
  - apply (sumf_ext K). intros e Hin. f_equal. unfold term. f_equal.
    + assert (E : mn s' (esrc S e) = mn h (esrc S e)).
      { unfold sstep. fold h. unfold hstep at 1. cbn [mn]. rewrite (Hs e Hin). reflexivity. }
      rewrite E. reflexivity.
    + unfold sstep. fold h. unfold hstep at 1. cbn [me]. rewrite (He e Hin). reflexivity.
Qed.
Lemma step_EB e p : eA S e = false -> xA S (esrc S e) = true -> dom S K P (eh S e) p = true ->
  me s' e p = eb S K P e p * der S K P e (mn s' (esrc S e)) p + ea S K P e p * me s e p.
Proof.
  intros He Hs Hd. assert (E : mn s' (esrc S e) = mn (hstep S K P true c f s) (esrc S e)).
  { unfold sstep. set (h := hstep S K P true c f s). unfold hstep at 1. cbn [mn]. rewrite Hs. reflexivity. }
  rewrite E. unfold sstep. set (h := hstep S K P true c f s). unfold hstep at 1. cbn [me]. rewrite He. cbn [Bool.eqb].
  unfold nmem, dmask. rewrite Hd. f_equal. f_equal. unfold h, hstep. cbn [me]. rewrite He. reflexivity.
Qed.
Lemma nmem_in e p : dom S K P (eh S e) p = true ->
  nmem S K P s e p = eb S K P e p * der S K P e (mn s (esrc S e)) p + ea S K P e p * me s e p.
Proof. intros Hd. unfold nmem, dmask. rewrite Hd. reflexivity. Qed.
Lemma der_deriv e g : der S K P e g = deriv P (eh S e (edim S e)) (edim S e) g.
Proof. reflexivity. Qed.
End Gen.

Section Ac.
Variable nd : nat.
Variable K : ops.
Hypothesis Kr : is_ring K.
Add Ring KRing2 : Kr.
Notation S := (ac_sys nd).
Variable P : spar S K.
Variable pw : nat -> Z * Z.
Hypothesis Hnd : length (sp_shape P) = nd.
Hypothesis Hsrc : locs_ok S K P (sp_src P).
Hypothesis Hrec : locs_ok S K P (sp_rec P).
Hypothesis Hgeo : sgeom S K P pw.
Variable dt : K.
Variable kb : aM -> arr K.
Notation shape := (sp_shape P).
Notation cc := (ccoe S K P (ac_kc dt kb)).

Lemma cinC_ac x (g : aX -> K) : In x (ac_allX nd) -> sumf (cinC S x) g = g x.
Proof.
  intros Hx. unfold cinC. rewrite (sumf_filter_if K Kr). rewrite (sumf_single K Kr _ x); [| |exact Hx|].
  - cbn. destruct (aX_dec x x); congruence.
  - apply NoDup_ac_allX.
  - intros y _ Hy. cbn. destruct (aX_dec y x); congruence.
Qed.

Lemma dom_in h p : dom S K P h p = true -> inb (abox shape) p = true.
Proof. apply dom_array. Qed.

Lemma acoustic_step_eqs f s : ssup S K P (sstep S K P cc f s) -> acoustic_eqs nd K P dt kb (fun c => amp_at P (sp_src P c) (f c)) s (sstep S K P cc f s).
Proof.
  intros Hsup.
  assert (UV : forall d p, updated P (Nat.eqb d) p <-> dom S K P (xh S (XV d)) p = true).
  { intros d p. rewrite <- updated_dom. apply updated_ext. intros e _. cbn. apply Nat.eqb_sym. }
  assert (UE : forall d p, updated P (Nat.eqb d) p <-> dom S K P (eh S (EV d)) p = true).
  { intros d p. rewrite <- updated_dom. apply updated_ext. intros e _. cbn. apply Nat.eqb_sym. }
  assert (UP : forall p, updated P (fun _ => false) p <-> dom S K P (xh S XP) p = true) by (intros p; rewrite <- updated_dom; reflexivity).
  split.
  - intros d p Hd Hp. rewrite step_EA by reflexivity. rewrite nmem_in by (apply UE, Hp).
    unfold eb, ea. rewrite der_deriv. cbn. rewrite Nat.eqb_refl. reflexivity.
  - intros d p Hd Hp. rewrite step_A by (reflexivity || apply UV, Hp). rewrite ac_incE_V by exact Hd. rewrite cinC_ac by (apply In_ac_allX; exact Hd).
    rewrite srcf_amp; [|apply In_ac_allX; exact Hd|exact Hsrc|apply (dom_in (xh S (XV d))), UV, Hp].
    rewrite step_EA by reflexivity. cbn [sumf]. rewrite der_deriv. unfold ccoe, ac_kc. cbn [eh S ac_sys ac_eh edim ac_edim esrc ac_esrc]. rewrite Nat.eqb_refl. ring.
  - intros d p Hd Hp. rewrite step_EB by (reflexivity || apply UP, Hp). unfold eb, ea. rewrite der_deriv. reflexivity.
  - intros p Hp.
    assert (E : forall e, In e (incE S XP) -> eA S e = false /\ xA S (esrc S e) = true).
    { intros e. rewrite ac_incE_P, in_map_iff. intros (d & <- & _). split; reflexivity. }
    rewrite step_B; [|reflexivity|intros e He; apply (E e He)|apply UP, Hp|intros e He; apply (E e He)].
    rewrite ac_incE_P, cinC_ac by (apply In_ac_allX; exact I).
    rewrite srcf_amp; [|apply In_ac_allX; exact I|exact Hsrc|apply (dom_in (xh S XP)), UP, Hp].
    rewrite (sumf_map K).
    rewrite (sumf_ext K (seq 0 nd) _ (fun d => - dt * kb MK (idx shape p) * (deriv P false d (mn (sstep S K P cc f s) (XV d)) p
      + me (sstep S K P cc f s) (EP d) p))) by reflexivity.
    rewrite (sumf_scal K Kr). ring.
  - intros p. split.
    + intros d Hd Hp. apply (proj1 Hsup); [apply In_ac_allX; exact Hd|]. destruct (dom S K P (xh S (XV d)) p) eqn:E; [|reflexivity].
      exfalso. apply Hp, UV, E.
    + intros Hp. apply (proj1 Hsup); [apply In_ac_allX; exact I|]. destruct (dom S K P (xh S XP) p) eqn:E; [|reflexivity].
      exfalso. apply Hp, UP, E.
Qed.

(** The forward function follows the equations for every step it takes; receivers read the wavefield they are named
    after, before the step. *)
Lemma acoustic_solves0 f u nt sr visA visB kg bg cb store :
  ac_fvis nd K P pw true visA -> ac_fvis nd K P pw false visB -> nt_ok nt sr cb ->
  exists U R st W, acoustic_forward nd K P pw dt kb visA visB kg bg sr f nt cb store u = Some (U, R, st) /\
    (W 0%Z = sinit S K P pw u /\ forall t c, In c (allC S) -> (nsteps nt sr <= t)%Z -> R t c = map (fun _ => 0) (sp_rec P c)) /\ sseq S K U (W (nsteps nt sr)) /\
    (forall p, (forall d, (d < nd)%nat -> updated P (Nat.eqb d) p -> mn (W 0%Z) (XV d) p = mn u (XV d) p) /\
               (updated P (fun _ => false) p -> mn (W 0%Z) XP p = mn u XP p)) /\
    (forall t, (0 <= t < nsteps nt sr)%Z -> acoustic_eqs nd K P dt kb (fun c => amp_at P (sp_src P c) (f t c)) (W t) (W (t + 1)%Z)) /\
    (forall t, (0 <= t < nsteps nt sr)%Z -> R t XP = read_at P (sp_rec P XP) (mn (W t) XP) /\
       forall d, (d < nd)%nat -> R t (XV d) = read_at P (sp_rec P (XV d)) (mn (W t) (XV d))).
Proof.
  intros VA VB Hnt.
  assert (Sok : sys_ok S (length (sp_shape P))) by (rewrite Hnd; apply ac_sys_ok).
  assert (Hk : kern_ok S (ac_kern nd) (length (sp_shape P))) by (rewrite Hnd; apply ac_kern_ok).
  destruct (k_fwd_spec S (ac_kern nd) K Kr P (ac_num nd K dt kb) (ac_kc dt kb) pw Sok Hk (ac_num_ok nd K Kr dt kb) Hsrc Hrec Hgeo
     visA visB (ac_flag kg bg) sr f nt cb store u VA VB Hnt) as (u' & r' & st' & E' & A1 & A2 & _).
  set (W := Fst S K P (ac_kc dt kb) f (sinit S K P pw u)) in *.
  assert (HW : forall t, (0 <= t)%Z -> W (t + 1)%Z = sstep S K P cc (f t) (W t)) by (intros t Ht; apply Fst_S, Ht).
  assert (Hsup : forall t, (0 <= t)%Z -> ssup S K P (W t)).
  { intros t Ht. rewrite <- (Z2Nat.id t Ht). induction (Z.to_nat t) as [|n IH].
    - apply ssup_sinit.
    - replace (Z.of_nat (Datatypes.S n)) with (Z.of_nat n + 1)%Z by lia. rewrite HW by lia. unfold sstep.
      apply (ssup_hstep S K Kr P Hsrc), (ssup_hstep S K Kr P Hsrc), IH. }
  exists u', r', st', W. split; [exact E'|]. split.
  { split; [reflexivity|]. intros t c Hc Ht. rewrite A2 by exact Hc. rewrite (proj2 (Z.ltb_ge _ _) Ht), andb_false_r. reflexivity. }
  split; [exact A1|]. split; [|split].
  - intros p. change (W 0%Z) with (sinit S K P pw u). cbn [mn sinit]. split.
    + intros d Hd Hp. replace (dom S K P (xh S (XV d)) p) with true; [reflexivity|]. symmetry. apply updated_dom.
      revert Hp. apply updated_ext. intros e _. cbn. apply Nat.eqb_sym.
    + intros Hp. replace (dom S K P (xh S XP) p) with true; [reflexivity|]. symmetry. apply updated_dom. exact Hp.
  - intros t Ht. rewrite HW by lia. apply acoustic_step_eqs. rewrite <- HW by lia. apply Hsup. lia.
  - intros t Ht.
    assert (Q : forall x, In x (ac_allX nd) -> r' t x = read_at P (sp_rec P x) (mn (W t) x)).
    { intros x Hx. rewrite A2 by exact Hx. replace ((0 <=? t) && (t <? nsteps nt sr))%Z with true
        by (symmetry; apply andb_true_intro; rewrite Z.leb_le, Z.ltb_lt; lia).
      unfold srec, gat, read_at. apply map_ext. intros l. destruct (0 <=? l)%Z; [|reflexivity].
      unfold chsum. change (cinX S x) with (filter (cin S x) (ac_allX nd)). rewrite (sumf_filter_if K Kr). rewrite (sumf_single K Kr _ x); [| |exact Hx|].
      - cbn. destruct (aX_dec x x); congruence.
      - apply NoDup_ac_allX.
      - intros y _ Hy. cbn. destruct (aX_dec x y); congruence. }
    split; [|intros d Hd]; apply Q, In_ac_allX; [exact I|exact Hd].
Qed.
Lemma acoustic_solves f u nt sr visA visB kg bg cb store :
  ac_fvis nd K P pw true visA -> ac_fvis nd K P pw false visB -> nt_ok nt sr cb ->
  exists U R st W, acoustic_forward nd K P pw dt kb visA visB kg bg sr f nt cb store u = Some (U, R, st) /\
    sseq S K U (W (nsteps nt sr)) /\
    (forall p, (forall d, (d < nd)%nat -> updated P (Nat.eqb d) p -> mn (W 0%Z) (XV d) p = mn u (XV d) p) /\
               (updated P (fun _ => false) p -> mn (W 0%Z) XP p = mn u XP p)) /\
    (forall t, (0 <= t < nsteps nt sr)%Z -> acoustic_eqs nd K P dt kb (fun c => amp_at P (sp_src P c) (f t c)) (W t) (W (t + 1)%Z)) /\
    (forall t, (0 <= t < nsteps nt sr)%Z -> R t XP = read_at P (sp_rec P XP) (mn (W t) XP) /\
       forall d, (d < nd)%nat -> R t (XV d) = read_at P (sp_rec P (XV d)) (mn (W t) (XV d))).
Proof.
  intros VA VB Hnt. destruct (acoustic_solves0 f u nt sr visA visB kg bg cb store VA VB Hnt) as (U & R & st & W & H0 & _ & H1).
  exists U, R, st, W. split; [exact H0|exact H1].
Qed.
End Ac.

Section El.
Variable nd : nat.
Variable K : ops.
Hypothesis Kr : is_ring K.
Add Ring KRing3 : Kr.
Notation S := (el_sys nd).
Variable P : spar S K.
Variable pw : nat -> Z * Z.
Hypothesis Hnd : length (sp_shape P) = nd.
Hypothesis Hpos : (0 < nd)%nat.
Hypothesis Hsrc : locs_ok S K P (sp_src P).
Hypothesis Hrec : locs_ok S K P (sp_rec P).
Hypothesis Hgeo : sgeom S K P pw.
Variable dt : K.
Variable md : eM -> arr K.
Notation shape := (sp_shape P).
Notation cc := (ccoe S K P (el_kc dt md)).

Lemma In_el_allC c : In c (el_allC nd) <-> match c with CV d => (d < nd)%nat | CP => True end.
Proof.
  unfold el_allC. rewrite in_app_iff, in_map_iff. cbn [In]. split.
  - intros [(d & <- & H)|[<-|[]]]; [apply in_seq in H; lia|exact I].
  - destruct c as [d|]; intros H; [left; exists d; split; [reflexivity|apply in_seq; lia]|right; left; reflexivity].
Qed.
Lemma el_C_dec (a b : eC) : {a = b} + {a <> b}. Proof. decide equality; apply Nat.eq_dec. Qed.
Lemma NoDup_el_allC : NoDup (el_allC nd).
Proof.
  unfold el_allC. apply NoDup_app; [apply NoDup_map_i; [congruence|apply seq_NoDup]|constructor; [intros []|constructor]|].
  intros x H [<-|[]]. apply in_map_iff in H. destruct H as (d & E & _). discriminate.
Qed.
Lemma cinC_one x c (g : eC -> K) : In c (el_allC nd) -> el_cin c x = true -> (forall b, b <> c -> el_cin b x = false) ->
  sumf (cinC S x) g = g c.
Proof.
  intros Hc H1 H2. unfold cinC. rewrite (sumf_filter_if K Kr). rewrite (sumf_single K Kr _ c); [|apply NoDup_el_allC|exact Hc|].
  - change (cin S c x) with (el_cin c x). rewrite H1. reflexivity.
  - intros b _ Hb. change (cin S b x) with (el_cin b x). rewrite H2 by exact Hb. reflexivity.
Qed.
Lemma cinC_none x (g : eC -> K) : (forall b, el_cin b x = false) -> sumf (cinC S x) g = 0.
Proof.
  intros H2. unfold cinC. rewrite (sumf_filter_if K Kr). apply (sumf_zero K Kr). intros b _. cbn beta. replace (cin S b x) with false by (symmetry; apply H2). reflexivity.
Qed.

Lemma stress_sg (s : sst S K) i j : stress s i j = mn s (sg i j).
Proof. unfold stress, sg. destruct (Nat.leb_spec i j); f_equal; f_equal; lia. Qed.

Lemma UV i p : updated P (on_v i) p <-> dom S K P (xh S (VL i)) p = true.
Proof. rewrite <- updated_dom. apply updated_ext. intros e _. cbn. apply Nat.eqb_sym. Qed.
Lemma UDS i j p : updated P (on_v i) p <-> dom S K P (eh S (DS i j)) p = true.
Proof. rewrite <- updated_dom. apply updated_ext. intros e _. cbn. apply Nat.eqb_sym. Qed.
Lemma US i j p : updated P (on_s i j) p <-> dom S K P (xh S (Sg i j)) p = true.
Proof. rewrite <- updated_dom. reflexivity. Qed.
Lemma UDV i j p : updated P (on_s i j) p <-> dom S K P (eh S (DV i j)) p = true.
Proof. rewrite <- updated_dom. reflexivity. Qed.
Lemma UN i p : updated P (fun _ => false) p <-> dom S K P (xh S (Sg i i)) p = true.
Proof. rewrite <- updated_dom. apply updated_ext. intros e _. cbn. rewrite Nat.eqb_refl. reflexivity. Qed.

Lemma elastic_step_eqs f s : ssup S K P (sstep S K P cc f s) -> elastic_eqs nd K P dt md (fun c => amp_at P (sp_src P c) (f c)) s (sstep S K P cc f s).
Proof.
  intros Hsup. set (s' := sstep S K P cc f s) in *. split.
  - intros i j p Hi Hj Hp. unfold s'. rewrite step_EA by reflexivity. rewrite nmem_in by (apply (UDS i j), Hp).
    unfold eb, ea. rewrite der_deriv. cbn [eh S el_sys el_eh edim el_edim esrc el_esrc]. rewrite stress_sg, (Nat.eqb_sym j i). reflexivity.
  - intros i p Hi Hp. unfold s' at 1. rewrite step_A by (reflexivity || apply UV, Hp). rewrite (incE_V nd K Kr) by exact Hi.
    rewrite (cinC_one _ (CV i)); [|apply In_el_allC, Hi|apply Nat.eqb_refl|].
    2:{ intros [b|] Hb; cbn; [|reflexivity]. apply Nat.eqb_neq. congruence. }
    rewrite srcf_amp; [|apply In_el_allC, Hi|exact Hsrc|apply (dom_array S K P (xh S (VL i))), UV, Hp].
    f_equal. f_equal. rewrite <- (sumf_scal K Kr). apply (sumf_ext K). intros j _.
    unfold s'. rewrite step_EA by reflexivity. rewrite der_deriv. cbn [eh S el_sys el_eh edim el_edim esrc el_esrc].
    rewrite stress_sg, (Nat.eqb_sym j i). unfold ccoe. cbn [el_kc]. ring.
  - intros i j p Hi Hj Hp. unfold s' at 1. rewrite step_EB by (reflexivity || apply UDV, Hp). fold s'.
    unfold eb, ea. rewrite der_deriv. cbn [eh S el_sys el_eh edim el_edim esrc el_esrc]. rewrite Nat.eqb_refl, orb_true_r, andb_true_r. reflexivity.
  - intros i p Hi Hp strain.
    assert (E : forall e, In e (incE S (Sg i i)) -> eA S e = false /\ xA S (esrc S e) = true).
    { intros [a b|a b] He; apply filter_In in He; destruct He as [_ He]; [discriminate|split; reflexivity]. }
    unfold s' at 1. rewrite step_B; [|reflexivity|intros e He; apply (E e He)|apply UN, Hp|intros e He; apply (E e He)]. fold s'.
    rewrite (incE_N nd K Kr). rewrite (cinC_one _ CP); [|apply In_el_allC, I|apply Nat.eqb_refl|].
    2:{ intros [b|] Hb; cbn; [reflexivity|congruence]. }
    rewrite srcf_amp; [|apply In_el_allC, I|exact Hsrc|apply (dom_array S K P (xh S (Sg i i))), UN, Hp].
    f_equal. f_equal.
    rewrite (sumf_ext K (seq 0 nd) _ (fun l => dt * md ML (idx shape p) * strain l + (if Nat.eqb l i then dt * (two * md MMU (idx shape p)) * strain i else 0))).
    2:{ intros l _. rewrite der_deriv. cbn [eh S el_sys el_eh edim el_edim esrc el_esrc]. rewrite Nat.eqb_refl. cbn [negb andb].
        unfold ccoe. cbn [el_kc]. rewrite Nat.eqb_refl. fold (strain l).
        destruct (Nat.eqb_spec l i) as [->|]; unfold two; ring. }
    rewrite (sumf_add K Kr), (sumf_scal K Kr). rewrite (sumf_single K Kr (seq 0 nd) i (fun l => if Nat.eqb l i then _ else _)).
    + rewrite Nat.eqb_refl. ring.
    + apply seq_NoDup.
    + apply in_seq. lia.
    + intros l _ Hl. apply Nat.eqb_neq in Hl. rewrite Hl. reflexivity.
  - intros i j p Hij Hp.
    assert (E : forall e, In e (incE S (Sg i j)) -> eA S e = false /\ xA S (esrc S e) = true).
    { intros [a b|a b] He; apply filter_In in He; destruct He as [_ He]; [discriminate|split; reflexivity]. }
    unfold s' at 1. rewrite step_B; [|reflexivity|intros e He; apply (E e He)|apply US, Hp|intros e He; apply (E e He)]. fold s'.
    rewrite (incE_S nd K Kr) by exact Hij. rewrite cinC_none.
    2:{ intros [b|]; cbn; [reflexivity|]. apply Nat.eqb_neq. lia. }
    rewrite !der_deriv. unfold ccoe. cbn [eh S el_sys el_eh edim el_edim esrc el_esrc el_kc].
    rewrite !Nat.eqb_refl, !orb_true_r. destruct (Nat.eqb_spec i j); [lia|]. destruct (Nat.eqb_spec j i); [lia|]. cbn [negb andb]. ring.
  - intros p. split.
    + intros i Hi Hp. apply (proj1 Hsup); [apply In_el_allX; exact Hi|]. destruct (dom S K P (xh S (VL i)) p) eqn:E; [|reflexivity].
      exfalso. apply Hp, UV, E.
    + intros i j Hi Hp. apply (proj1 Hsup); [apply In_el_allX; exact Hi|]. destruct (dom S K P (xh S (Sg i j)) p) eqn:E; [|reflexivity].
      exfalso. apply Hp, US, E.
Qed.

Lemma elastic_solves0 f u nt sr visA visB lg mg bg cb store :
  el_fvis nd K P pw true visA -> el_fvis nd K P pw false visB -> nt_ok nt sr cb ->
  exists U R st W, elastic_forward nd K P pw dt md visA visB lg mg bg sr f nt cb store u = Some (U, R, st) /\
    (W 0%Z = sinit S K P pw u /\ forall t c, In c (allC S) -> (nsteps nt sr <= t)%Z -> R t c = map (fun _ => 0) (sp_rec P c)) /\ sseq S K U (W (nsteps nt sr)) /\
    (forall p, (forall i, (i < nd)%nat -> updated P (on_v i) p -> mn (W 0%Z) (VL i) p = mn u (VL i) p) /\
               (forall i j, (i <= j < nd)%nat -> updated P (on_s i j) p -> mn (W 0%Z) (Sg i j) p = mn u (Sg i j) p)) /\
    (forall t, (0 <= t < nsteps nt sr)%Z -> elastic_eqs nd K P dt md (fun c => amp_at P (sp_src P c) (f t c)) (W t) (W (t + 1)%Z)) /\
    (forall t, (0 <= t < nsteps nt sr)%Z ->
       R t CP = read_at P (sp_rec P CP) (fun p => sumf (seq 0 nd) (fun i => mn (W t) (Sg i i) p)) /\
       forall d, (d < nd)%nat -> R t (CV d) = read_at P (sp_rec P (CV d)) (mn (W t) (VL d))).
Proof.
  intros VA VB Hnt.
  assert (Sok : sys_ok S (length (sp_shape P))) by (rewrite Hnd; apply el_sys_ok).
  assert (Hk : kern_ok S (el_kern nd) (length (sp_shape P))) by (rewrite Hnd; apply el_kern_ok, Hpos).
  destruct (k_fwd_spec S (el_kern nd) K Kr P (el_num nd K dt md) (el_kc dt md) pw Sok Hk (el_num_ok nd K Kr dt md) Hsrc Hrec Hgeo
     visA visB (el_fq lg mg bg) sr f nt cb store u VA VB Hnt) as (u' & r' & st' & E' & A1 & A2 & _).
  set (W := Fst S K P (el_kc dt md) f (sinit S K P pw u)) in *.
  assert (HW : forall t, (0 <= t)%Z -> W (t + 1)%Z = sstep S K P cc (f t) (W t)) by (intros t Ht; apply Fst_S, Ht).
  assert (Hsup : forall t, (0 <= t)%Z -> ssup S K P (W t)).
  { intros t Ht. rewrite <- (Z2Nat.id t Ht). induction (Z.to_nat t) as [|n IH].
    - apply ssup_sinit.
    - replace (Z.of_nat (Datatypes.S n)) with (Z.of_nat n + 1)%Z by lia. rewrite HW by lia. unfold sstep.
      apply (ssup_hstep S K Kr P Hsrc), (ssup_hstep S K Kr P Hsrc), IH. }
  exists u', r', st', W. split; [exact E'|]. split.
  { split; [reflexivity|]. intros t c Hc Ht. rewrite A2 by exact Hc. rewrite (proj2 (Z.ltb_ge _ _) Ht), andb_false_r. reflexivity. }
  split; [exact A1|]. split; [|split].
  - intros p. change (W 0%Z) with (sinit S K P pw u). cbn [mn sinit]. split.
    + intros d Hd Hp. apply UV in Hp. rewrite Hp. reflexivity.
    + intros i j Hij Hp. apply US in Hp. rewrite Hp. reflexivity.
  - intros t Ht. rewrite HW by lia. apply elastic_step_eqs. rewrite <- HW by lia. apply Hsup. lia.
  - intros t Ht.
    assert (Q : forall c, In c (el_allC nd) -> r' t c = read_at P (sp_rec P c) (chsum S K c (W t))).
    { intros x Hx. rewrite A2 by exact Hx. replace ((0 <=? t) && (t <? nsteps nt sr))%Z with true
        by (symmetry; apply andb_true_intro; rewrite Z.leb_le, Z.ltb_lt; lia). reflexivity. }
    split; [|intros d Hd]; rewrite Q by (apply In_el_allC; assumption || exact I); unfold read_at; apply map_ext; intros l;
      destruct (0 <=? l)%Z; try reflexivity; unfold chsum.
    + rewrite <- (sumf_map K (fun i => Sg i i) (seq 0 nd) (fun x => mn (W t) x (unidx shape l))). apply (sumf_perm K Kr). apply NoDup_Permutation.
      * apply NoDup_filter, NoDup_el_allX.
      * apply NoDup_map_i; [congruence|apply seq_NoDup].
      * intros x. unfold cinX. rewrite filter_In, in_map_iff. change (allX S) with (el_allX nd). rewrite In_el_allX. split.
        -- destruct x as [i|i j]; cbn; intros [H E]; [discriminate|]. apply Nat.eqb_eq in E. subst j. exists i. split; [reflexivity|apply in_seq; lia].
        -- intros (i & <- & H). apply in_seq in H. split; [lia|]. apply Nat.eqb_refl.
    + unfold cinX. rewrite (sumf_filter_if K Kr). rewrite (sumf_single K Kr _ (VL d)).
      * cbn. rewrite Nat.eqb_refl. reflexivity.
      * apply NoDup_el_allX.
      * apply In_el_allX. exact Hd.
      * intros [i|i j] _ Hy; cbn; [|reflexivity]. destruct (Nat.eqb_spec d i); [congruence|reflexivity].
Qed.
Lemma elastic_solves f u nt sr visA visB lg mg bg cb store :
  el_fvis nd K P pw true visA -> el_fvis nd K P pw false visB -> nt_ok nt sr cb ->
  exists U R st W, elastic_forward nd K P pw dt md visA visB lg mg bg sr f nt cb store u = Some (U, R, st) /\
    sseq S K U (W (nsteps nt sr)) /\
    (forall p, (forall i, (i < nd)%nat -> updated P (on_v i) p -> mn (W 0%Z) (VL i) p = mn u (VL i) p) /\
               (forall i j, (i <= j < nd)%nat -> updated P (on_s i j) p -> mn (W 0%Z) (Sg i j) p = mn u (Sg i j) p)) /\
    (forall t, (0 <= t < nsteps nt sr)%Z -> elastic_eqs nd K P dt md (fun c => amp_at P (sp_src P c) (f t c)) (W t) (W (t + 1)%Z)) /\
    (forall t, (0 <= t < nsteps nt sr)%Z ->
       R t CP = read_at P (sp_rec P CP) (fun p => sumf (seq 0 nd) (fun i => mn (W t) (Sg i i) p)) /\
       forall d, (d < nd)%nat -> R t (CV d) = read_at P (sp_rec P (CV d)) (mn (W t) (VL d))).
Proof.
  intros VA VB Hnt. destruct (elastic_solves0 f u nt sr visA visB lg mg bg cb store VA VB Hnt) as (U & R & st & W & H0 & _ & H1).
  exists U, R, st, W. split; [exact H0|exact H1].
Qed.
End El.
