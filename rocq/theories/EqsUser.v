(** * The equations in terms of the amplitudes given and returned to the user. *)
From Coq Require Import List ZArith QArith Ring Ring_theory Lia Bool Permutation.
From Verif Require Import Ops Sums Grid Stencil StencilOrder ScalarModel ScalarRefine ScalarForward ScalarFunc ScalarPhys ScalarEqs
  Stag StagAdj StagKernel StagCell StagRefine StagGrad AcousticModel AcousticThm ElasticModel ElasticThm StagEqs.
Import ListNotations.
Local Open Scope K_scope.

(** Pressure: the negative mean of the normal stresses. *)
Definition pressure {nd : nat} {K : ops} (W : sst (el_sys nd) K) : field K :=
  fun p => - sumf (seq 0 nd) (fun i => mn W (Sg i i) p) * oq K (1 # Pos.of_nat nd).
(** Source terms: forces times buoyancy (acoustic: volume rate times bulk modulus), pressure rates. *)
Definition ac_src {nd : nat} {K : ops} (P : spar (ac_sys nd) K) (dt : K) (kb : aM -> arr K) (amps : aX -> list K) : aX -> field K :=
  fun c p => match c with
             | XV d => dt * kb (MB d) (idx (sp_shape P) p) * amp_at P (sp_src P c) (amps c) p
             | XP => dt * kb MK (idx (sp_shape P) p) * amp_at P (sp_src P c) (amps c) p
             end.
Definition el_src {nd : nat} {K : ops} (P : spar (el_sys nd) K) (dt : K) (md : eM -> arr K) (amps : eC -> list K) : eC -> field K :=
  fun c p => match c with
             | CV d => dt * md (EB d) (idx (sp_shape P) p) * amp_at P (sp_src P c) (amps c) p
             | CP => - (dt * amp_at P (sp_src P c) (amps c) p)
             end.
Definition sc_src {K : ops} (P : par K) (v : arr K) (amps : list K) : field K :=
  fun p => - (v (idx (p_shape P) p) * v (idx (p_shape P) p) * p_dt2 P * amp_in P (p_src P) amps p).

Lemma combine_scaled {K : ops} (F : Z * K -> K) : forall (locs : list Z) (amps : list K),
  combine locs (map F (combine locs amps)) = map (fun la => (fst la, F la)) (combine locs amps).
Proof. induction locs as [|l locs IH]; intros [|a amps]; cbn; [reflexivity..|]. rewrite IH. reflexivity. Qed.

Lemma masked_idx s p : inb (abox s) p = true -> py_masked (idx s p) = idx s p.
Proof.
  intros H. unfold py_masked. pose proof (idx_bound s p H). destruct (Z.eqb_spec (idx s p) IGNORE) as [E|]; [|reflexivity].
  unfold IGNORE in E. lia.
Qed.

Section Amp.
Variable K : ops.
Hypothesis Kr : is_ring K.
Add Ring KRing : Kr.
Lemma sum_scaled (locs : list Z) (amps : list K) (F : Z * K -> K) i c :
  (forall la, fst la = i -> F la = c * snd la) ->
  sumf (combine locs (map F (combine locs amps))) (fun la => if (fst la =? i)%Z then snd la else 0)
  = c * sumf (combine locs amps) (fun la => if (fst la =? i)%Z then snd la else 0).
Proof.
  intros H. rewrite combine_scaled, (sumf_map K), <- (sumf_scal K Kr). apply (sumf_ext K). intros la _. cbn [fst snd].
  destruct (Z.eqb_spec (fst la) i) as [E|]; [rewrite H by exact E; reflexivity|ring].
Qed.
End Amp.

Section Ac.
Variable nd : nat.
Variable K : ops.
Hypothesis Kr : is_ring K.
Add Ring KRing2 : Kr.
Notation S := (ac_sys nd).
Variable P : spar S K.
Variable pw : nat -> Z * Z.
Hypothesis Hnd : length (sp_shape P) = nd.
Hypothesis Hsrc : locs_ok S K P (sp_src P).
Hypothesis Hrec : locs_ok S K P (sp_rec P).
Hypothesis Hgeo : sgeom S K P pw.
Variable dt : K.
Variable kb : aM -> arr K.

Lemma updated_in {S0 : sys} (P0 : spar S0 K) h p : updated P0 h p -> inb (abox (sp_shape P0)) p = true.
Proof. intros H. apply updated_dom in H. exact (dom_array S0 K P0 h p H). Qed.

Lemma acoustic_eqs_ext (src src' : aX -> field K) W W' :
  (forall c p, inb (abox (sp_shape P)) p = true -> src c p = src' c p) ->
  acoustic_eqs nd K P dt kb src W W' -> acoustic_eqs nd K P dt kb src' W W'.
Proof.
  intros E [H1 H2 H3 H4 H5]. split; try assumption.
  - intros d p Hd Hp. rewrite <- E by exact (updated_in P _ p Hp). apply H2; assumption.
  - intros p Hp. rewrite <- E by exact (updated_in P _ p Hp). apply H4; assumption.
Qed.

Lemma acoustic_user0 (amps : Z -> aX -> list K) u nt sr visA visB kg bg cb store :
  ac_fvis nd K P pw true visA -> ac_fvis nd K P pw false visB -> nt_ok nt sr cb ->
  exists U R st W,
    acoustic_forward nd K P pw dt kb visA visB kg bg sr (fun t => ac_prep dt kb (sp_src P) (amps t)) nt cb store u = Some (U, R, st) /\
    (W 0%Z = sinit S K P pw u /\ forall t c, In c (allC S) -> (StagRefine.nsteps nt sr <= t)%Z -> R t c = map (fun _ => 0) (sp_rec P c)) /\ sseq S K U (W (StagRefine.nsteps nt sr)) /\
    (forall p, (forall d, (d < nd)%nat -> updated P (Nat.eqb d) p -> mn (W 0%Z) (XV d) p = mn u (XV d) p) /\
               (updated P (fun _ => false) p -> mn (W 0%Z) XP p = mn u XP p)) /\
    (forall t, (0 <= t < StagRefine.nsteps nt sr)%Z -> acoustic_eqs nd K P dt kb (ac_src P dt kb (amps t)) (W t) (W (t + 1)%Z)) /\
    (forall t, (0 <= t < StagRefine.nsteps nt sr)%Z -> R t XP = read_at P (sp_rec P XP) (mn (W t) XP) /\
       forall d, (d < nd)%nat -> R t (XV d) = read_at P (sp_rec P (XV d)) (mn (W t) (XV d))).
Proof.
  intros VA VB Hnt.
  destruct (acoustic_solves0 nd K Kr P pw Hnd Hsrc Hrec Hgeo dt kb (fun t => ac_prep dt kb (sp_src P) (amps t)) u nt sr visA visB kg bg cb store VA VB Hnt)
    as (U & R & st & W & E & H0 & H1 & H2 & H3 & H4).
  exists U, R, st, W. split; [exact E|]. split; [exact H0|]. split; [exact H1|]. split; [exact H2|]. split; [|exact H4].
  intros t Ht. apply (acoustic_eqs_ext _ _ _ _) with (2 := H3 t Ht). intros c p Hp.
  unfold ac_src, amp_at, ac_prep.
  destruct c; apply (sum_scaled K Kr); intros la El; rewrite El, masked_idx by exact Hp; cbn [ac_model]; ring.
Qed.
Lemma acoustic_user (amps : Z -> aX -> list K) u nt sr visA visB kg bg cb store :
  ac_fvis nd K P pw true visA -> ac_fvis nd K P pw false visB -> nt_ok nt sr cb ->
  exists U R st W,
    acoustic_forward nd K P pw dt kb visA visB kg bg sr (fun t => ac_prep dt kb (sp_src P) (amps t)) nt cb store u = Some (U, R, st) /\
    sseq S K U (W (StagRefine.nsteps nt sr)) /\
    (forall p, (forall d, (d < nd)%nat -> updated P (Nat.eqb d) p -> mn (W 0%Z) (XV d) p = mn u (XV d) p) /\
               (updated P (fun _ => false) p -> mn (W 0%Z) XP p = mn u XP p)) /\
    (forall t, (0 <= t < StagRefine.nsteps nt sr)%Z -> acoustic_eqs nd K P dt kb (ac_src P dt kb (amps t)) (W t) (W (t + 1)%Z)) /\
    (forall t, (0 <= t < StagRefine.nsteps nt sr)%Z -> R t XP = read_at P (sp_rec P XP) (mn (W t) XP) /\
       forall d, (d < nd)%nat -> R t (XV d) = read_at P (sp_rec P (XV d)) (mn (W t) (XV d))).
Proof.
  intros VA VB Hnt. destruct (acoustic_user0 amps u nt sr visA visB kg bg cb store VA VB Hnt) as (U & R & st & W & H0 & _ & H1).
  exists U, R, st, W. split; [exact H0|exact H1].
Qed.
End Ac.

Section El.
Variable nd : nat.
Variable K : ops.
Hypothesis Kr : is_ring K.
Hypothesis Kq : is_qalg K.
Add Ring KRing3 : Kr.
Notation S := (el_sys nd).
Variable P : spar S K.
Variable pw : nat -> Z * Z.
Hypothesis Hnd : length (sp_shape P) = nd.
Hypothesis Hpos : (0 < nd)%nat.
Hypothesis Hsrc : locs_ok S K P (sp_src P).
Hypothesis Hrec : locs_ok S K P (sp_rec P).
Hypothesis Hgeo : sgeom S K P pw.
Variable dt : K.
Variable md : eM -> arr K.
Notation shape := (sp_shape P).

Lemma elastic_eqs_ext (src src' : eC -> field K) W W' :
  (forall c p, inb (abox shape) p = true -> src c p = src' c p) ->
  elastic_eqs nd K P dt md src W W' -> elastic_eqs nd K P dt md src' W W'.
Proof.
  intros E [H1 H2 H3 H4 H5 H6]. split; try assumption.
  - intros d p Hd Hp. rewrite <- E by exact (updated_in K P _ p Hp). apply H2; assumption.
  - intros i p Hi Hp strain. rewrite <- E by exact (updated_in K P _ p Hp). apply H4; assumption.
Qed.

Lemma sum_const (c : K) n : sumf (seq 0 n) (fun _ => c) = oq K (inject_Z (Z.of_nat n)) * c.
Proof.
  induction n as [|n IH].
  - cbn [seq sumf]. change (inject_Z (Z.of_nat 0)) with 0%Q. rewrite (morph0 Kq). ring.
  - rewrite seq_S, (sumf_app K Kr), IH. cbn [sumf].
    rewrite Nat2Z.inj_succ. unfold Z.succ. rewrite (morph_eq Kq (inject_Z (Z.of_nat n + 1)) (inject_Z (Z.of_nat n) + 1)%Q).
    + rewrite (morph_add Kq), (morph1 Kq). ring.
    + apply Qeq_eq_bool. rewrite inject_Z_plus. reflexivity.
Qed.
Lemma nd_inv : oq K (inject_Z (Z.of_nat nd)) * oq K (1 # Pos.of_nat nd) = 1.
Proof.
  rewrite <- (morph_mul Kq), <- (morph1 Kq). apply (morph_eq Kq). apply Qeq_eq_bool. unfold Qeq. cbn.
  rewrite Z.mul_1_r. rewrite <- (positive_nat_Z (Pos.of_nat nd)), Nat2Pos.id by lia. lia.
Qed.

Lemma elastic_pressure src W W' p : elastic_eqs nd K P dt md src W W' -> updated P (fun _ => false) p ->
  let strain l := deriv P false l (mn W' (VL l)) p + me W' (DV l l) p in
  pressure W' p = pressure W p
    - dt * (md ML (idx shape p) + two * md MMU (idx shape p) * oq K (1 # Pos.of_nat nd)) * sumf (seq 0 nd) strain
    - src CP p.
Proof.
  intros H Hp strain. unfold pressure.
  rewrite (sumf_ext K (seq 0 nd) (fun i => mn W' (Sg i i) p)
    (fun i => mn W (Sg i i) p + (dt * md ML (idx shape p) * sumf (seq 0 nd) strain + src CP p) + dt * (two * md MMU (idx shape p)) * strain i)).
  2:{ intros i Hi. apply in_seq in Hi. rewrite (ee_n _ _ _ _ _ _ _ _ H) by (lia || exact Hp). unfold strain. cbv beta zeta. ring. }
  rewrite !(sumf_add K Kr), !(sumf_scal K Kr), !sum_const. set (A := sumf (seq 0 nd) strain).
  set (B := sumf (seq 0 nd) (fun x => mn W (Sg x x) p)). set (q := oq K (1 # Pos.of_nat nd)). set (n := oq K (inject_Z (Z.of_nat nd))).
  assert (E : n * q = 1) by apply nd_inv.
  transitivity (- B * q - (n * q) * (dt * md ML (idx shape p) * A + src CP p) - dt * (two * md MMU (idx shape p)) * A * q); [ring|].
  rewrite E. ring.
Qed.

Lemma elastic_user0 (amps : Z -> eC -> list K) u nt sr visA visB lg mg bg cb store :
  el_fvis nd K P pw true visA -> el_fvis nd K P pw false visB -> nt_ok nt sr cb ->
  exists U R st W,
    elastic_forward nd K P pw dt md visA visB lg mg bg sr (fun t => el_prep dt md (sp_src P) (amps t)) nt cb store u = Some (U, R, st) /\
    (W 0%Z = sinit S K P pw u /\ forall t c, In c (allC S) -> (StagRefine.nsteps nt sr <= t)%Z -> R t c = map (fun _ => 0) (sp_rec P c)) /\ sseq S K U (W (StagRefine.nsteps nt sr)) /\
    (forall p, (forall i, (i < nd)%nat -> updated P (on_v i) p -> mn (W 0%Z) (VL i) p = mn u (VL i) p) /\
               (forall i j, (i <= j < nd)%nat -> updated P (on_s i j) p -> mn (W 0%Z) (Sg i j) p = mn u (Sg i j) p)) /\
    (forall t, (0 <= t < StagRefine.nsteps nt sr)%Z -> elastic_eqs nd K P dt md (el_src P dt md (amps t)) (W t) (W (t + 1)%Z)) /\
    (forall t p, (0 <= t < StagRefine.nsteps nt sr)%Z -> updated P (fun _ => false) p ->
       pressure (W (t + 1)%Z) p = pressure (W t) p
         - dt * (md ML (idx shape p) + two * md MMU (idx shape p) * oq K (1 # Pos.of_nat nd))
           * sumf (seq 0 nd) (fun l => deriv P false l (mn (W (t + 1)%Z) (VL l)) p + me (W (t + 1)%Z) (DV l l) p)
         + dt * amp_at P (sp_src P CP) (amps t CP) p) /\
    (forall t, (0 <= t < StagRefine.nsteps nt sr)%Z ->
       el_post nd R t CP = read_at P (sp_rec P CP) (pressure (W t)) /\
       forall d, (d < nd)%nat -> el_post nd R t (CV d) = read_at P (sp_rec P (CV d)) (mn (W t) (VL d))).
Proof.
  intros VA VB Hnt.
  destruct (elastic_solves0 nd K Kr P pw Hnd Hpos Hsrc Hrec Hgeo dt md (fun t => el_prep dt md (sp_src P) (amps t)) u nt sr visA visB lg mg bg cb store VA VB Hnt)
    as (U & R & st & W & E & H0 & H1 & H2 & H3 & H4).
  assert (H5 : forall t, (0 <= t < StagRefine.nsteps nt sr)%Z -> elastic_eqs nd K P dt md (el_src P dt md (amps t)) (W t) (W (t + 1)%Z)).
  { intros t Ht. apply (elastic_eqs_ext _ _ _ _) with (2 := H3 t Ht). intros c p Hp. unfold el_src, amp_at, el_prep. destruct c as [d|].
    - apply (sum_scaled K Kr). intros la El. rewrite El, masked_idx by exact Hp. ring.
    - rewrite (sum_scaled K Kr _ _ _ _ (- dt)) by (intros; ring). ring. }
  exists U, R, st, W. split; [exact E|]. split; [exact H0|]. split; [exact H1|]. split; [exact H2|]. split; [exact H5|]. split.
  - intros t p Ht Hp. rewrite (elastic_pressure _ _ _ p (H5 t Ht) Hp). unfold el_src. ring.
  - intros t Ht. destruct (H4 t Ht) as [HP HV]. split; [|exact HV].
    cbn [el_post]. rewrite HP. unfold read_at. rewrite map_map. apply map_ext. intros l. destruct (0 <=? l)%Z; [reflexivity|]. ring.
Qed.
Lemma elastic_user (amps : Z -> eC -> list K) u nt sr visA visB lg mg bg cb store :
  el_fvis nd K P pw true visA -> el_fvis nd K P pw false visB -> nt_ok nt sr cb ->
  exists U R st W,
    elastic_forward nd K P pw dt md visA visB lg mg bg sr (fun t => el_prep dt md (sp_src P) (amps t)) nt cb store u = Some (U, R, st) /\
    sseq S K U (W (StagRefine.nsteps nt sr)) /\
    (forall p, (forall i, (i < nd)%nat -> updated P (on_v i) p -> mn (W 0%Z) (VL i) p = mn u (VL i) p) /\
               (forall i j, (i <= j < nd)%nat -> updated P (on_s i j) p -> mn (W 0%Z) (Sg i j) p = mn u (Sg i j) p)) /\
    (forall t, (0 <= t < StagRefine.nsteps nt sr)%Z -> elastic_eqs nd K P dt md (el_src P dt md (amps t)) (W t) (W (t + 1)%Z)) /\
    (forall t p, (0 <= t < StagRefine.nsteps nt sr)%Z -> updated P (fun _ => false) p ->
       pressure (W (t + 1)%Z) p = pressure (W t) p
         - dt * (md ML (idx shape p) + two * md MMU (idx shape p) * oq K (1 # Pos.of_nat nd))
           * sumf (seq 0 nd) (fun l => deriv P false l (mn (W (t + 1)%Z) (VL l)) p + me (W (t + 1)%Z) (DV l l) p)
         + dt * amp_at P (sp_src P CP) (amps t CP) p) /\
    (forall t, (0 <= t < StagRefine.nsteps nt sr)%Z ->
       el_post nd R t CP = read_at P (sp_rec P CP) (pressure (W t)) /\
       forall d, (d < nd)%nat -> el_post nd R t (CV d) = read_at P (sp_rec P (CV d)) (mn (W t) (VL d))).
Proof.
  intros VA VB Hnt. destruct (elastic_user0 amps u nt sr visA visB lg mg bg cb store VA VB Hnt) as (U & R & st & W & H0 & _ & H1).
  exists U, R, st, W. split; [exact H0|exact H1].
Qed.
End El.

Section Sc.
Variable K : ops.
Hypothesis Kr : is_ring K.
Add Ring KRing4 : Kr.
Variable P : par K.
Variable pw : nat -> Z * Z.
Hypothesis Hg : geom_ok K P pw.
Hypothesis Hsrc : Forall (loc_ok K P) (p_src P).
Hypothesis Hrec : Forall (loc_ok K P) (p_rec P).
Notation shape := (p_shape P).

Lemma scalar_user v vis vrg sr (amps : Z -> list K) nt cb store u :
  fvis K P pw vis -> (0 < sr)%Z -> cb_ok nt sr cb ->
  exists U R st (W : nat -> ScalarModel.st K),
    scalar_forward K P pw v vis vrg sr (fun t => scale_sources v (p_dt2 P) (p_src P) (amps t)) nt cb store u = Some (U, R, st) /\
    (forall p, cells P p -> s_wfc K (W 0%nat) p = s_wfc K u (unpad K P p) /\ s_wfp K (W 0%nat) p = s_wfp K u (unpad K P p)) /\
    (forall q, In q (ScalarFunc.upts K P) -> s_wfc K U q = s_wfc K (W (ScalarFunc.nsteps nt sr)) (topad K P q)
                              /\ s_wfp K U q = s_wfp K (W (ScalarFunc.nsteps nt sr)) (topad K P q)) /\
    (forall k, (k < ScalarFunc.nsteps nt sr)%nat -> scalar_eqs K P pw v (sc_src P v (amps (Z.of_nat k))) (W k) (W (Datatypes.S k))) /\
    (forall k, (k < ScalarFunc.nsteps nt sr)%nat ->
       R (Z.of_nat k) = map (fun l => if (0 <=? l)%Z then s_wfc K (W k) (unidx shape l) else 0) (p_rec P)).
Proof.
  intros Hv Hs Hc.
  destruct (scalar_solves K Kr P pw Hg Hsrc Hrec v vis vrg sr (fun t => scale_sources v (p_dt2 P) (p_src P) (amps t)) nt cb store u Hv Hs Hc)
    as (U & R & st & W & E & H1 & H2 & H3 & H4).
  exists U, R, st, W. split; [exact E|]. split; [exact H1|]. split; [exact H2|]. split; [|exact H4].
  intros k Hk. destruct (H3 k Hk) as [A1 A2 A3 A4 A5 A6].
  assert (Q : forall p, cells P p -> amp_in P (p_src P) (scale_sources v (p_dt2 P) (p_src P) (amps (Z.of_nat k))) p = sc_src P v (amps (Z.of_nat k)) p).
  { intros p Hp. apply cells_interior in Hp. unfold amp_in, scale_sources, sc_src.
    rewrite (sum_scaled K Kr _ _ _ _ (- (v (idx shape p) * v (idx shape p) * p_dt2 P))).
    - unfold amp_in. ring.
    - intros la El. rewrite El, masked_idx by exact (inint_arr K P p Hp). ring. }
  split; try assumption.
  - intros p Hp. rewrite <- Q; [apply A2, Hp|]. destruct Hp as [L Hp]. split; [exact L|]. intros d Hd. specialize (Hp d Hd).
    destruct (Hg d Hd) as (? & ? & _). pose proof (fd_pad_pos (p_acc P)). lia.
  - intros p Hp. rewrite <- Q by exact Hp. apply A3, Hp.
Qed.
End Sc.
