(** * The equation the constant-density acoustic (scalar) propagator solves. *)
From Coq Require Import List ZArith QArith Ring Ring_theory Lia Bool Permutation.
From Verif Require Import Ops Sums Grid Stencil ScalarModel ScalarRefine ScalarForward ScalarFunc.
Import ListNotations.
Local Open Scope K_scope.

(** Cells at least a stencil away from the PML (and from the edge of the model). *)
Definition away {K : ops} (P : par K) (pw : nat -> Z * Z) (p : pt) : Prop :=
  length p = length (p_shape P) /\
  forall d, (d < length (p_shape P))%nat ->
    (2 * fd_pad (p_acc P) + fst (pw d) <= coord d p < nth d (p_shape P) 0 - snd (pw d) - 2 * fd_pad (p_acc P))%Z.
Definition cells {K : ops} (P : par K) (p : pt) : Prop :=
  length p = length (p_shape P) /\
  forall d, (d < length (p_shape P))%nat -> (fd_pad (p_acc P) <= coord d p < nth d (p_shape P) 0 - fd_pad (p_acc P))%Z.
Definition amp_in {K : ops} (P : par K) (locs : list Z) (amps : list K) (p : pt) : K :=
  sumf (combine locs amps) (fun la => if (fst la =? idx (p_shape P) p)%Z then snd la else 0).

(** One step: [w] is the wavefield, [w0] the previous one and [w1] the next one. *)
Record scalar_eqs (K : ops) (P : par K) (pw : nat -> Z * Z) (v : arr K) (src : field K) (s s' : st K) : Prop := {
  se_prev : forall p, s_wfp K s' p = s_wfc K s p;
  se_wave : forall p, away P pw p ->
    s_wfc K s' p = two * s_wfc K s p - s_wfp K s p
      + v (idx (p_shape P) p) * v (idx (p_shape P) p) * p_dt2 P
        * sumf (seq 0 (length (p_shape P))) (fun d => D2 (p_acc P) (p_rd2 P d) d (s_wfc K s) p)
      + src p;
  (* In the PML, d/dx is replaced by d/dx + psi and d^2/dx^2 by its expansion. *)
  se_pml : forall p, cells P p ->
    s_wfc K s' p = two * s_wfc K s p - s_wfp K s p
      + v (idx (p_shape P) p) * v (idx (p_shape P) p) * p_dt2 P
        * sumf (seq 0 (length (p_shape P))) (fun d =>
            let tmp := (1 + p_b P d (coord d p)) * D2 (p_acc P) (p_rd2 P d) d (s_wfc K s) p
                       + p_db P d (coord d p) * D1 (p_acc P) (p_rd P d) d (s_wfc K s) p
                       + D1 (p_acc P) (p_rd P d) d (fun q => p_a P d (coord d q) * s_psi K s d q) p in
            tmp + s_zeta K s' d p)
      + src p;
  se_psi : forall d p, cells P p ->
    s_psi K s' d p = p_b P d (coord d p) * D1 (p_acc P) (p_rd P d) d (s_wfc K s) p + p_a P d (coord d p) * s_psi K s d p;
  se_zeta : forall d p, cells P p ->
    s_zeta K s' d p = p_b P d (coord d p)
        * ((1 + p_b P d (coord d p)) * D2 (p_acc P) (p_rd2 P d) d (s_wfc K s) p
           + p_db P d (coord d p) * D1 (p_acc P) (p_rd P d) d (s_wfc K s) p
           + D1 (p_acc P) (p_rd P d) d (fun q => p_a P d (coord d q) * s_psi K s d q) p)
      + p_a P d (coord d p) * s_zeta K s d p;
  se_out : forall p, ~ cells P p -> inb (abox (p_shape P)) p = true -> s_wfc K s' p = 0
}.

Section Eqs.
Variable K : ops.
Hypothesis Kr : is_ring K.
Add Ring KRing : Kr.
Variable P : par K.
Variable pw : nat -> Z * Z.
Notation shape := (p_shape P).
Notation fd := (fd_pad (p_acc P)).
Hypothesis Hg : geom_ok K P pw.
Hypothesis Hsrc : Forall (loc_ok K P) (p_src P).
Hypothesis Hrec : Forall (loc_ok K P) (p_rec P).

Lemma cells_interior p : cells P p <-> interior K P p = true.
Proof. symmetry. apply inb_ibox. Qed.

Lemma inject_amp amps (g : field K) p : inb (abox shape) p = true ->
  inject K P (p_src P) amps g p = g p + amp_in P (p_src P) amps p.
Proof.
  intros Hp. unfold inject, amp_in. f_equal. apply (sumf_ext K).
  intros [l a] Hin. apply in_combine_l in Hin. rewrite Forall_forall in Hsrc. specialize (Hsrc l Hin). cbn [fst snd].
  pose proof (idx_bound shape p Hp) as Hb. destruct Hsrc as [Hl|[Hl Hi]].
  - destruct (Z.leb_spec 0 l); [lia|]. cbn. destruct (Z.eqb_spec l (idx shape p)); [lia|reflexivity].
  - destruct (Z.leb_spec 0 l); [|lia]. cbn [andb].
    destruct (Z.eqb_spec l (idx shape p)) as [->|Hn].
    + rewrite unidx_idx by exact Hp. destruct (pt_eq_dec p p); [reflexivity|congruence].
    + destruct (pt_eq_dec (unidx shape l) p) as [E|]; [|reflexivity]. exfalso. apply Hn. rewrite <- E. symmetry. apply idx_unidx; [|exact Hl].
      exact (inb_abox_pos shape p Hp).
Qed.
Lemma amp_out amps p : ~ cells P p -> inb (abox shape) p = true -> amp_in P (p_src P) amps p = 0.
Proof.
  intros Hc Hp. unfold amp_in. apply (sumf_zero K Kr). intros [l a] Hin. apply in_combine_l in Hin. cbn [fst snd].
  destruct (Z.eqb_spec l (idx shape p)) as [->|]; [|reflexivity]. rewrite Forall_forall in Hsrc. pose proof (idx_bound shape p Hp).
  destruct (Hsrc _ Hin) as [Hl|[_ Hi]]; [lia|]. rewrite unidx_idx in Hi by exact Hp. exfalso. apply Hc, cells_interior, Hi.
Qed.

Lemma DIFF1_0 rd (g : Z -> K) : (forall k, (- fd <= k <= fd)%Z -> g k = 0) -> DIFF1 (p_acc P) rd g = 0.
Proof.
  intros H. assert (E : DIFF1 (p_acc P) rd g = DIFF1 (p_acc P) rd (fun _ => 0)) by (apply DIFF1_ext; intros j Hj _; apply H, Hj).
  rewrite E. unfold DIFF1. assert (E' : forall cs k, st_odd cs k (fun _ : Z => o0 K) = 0).
  { intros cs. induction cs as [|c cs IH]; intros k; cbn; [reflexivity|]. rewrite IH. ring. }
  rewrite E'. ring.
Qed.

Lemma scalar_step_eqs v f s : scalar_eqs K P pw v (amp_in P (p_src P) f) s (step K P (fun p => v (idx shape p)) f s).
Proof.
  pose proof Hg as G. unfold geom_ok in G.
  split; cbn [step s_wfc s_wfp s_psi s_zeta].
  - reflexivity.
  - intros p [HL Hp].
    assert (Hc : cells P p) by (split; [exact HL|]; intros d Hd; specialize (Hp d Hd); destruct (G d Hd) as (? & ? & _); pose proof (fd_pad_pos (p_acc P)); lia).
    pose proof Hc as Hi. apply cells_interior in Hi.
    rewrite inject_amp by (apply (inint_arr K P), Hi). unfold mask. rewrite Hi.
    replace (wsum K P s p) with (sumf (seq 0 (length shape)) (fun d => D2 (p_acc P) (p_rd2 P d) d (s_wfc K s) p)); [ring|].
    unfold wsum, dims. apply (sumf_ext K). intros d Hd. apply in_seq in Hd. destruct (G d) as (g1 & g2 & g3 & g4 & g5); [lia|].
    specialize (Hp d). pose proof (fd_pad_pos (p_acc P)).
    destruct (g4 (coord d p)) as [Ea Eb]; [lia|]. unfold tmpf, pa, pb, pdb. rewrite Ea, Eb. rewrite g5 by lia.
    rewrite DIFF1_0 by (intros k Hk; apply g4; lia).
    unfold d1 at 2, D1. rewrite DIFF1_0.
    + unfold d2. ring.
    + intros k Hk. rewrite coord_shift_same by lia. destruct (g4 (coord d p + k)%Z) as [-> _]; [lia|]. ring.
  - intros p Hc. pose proof Hc as Hi. apply cells_interior in Hi.
    rewrite inject_amp by (apply (inint_arr K P), Hi). unfold mask. rewrite Hi.
    replace (wsum K P s p) with (sumf (seq 0 (length shape)) (fun d => tmpf K P (s_wfc K s) (s_psi K s d) d p
      + (pb K P d p * tmpf K P (s_wfc K s) (s_psi K s d) d p + pa K P d p * s_zeta K s d p))); [unfold tmpf, d1, d2, pa, pb, pdb; ring|].
    unfold wsum, dims. apply (sumf_ext K). intros d _. ring.
  - intros d p Hc. apply cells_interior in Hc. unfold mask. rewrite Hc. reflexivity.
  - intros d p Hc. apply cells_interior in Hc. unfold mask. rewrite Hc. reflexivity.
  - intros p Hc Hp. rewrite inject_amp by exact Hp. rewrite amp_out by assumption. unfold mask.
    destruct (interior K P p) eqn:E; [exfalso; apply Hc, cells_interior, E|ring].
Qed.

(** The forward function follows the equation for every step it takes, starting from the given wavefields; receivers read
    the wavefield before the step. *)
Lemma scalar_solves v vis vrg sr f nt cb store u :
  fvis K P pw vis -> (0 < sr)%Z -> cb_ok nt sr cb ->
  exists U R st (W : nat -> ScalarModel.st K),
    scalar_forward K P pw v vis vrg sr f nt cb store u = Some (U, R, st) /\
    (forall p, cells P p -> s_wfc K (W 0%nat) p = s_wfc K u (unpad K P p) /\ s_wfp K (W 0%nat) p = s_wfp K u (unpad K P p)) /\
    (forall q, In q (upts K P) -> s_wfc K U q = s_wfc K (W (nsteps nt sr)) (topad K P q)
                              /\ s_wfp K U q = s_wfp K (W (nsteps nt sr)) (topad K P q)) /\
    (forall k, (k < nsteps nt sr)%nat -> scalar_eqs K P pw v (amp_in P (p_src P) (f (Z.of_nat k))) (W k) (W (Datatypes.S k))) /\
    (forall k, (k < nsteps nt sr)%nat ->
       R (Z.of_nat k) = map (fun l => if (0 <=? l)%Z then s_wfc K (W k) (unidx shape l) else 0) (p_rec P)).
Proof.
  intros Hv Hs Hc. destruct (scalar_forward_spec K Kr P pw Hg Hsrc Hrec v vis vrg sr f nt cb store u Hv Hs Hc)
    as (U & R & S & E & H1 & H2 & _).
  exists U, R, S, (fun k => state K P (fun _ p => v (idx shape p)) f k 0 (uinit K P pw u)).
  split; [exact E|]. split; [|split; [|split]].
  - intros p Hp. apply cells_interior in Hp. cbn. rewrite Hp. split; reflexivity.
  - intros q Hq. destruct (H1 q Hq) as (A & B & _). split; [exact A|exact B].
  - intros k Hk. rewrite state_S_last. replace (0 + Z.of_nat k)%Z with (Z.of_nat k) by lia. apply scalar_step_eqs.
  - intros k Hk. rewrite H2 by exact Hk. reflexivity.
Qed.
End Eqs.
