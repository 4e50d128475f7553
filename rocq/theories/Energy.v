(** * Energy of the discrete scalar wavefield without PML: conservation in any ring, positivity
    and stability over the reals (C26). *)
From Coq Require Import List ZArith QArith Qreals Ring Ring_theory Lia Bool Permutation.
From Verif Require Import Ops Sums Grid Stencil DualNum ScalarModel ScalarRefine ScalarForward
  ScalarBackward ScalarAdjoint ScalarFunc ScalarApi ScalarGrad ScalarMore ScalarPhys.
Import ListNotations.
Local Open Scope K_scope.

Local Arguments d2 : simpl never.
Local Arguments mask : simpl never.
Local Arguments lap : simpl never.

(** ** Conservation *)

(** The user's wavefield, continued by zero outside the model. *)
Definition padded (K : ops) (P : par K) (f : field K) : field K :=
  fun p => if interior K P p then f (unpad K P p) else 0.

(** Discrete energy of the current wavefield [c] and the previous wavefield [p]:
    the increment squared over [v^2 dt^2] ([m] is the inverse of [v^2 dt^2]), minus the current
    wavefield times the Laplacian of the previous one. *)
Definition energy (K : ops) (P : par K) (m c p : field K) : K :=
  sumf (upts K P) (fun q => m q * ((c q - p q) * (c q - p q)))
  - sumf (upts K P) (fun q => c q * lap K P (padded K P p) (topad K P q)).

Section Conserve.
Variable K : ops.
Hypothesis Kr : is_ring K.
Add Ring KRing : Kr.
Variable P : par K.
Notation shape := (p_shape P).
Notation I := (ipts K P).
Notation inint p := (interior K P p = true).
Hypothesis NP : no_pml P.

Definition en (m : field K) (w : field K * field K) : K :=
  sumf I (fun p => m p * ((fst w p - snd w p) * (fst w p - snd w p)))
  - sumf I (fun p => fst w p * lap K P (snd w) p).

Lemma en_ext m a b : weq K a b -> en m a = en m b.
Proof.
  intros [H1 H2]. unfold en. f_equal; apply (sumf_ext K); intros p _; rewrite ?H1, ?H2; [reflexivity|].
  f_equal. apply lap_ext. exact H2.
Qed.

(** [m] inverts [v^2 dt^2] in the cell, or the wavespeed is zero there and the wavefield at rest. *)
Definition cell_ok (m v : field K) (w : field K * field K) (p : pt) : Prop :=
  m p * (v p * v p * p_dt2 P) = 1 \/ (v p * v p * p_dt2 P = 0 /\ fst w p = snd w p).

Lemma cell_ok_step m v w : (forall p, inint p -> cell_ok m v w p) -> 
  (forall p, inint p -> cell_ok m v (wstep K P v w) p).
Proof.
  intros Hm p Hp. destruct (Hm p Hp) as [H|[H1 H2]]; [left; exact H|right; split; [exact H1|]].
  cbn [wstep fst snd]. unfold mask. rewrite Hp, H1, <- H2. unfold two. ring.
Qed.

Lemma en_step m v w : (forall p, inint p -> cell_ok m v w p) -> wsupp K P w ->
  en m (wstep K P v w) = en m w.
Proof.
  intros Hm [H1 H2]. unfold en. cbn [wstep fst snd].
  assert (S : sumf I (fun p => fst w p * lap K P (snd w) p) = sumf I (fun p => lap K P (fst w) p * snd w p))
    by exact (lap_sym K Kr P (fst w) (snd w) H1 H2).
  rewrite S. rewrite <- !(sumf_sub K Kr). apply (sumf_ext K). intros p Hp.
  assert (Hi : inint p) by (apply In_ipts; exact Hp). specialize (Hm p Hi). unfold mask. rewrite Hi. unfold cell_ok in Hm.
  set (L := lap K P (fst w) p). set (a := fst w p) in *. set (b := snd w p) in *.
  set (V := v p * v p * p_dt2 P) in *. destruct Hm as [Hm|[HV Hab]].
  - transitivity (m p * V * L * (V * L + two * a - two * b) + m p * ((a - b) * (a - b)) - (V * L + two * a - b) * L).
    + unfold two. ring.
    + rewrite Hm. unfold two. ring.
  - rewrite HV, Hab. unfold two. ring.
Qed.

Lemma en_run m v n w : (forall p, inint p -> cell_ok m v w p) -> wsupp K P w ->
  en m (wrun K P v n w) = en m w.
Proof.
  revert w. induction n as [|n IH]; intros w Hm Hw; cbn [wrun]; [reflexivity|].
  rewrite IH by (try apply wsupp_step; try apply cell_ok_step; assumption). apply en_step; assumption.
Qed.

(** The increments of the wavefield follow the same recursion. *)
Definition winc (v : field K) (w : field K * field K) : field K * field K :=
  (fun p => fst (wstep K P v w) p - fst w p, fun p => fst w p - snd w p).

Lemma lap_sub f g p : lap K P (fun q => f q - g q) p = lap K P f p - lap K P g p.
Proof.
  rewrite (lap_ext K P (fun q => f q - g q) (fun q => f q + (- (1)) * g q)) by (intros; ring).
  rewrite (lap_add K Kr), (lap_scal K Kr). ring.
Qed.

Lemma winc_step v w : wsupp K P w -> weq K (winc v (wstep K P v w)) (wstep K P v (winc v w)).
Proof.
  intros [H1 H2]. split; [|reflexivity]. intros p. set (G := fst (wstep K P v w)).
  change (mask K P (fun p => v p * v p * p_dt2 P * lap K P G p + two * G p - fst w p) p - G p
    = mask K P (fun p => v p * v p * p_dt2 P * lap K P (fun q => G q - fst w q) p + two * (G p - fst w p) - (fst w p - snd w p)) p).
  assert (EG : G p = mask K P (fun p => v p * v p * p_dt2 P * lap K P (fst w) p + two * fst w p - snd w p) p) by reflexivity.
  clearbody G. unfold mask in *. destruct (interior K P p).
  - rewrite lap_sub. rewrite EG. unfold two. ring.
  - rewrite EG. ring.
Qed.
Lemma winc_ext v a b : weq K a b -> weq K (winc v a) (winc v b).
Proof.
  intros H. pose proof (wstep_ext K P v a b H) as [H1 _]. destruct H as [H3 H4].
  split; intros p; cbn [winc fst snd]; [rewrite H1, H3|rewrite H3, H4]; reflexivity.
Qed.
Lemma winc_run v n w : wsupp K P w -> weq K (winc v (wrun K P v n w)) (wrun K P v n (winc v w)).
Proof.
  revert w. induction n as [|n IH]; intros w Hw; cbn [wrun]; [apply weq_refl|].
  eapply weq_trans; [apply IH, wsupp_step, Hw|]. apply wrun_ext, winc_step, Hw.
Qed.
Lemma winc_supp v w : wsupp K P w -> wsupp K P (winc v w).
Proof.
  intros [H1 H2]. split; intros p Hp; cbn [winc wstep fst snd]; [unfold mask; rewrite Hp, (H1 p Hp); ring|].
  rewrite (H1 p Hp), (H2 p Hp). ring.
Qed.
(** Where the wavespeed is zero, the increments do not change. *)
Lemma winc_rest v w p : inint p -> v p * v p * p_dt2 P = 0 -> fst (winc v w) p = snd (winc v w) p.
Proof. intros Hp HV. cbn [winc wstep fst snd]. unfold mask. rewrite Hp, HV. unfold two. ring. Qed.

Lemma energy_en m c p (w : field K * field K) :
  (forall q, In q (upts K P) -> c q = fst w (topad K P q)) ->
  (forall q, In q (upts K P) -> p q = snd w (topad K P q)) -> wsupp K P w ->
  energy K P m c p = en (fun x => m (unpad K P x)) w.
Proof.
  intros Hc Hp [H1 H2]. unfold energy, en.
  assert (E : forall x, padded K P p x = snd w x).
  { intros x. unfold padded. destruct (interior K P x) eqn:Hi; [|symmetry; apply H2; exact Hi].
    rewrite Hp, topad_unpad; [reflexivity|]. apply In_upts. rewrite topad_unpad. exact Hi. }
  rewrite <- !(sumf_perm K Kr (map (topad K P) (upts K P)) (ipts K P)) by apply upts_perm.
  rewrite !sumf_map. f_equal; apply (sumf_ext K); intros q Hq; rewrite ?unpad_topad, ?Hc, ?Hp by exact Hq;
    [reflexivity|]. f_equal. apply lap_ext. exact E.
Qed.

Section User.
Variable pw : nat -> Z * Z.
Hypothesis Hg : geom_ok K P pw.
Hypothesis Hsrc : Forall (loc_ok K P) (p_src P).
Hypothesis Hrec : Forall (loc_ok K P) (p_rec P).

Lemma uinit_supp u : wsupp K P (wof K (uinit K P pw u)).
Proof. destruct (ssupp_uinit K P pw u) as (S1' & S2' & _). split; assumption. Qed.

Lemma uinit_wfc u q : In q (upts K P) -> s_wfc K u q = fst (wof K (uinit K P pw u)) (topad K P q).
Proof. intros Hq. cbn. apply In_upts in Hq. rewrite Hq, unpad_topad. reflexivity. Qed.
Lemma uinit_wfp u q : In q (upts K P) -> s_wfp K u q = snd (wof K (uinit K P pw u)) (topad K P q).
Proof. intros Hq. cbn. apply In_upts in Hq. rewrite Hq, unpad_topad. reflexivity. Qed.

Lemma out_run (v : arr K) f u nt sr vis vrg cb st0 U R S :
  fvis K P pw vis -> (0 < sr)%Z -> cb_ok nt sr cb ->
  (forall t, Forall (fun x => x = 0) (f t)) ->
  scalar_forward K P pw v vis vrg sr f nt cb st0 u = Some (U, R, S) ->
  let w := wrun K P (fun p => v (idx shape p)) (nsteps nt sr) (wof K (uinit K P pw u)) in
  forall q, In q (upts K P) -> s_wfc K U q = fst w (topad K P q) /\ s_wfp K U q = snd w (topad K P q).
Proof.
  intros V1 Hs C1 F1 E1.
  destruct (fwd_out K Kr P pw Hg Hsrc Hrec _ _ _ _ _ _ _ _ _ _ _ _ V1 Hs C1 E1) as (A1 & _).
  pose proof (wof_state K Kr P NP (fun p => v (idx shape p)) f (nsteps nt sr) 0 (uinit K P pw u) F1) as W1.
  cbv zeta. intros q Hq. destruct (A1 q Hq) as (-> & -> & _). cbn. split; apply W1.
Qed.

Lemma energy_conserved (m : field K) (v : arr K) f u nt sr vis vrg cb st0 U R S :
  fvis K P pw vis -> (0 < sr)%Z -> cb_ok nt sr cb ->
  (forall t, Forall (fun x => x = 0) (f t)) ->
  (forall q, In q (upts K P) -> let V := v (idx shape (topad K P q)) * v (idx shape (topad K P q)) * p_dt2 P in
     m q * V = 1 \/ (V = 0 /\ s_wfc K u q = s_wfp K u q)) ->
  scalar_forward K P pw v vis vrg sr f nt cb st0 u = Some (U, R, S) ->
  energy K P m (s_wfc K U) (s_wfp K U) = energy K P m (s_wfc K u) (s_wfp K u).
Proof.
  intros V1 Hs C1 F1 Hm E1.
  pose proof (out_run v f u nt sr vis vrg cb st0 U R S V1 Hs C1 F1 E1) as A1. cbv zeta in A1.
  set (vf := fun p => v (idx shape p)) in *. set (N := nsteps nt sr) in *.
  pose proof (uinit_supp u) as WU. pose proof (wsupp_run K P vf N _ WU) as WS.
  rewrite (energy_en m (s_wfc K U) (s_wfp K U) (wrun K P vf N (wof K (uinit K P pw u)))); [| | |exact WS];
    [|intros q Hq; apply A1, Hq..].
  rewrite (en_run _ vf N); [| |exact WU].
  - symmetry. apply energy_en; [intros; apply uinit_wfc; assumption|intros; apply uinit_wfp; assumption|exact WU].
  - intros p Hp. assert (Hin : In (unpad K P p) (upts K P)) by (apply In_upts; rewrite topad_unpad; exact Hp).
    specialize (Hm _ Hin). cbv zeta in Hm.
    rewrite uinit_wfc, uinit_wfp in Hm by exact Hin. rewrite !topad_unpad in Hm. exact Hm.
Qed.

(** The increment of the first step. *)
Definition first_inc (v : arr K) (u : st K) : field K := fun q =>
  v (idx shape (topad K P q)) * v (idx shape (topad K P q)) * p_dt2 P * lap K P (padded K P (s_wfc K u)) (topad K P q)
  + (s_wfc K u q - s_wfp K u q).

Lemma increments (m : field K) (v : arr K) f u nt sr vis vrg cb st0 U R S :
  fvis K P pw vis -> (0 < sr)%Z -> cb_ok nt sr cb ->
  (forall t, Forall (fun x => x = 0) (f t)) ->
  (forall q, In q (upts K P) -> let V := v (idx shape (topad K P q)) * v (idx shape (topad K P q)) * p_dt2 P in
     m q * V = 1 \/ V = 0) ->
  scalar_forward K P pw v vis vrg sr f nt cb st0 u = Some (U, R, S) ->
  exists c, energy K P m c (fun q => s_wfc K U q - s_wfp K U q)
    = energy K P m (first_inc v u) (fun q => s_wfc K u q - s_wfp K u q).
Proof.
  intros V1 Hs C1 F1 Hm E1.
  pose proof (out_run v f u nt sr vis vrg cb st0 U R S V1 Hs C1 F1 E1) as A1. cbv zeta in A1.
  set (vf := fun p => v (idx shape p)) in *. set (N := nsteps nt sr) in *.
  pose proof (uinit_supp u) as WU. pose proof (wsupp_run K P vf N _ WU) as WS.
  set (w0 := wof K (uinit K P pw u)) in *.
  pose proof (winc_supp vf w0 WU) as IU. pose proof (wsupp_run K P vf N _ IU) as IS.
  pose proof (winc_run vf N w0 WU) as [_ WI].
  exists (fun q => fst (wrun K P vf N (winc vf w0)) (topad K P q)).
  rewrite (energy_en m _ _ (wrun K P vf N (winc vf w0))); [| | |exact IS].
  2: reflexivity.
  2:{ intros q Hq. destruct (A1 q Hq) as [-> ->]. rewrite <- WI. reflexivity. }
  rewrite (en_run _ vf N); [| |exact IU].
  - symmetry. apply energy_en; [| |exact IU].
    + intros q Hq. unfold first_inc. cbn [winc wstep fst snd]. unfold mask.
      rewrite (uinit_wfc u q Hq), (uinit_wfp u q Hq). fold w0.
      assert (E : lap K P (padded K P (s_wfc K u)) (topad K P q) = lap K P (fst w0) (topad K P q)).
      { apply lap_ext. intros x. unfold padded. destruct (interior K P x) eqn:Hx; [|symmetry; apply WU; exact Hx].
        rewrite uinit_wfc, topad_unpad; [reflexivity|]. apply In_upts. rewrite topad_unpad. exact Hx. }
      rewrite E. apply In_upts in Hq. rewrite Hq. unfold vf, two. ring.
    + intros q Hq. cbn [winc fst snd]. rewrite (uinit_wfc u q Hq), (uinit_wfp u q Hq). reflexivity.
  - intros p Hp. assert (Hin : In (unpad K P p) (upts K P)) by (apply In_upts; rewrite topad_unpad; exact Hp).
    specialize (Hm _ Hin). cbv zeta in Hm. rewrite !topad_unpad in Hm. destruct Hm as [Hm|Hm]; [left; exact Hm|].
    right. split; [exact Hm|]. apply winc_rest; assumption.
Qed.
End User.
End Conserve.
