(** * Properties of the Ricker wavelet. *)
From Coq Require Import List ZArith Reals Lra Lia.
From Verif Require Import Grid Shots WaveletModel.
Import ListNotations.
Local Open Scope R_scope.

Lemma ricker_shape f t : ricker_at f t = (1 - 2 * (PI * f * t) ^ 2) * exp (- (PI * f * t) ^ 2).
Proof.
  unfold ricker_at. f_equal; [ring|f_equal; ring].
Qed.
Lemma sq_le_0 x : 0 <= x ^ 2.
Proof. rewrite <- Rsqr_pow2. apply Rle_0_sqr. Qed.
Lemma ricker_ge f t : - 2 * exp (- (3 / 2)) <= ricker_at f t.
Proof.
  rewrite ricker_shape. set (s := (PI * f * t) ^ 2). clearbody s.
  assert (E : s - 1 / 2 <= exp (s - 3 / 2)) by (pose proof (exp_ineq1_le (s - 3 / 2)); lra).
  assert (X : exp (s - 3 / 2) * exp (- s) = exp (- (3 / 2))) by (rewrite <- exp_plus; f_equal; lra).
  pose proof (exp_pos (- s)) as P. nra.
Qed.
Lemma ricker_le f t : ricker_at f t <= 1.
Proof.
  rewrite ricker_shape. pose proof (sq_le_0 (PI * f * t)) as H. set (s := (PI * f * t) ^ 2) in *. clearbody s.
  assert (E : exp (- s) <= 1) by (rewrite <- exp_0; destruct (Req_dec s 0) as [->|N]; [right; f_equal; lra|left; apply exp_increasing; lra]).
  pose proof (exp_pos (- s)). nra.
Qed.
Lemma ricker_one f t : f <> 0 -> ricker_at f t = 1 -> t = 0.
Proof.
  intros Hf. rewrite ricker_shape. pose proof (sq_le_0 (PI * f * t)) as H. intros E.
  assert (S : (PI * f * t) ^ 2 = 0).
  { set (s := (PI * f * t) ^ 2) in *. clearbody s. destruct (Req_dec s 0) as [->|N]; [reflexivity|exfalso].
    assert (exp (- s) < 1) by (rewrite <- exp_0; apply exp_increasing; lra). pose proof (exp_pos (- s)). nra. }
  assert (PI * f * t = 0) by (destruct (Req_dec (PI * f * t) 0); [assumption|exfalso; apply (pow_nonzero _ 2) in H0; lra]).
  apply Rmult_integral in H0. destruct H0 as [H0|H0]; [|exact H0]. apply Rmult_integral in H0. pose proof PI_RGT_0. destruct H0; lra.
Qed.
Lemma ricker_zero f t : ricker_at f t = 0 <-> (PI * f * t) ^ 2 = / 2.
Proof.
  rewrite ricker_shape. pose proof (exp_pos (- (PI * f * t) ^ 2)). split; intros E; [|rewrite E; lra].
  apply Rmult_integral in E. destruct E; lra.
Qed.
Lemma ricker_trough f t : ricker_at f t = - 2 * exp (- (3 / 2)) <-> (PI * f * t) ^ 2 = 3 / 2.
Proof.
  rewrite ricker_shape. set (s := (PI * f * t) ^ 2). clearbody s. split; intros E; [|rewrite E; lra].
  destruct (Req_dec (s - 3 / 2) 0) as [|N]; [lra|exfalso]. pose proof (exp_ineq1 (s - 3 / 2) N) as E1.
  assert (X : exp (s - 3 / 2) * exp (- s) = exp (- (3 / 2))) by (rewrite <- exp_plus; f_equal; lra).
  pose proof (exp_pos (- s)) as P. nra.
Qed.
(** Minus the second derivative of a Gaussian. *)
Definition gauss (f t : R) : R := exp (- (PI * f * t) ^ 2).
Lemma gauss_d f t : derivable_pt_lim (gauss f) t (- 2 * (PI * f) ^ 2 * t * gauss f t).
Proof.
  unfold gauss. replace (- 2 * (PI * f) ^ 2 * t * exp (- (PI * f * t) ^ 2)) with (exp (- (PI * f * t) ^ 2) * (- 2 * (PI * f) ^ 2 * t)) by ring.
  apply (derivable_pt_lim_comp (fun t => - (PI * f * t) ^ 2) exp).
  - apply (derivable_pt_lim_ext (fun t => (- (PI * f) ^ 2) * (t * t))); [intros x; ring|].
    replace (- 2 * (PI * f) ^ 2 * t) with ((- (PI * f) ^ 2) * (1 * t + t * 1)) by ring. apply derivable_pt_lim_scal.
    apply (derivable_pt_lim_mult id id); apply derivable_pt_lim_id.
  - apply derivable_pt_lim_exp.
Qed.
Lemma gauss_dd f t : derivable_pt_lim (fun t => - 2 * (PI * f) ^ 2 * t * gauss f t) t (- 2 * (PI * f) ^ 2 * ricker_at f t).
Proof.
  apply (derivable_pt_lim_ext (fun t => (- 2 * (PI * f) ^ 2) * (t * gauss f t))); [intros x; ring|].
  apply derivable_pt_lim_scal.
  replace (ricker_at f t) with (1 * gauss f t + t * (- 2 * (PI * f) ^ 2 * t * gauss f t)) by (rewrite ricker_shape; unfold gauss; ring).
  apply (derivable_pt_lim_mult id (gauss f)); [apply derivable_pt_lim_id|apply gauss_d].
Qed.

Lemma ricker_nth f n dt p l k : ricker f n dt p = Some l -> length l = Z.to_nat n /\ ((0 <= k < n)%Z -> nth (Z.to_nat k) l 0 = ricker_at f (IZR k * dt - p)).
Proof.
  unfold ricker. destruct (Req_EM_T dt 0); [discriminate|]. destruct (n <? 0)%Z eqn:En; [discriminate|]. intros E. injection E as <-.
  split; [rewrite map_length, zrange_length; f_equal; lia|]. intros Hk.
  rewrite (nth_indep _ _ (ricker_at f (IZR 0 * dt - p))) by (rewrite map_length, zrange_length; lia).
  rewrite (map_nth (fun k => ricker_at f (IZR k * dt - p))), nth_zrange by lia. do 4 f_equal. lia.
Qed.
Lemma ricker_runs f n dt p : (exists l, ricker f n dt p = Some l) <-> dt <> 0 /\ (0 <= n)%Z.
Proof.
  unfold ricker. destruct (Req_EM_T dt 0) as [E|E]; [split; [intros [l H]; discriminate|tauto]|]. destruct (Z.ltb_spec n 0); split; try (intros [l H0]; discriminate); try lia; eauto.
Qed.
(** Everything about the samples. *)
Theorem ricker_samples f n dt p l : f <> 0 -> ricker f n dt p = Some l ->
  length l = Z.to_nat n /\
  forall k, (0 <= k < n)%Z -> let y := nth (Z.to_nat k) l 0 in let t := IZR k * dt in
    - 2 * exp (- (3 / 2)) <= y <= 1 /\
    (y = 1 <-> t = p) /\
    (y = 0 <-> (PI * f * (t - p)) ^ 2 = / 2) /\
    (y = - 2 * exp (- (3 / 2)) <-> (PI * f * (t - p)) ^ 2 = 3 / 2).
Proof.
  intros Hf E. split; [apply (ricker_nth f n dt p l 0 E)|]. intros k Hk y t. destruct (ricker_nth f n dt p l k E) as [_ N]. specialize (N Hk). subst y t. rewrite N.
  split; [split; [apply ricker_ge|apply ricker_le]|]. split; [|split; [apply ricker_zero|apply ricker_trough]]. split; intros H.
  - apply ricker_one in H; [lra|exact Hf].
  - replace (IZR k * dt - p) with 0 by lra. rewrite ricker_shape. replace (PI * f * 0) with 0 by ring. replace (0 ^ 2) with 0 by ring. rewrite Ropp_0, exp_0. ring.
Qed.
Theorem ricker_second f n dt p l : ricker f n dt p = Some l ->
  exists g', (forall t, derivable_pt_lim (fun t => exp (- (PI * f * (t - p)) ^ 2)) t (g' t)) /\
  forall k, (0 <= k < n)%Z -> derivable_pt_lim g' (IZR k * dt) (- 2 * (PI * f) ^ 2 * nth (Z.to_nat k) l 0).
Proof.
  intros E. exists (fun t => - 2 * (PI * f) ^ 2 * (t - p) * gauss f (t - p)).
  assert (S : forall g x d, derivable_pt_lim g (x - p) d -> derivable_pt_lim (fun x => g (x - p)) x d).
  { intros g x d H. replace d with (d * (1 - 0)) by ring. apply (derivable_pt_lim_comp (fun x => x - p) g); [|exact H]. apply (derivable_pt_lim_minus id (fct_cte p)); [apply derivable_pt_lim_id|apply derivable_pt_lim_const]. }
  split; [intros t; apply (S (gauss f) t); apply gauss_d|]. intros k Hk. destruct (ricker_nth f n dt p l k E) as [_ N]. rewrite (N Hk). apply (S (fun t => - 2 * (PI * f) ^ 2 * t * gauss f t)). apply gauss_dd.
Qed.
(** Frequency and sampling interval matter through their product only; samples at equal distance from the peak agree. *)
Theorem ricker_scale c f n dt p l l' : c <> 0 -> ricker f n dt p = Some l -> ricker (c * f) n (dt / c) (p / c) = Some l' -> l = l'.
Proof.
  intros Hc. unfold ricker. destruct (Req_EM_T dt 0); [discriminate|]. destruct (Req_EM_T (dt / c) 0); [discriminate|]. destruct (n <? 0)%Z; [discriminate|].
  intros E E'. injection E as <-. injection E' as <-. apply map_ext. intros k. rewrite !ricker_shape. replace (PI * (c * f) * (IZR k * (dt / c) - p / c)) with (PI * f * (IZR k * dt - p)) by (field; exact Hc). reflexivity.
Qed.
Theorem ricker_even f n dt p l j k : ricker f n dt p = Some l -> (0 <= j < n)%Z -> (0 <= k < n)%Z -> IZR j * dt - p = p - IZR k * dt -> nth (Z.to_nat j) l 0 = nth (Z.to_nat k) l 0.
Proof.
  intros E Hj Hk H. destruct (ricker_nth f n dt p l j E) as [_ N]. destruct (ricker_nth f n dt p l k E) as [_ N']. rewrite (N Hj), (N' Hk), H, !ricker_shape.
  replace ((PI * f * (p - IZR k * dt)) ^ 2) with ((PI * f * (IZR k * dt - p)) ^ 2) by ring. reflexivity.
Qed.
