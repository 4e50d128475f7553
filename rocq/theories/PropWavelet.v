(** * Property C67: the Ricker wavelet. *)
From Coq Require Import List ZArith Reals Lra Lia.
From Verif Require Import WaveletModel Wavelet.
Import ListNotations.
Local Open Scope R_scope.

(** C67: the wavelet is returned for every non-zero sampling interval and length, and only then. *)
Theorem C67_accepts (freq : R) (length : Z) (dt peak_time : R) :
  (exists l, ricker freq length dt peak_time = Some l) <-> dt <> 0 /\ (0 <= length)%Z.
Proof. exact (ricker_runs freq length dt peak_time). Qed.
Print Assumptions C67_accepts.

(** C67: it has the requested number of samples; sample [k] is the wavelet at time [k dt].  Its
    values lie between [-2 exp(-3/2)] and 1; it is 1 at the peak time and nowhere else, zero exactly
    [1 / (sqrt 2 pi freq)] from the peak, and lowest exactly [sqrt (3/2) / (pi freq)] from it. *)
Theorem C67_samples (freq : R) (length : Z) (dt peak_time : R) (l : list R) :
  freq <> 0 -> ricker freq length dt peak_time = Some l ->
  List.length l = Z.to_nat length /\
  forall k, (0 <= k < length)%Z -> let y := nth (Z.to_nat k) l 0 in let t := IZR k * dt in
    - 2 * exp (- (3 / 2)) <= y <= 1 /\
    (y = 1 <-> t = peak_time) /\
    (y = 0 <-> (PI * freq * (t - peak_time)) ^ 2 = / 2) /\
    (y = - 2 * exp (- (3 / 2)) <-> (PI * freq * (t - peak_time)) ^ 2 = 3 / 2).
Proof. exact (ricker_samples freq length dt peak_time l). Qed.
Print Assumptions C67_samples.

(** C67: up to the factor [-2 (pi freq)^2] the samples are those of the second derivative of the
    Gaussian [exp (- (pi freq (t - peak_time))^2)]. *)
Theorem C67_second_derivative (freq : R) (length : Z) (dt peak_time : R) (l : list R) :
  ricker freq length dt peak_time = Some l ->
  exists g', (forall t, derivable_pt_lim (fun t => exp (- (PI * freq * (t - peak_time)) ^ 2)) t (g' t)) /\
  forall k, (0 <= k < length)%Z -> derivable_pt_lim g' (IZR k * dt) (- 2 * (PI * freq) ^ 2 * nth (Z.to_nat k) l 0).
Proof. exact (ricker_second freq length dt peak_time l). Qed.
Print Assumptions C67_second_derivative.

(** C67: the unit of time does not matter: [c] times the frequency with times divided by [c]
    gives the same samples. *)
Theorem C67_units (c freq : R) (length : Z) (dt peak_time : R) (l l' : list R) :
  c <> 0 -> ricker freq length dt peak_time = Some l -> ricker (c * freq) length (dt / c) (peak_time / c) = Some l' -> l = l'.
Proof. exact (ricker_scale c freq length dt peak_time l l'). Qed.
Print Assumptions C67_units.

(** C67: the wavelet is symmetric about the peak. *)
Theorem C67_symmetric (freq : R) (length : Z) (dt peak_time : R) (l : list R) (j k : Z) :
  ricker freq length dt peak_time = Some l -> (0 <= j < length)%Z -> (0 <= k < length)%Z ->
  IZR j * dt - peak_time = peak_time - IZR k * dt -> nth (Z.to_nat j) l 0 = nth (Z.to_nat k) l 0.
Proof. exact (ricker_even freq length dt peak_time l j k). Qed.
Print Assumptions C67_symmetric.

(** 25 Hz, 4 ms, peak at 8 ms: five samples, the third is the peak, the first and the last agree;
    the second is neither the peak nor the trough. *)
Example ricker_example : exists l, ricker 25 5 (4 / 1000) (8 / 1000) = Some l /\ length l = 5%nat /\
  nth 2 l 0 = 1 /\ nth 0 l 0 = nth 4 l 0 /\ nth 1 l 0 < 1.
Proof.
  destruct (proj2 (C67_accepts 25 5 (4 / 1000) (8 / 1000)) ltac:(split; [lra|lia])) as [l E]. exists l. split; [exact E|].
  destruct (C67_samples 25 5 (4 / 1000) (8 / 1000) l ltac:(lra) E) as [L S]. split; [exact L|].
  split; [apply (S 2%Z ltac:(lia)); lra|]. split; [apply (C67_symmetric 25 5 (4 / 1000) (8 / 1000) l 0 4 E); try lia; lra|].
  destruct (S 1%Z ltac:(lia)) as ((_ & A) & B & _). change (Z.to_nat 1) with 1%nat in A, B. destruct A as [A|A]; [exact A|]. apply B in A. lra.
Qed.
(** The same wavelet in milliseconds. *)
Example ricker_units_example : exists l, ricker 25 5 (4 / 1000) (8 / 1000) = Some l /\ ricker (25 / 1000) 5 4 8 = Some l.
Proof.
  destruct ricker_example as (l & E & _). exists l. split; [exact E|].
  destruct (proj2 (C67_accepts (25 / 1000) 5 4 8) ltac:(split; [lra|lia])) as [l' E'].
  rewrite (C67_units (/ 1000) 25 5 (4 / 1000) (8 / 1000) l l' ltac:(lra) E); [exact E'|].
  replace (/ 1000 * 25) with (25 / 1000) by lra. replace (4 / 1000 / / 1000) with 4 by lra. replace (8 / 1000 / / 1000) with 8 by lra. exact E'.
Qed.
