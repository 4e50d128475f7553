(** * C31: resampling of source and receiver data. *)
From Coq Require Import List ZArith QArith Reals Lra Lia.
From Verif Require Import Resample ResampleThm.
Import ListNotations.
Local Open Scope R_scope.

(** Even length: the Nyquist component is removed, nothing else changes. *)
Theorem C31_round_trip : forall x r m j, length x = (2 * m)%nat -> (0 < m)%nat -> (2 <= r)%nat -> (j < length x)%nat ->
  nth j (downsample r 0 0 false 0 (upsample r 0 0 false x)) 0
  = nth j x 0 - (-1) ^ j * rsum (length x) (fun l => (-1) ^ l * nth l x 0) / INR (length x).
Proof. exact round_trip_even. Qed.
Print Assumptions C31_round_trip.

(** Odd length: there is no Nyquist component, the highest frequency is removed instead. *)
Theorem C31_round_trip_odd : forall x r m j, length x = (2 * m + 1)%nat -> (2 <= r)%nat -> (j < length x)%nat ->
  nth j (downsample r 0 0 false 0 (upsample r 0 0 false x)) 0
  = nth j x 0 - (if (m =? 0)%nat then 0 else 2 / INR (length x) * rsum (length x) (fun l => nth l x 0 * cos (2 * PI * INR m * (INR j - INR l) / INR (length x)))).
Proof. exact round_trip_odd. Qed.
Print Assumptions C31_round_trip_odd.
Theorem C31_odd_refuted : exists (x : list R) (r : nat), Nat.odd (length x) = true /\ (2 <= r)%nat /\
  downsample r 0 0 false 0 (upsample r 0 0 false x) <> x.
Proof. exact odd_refuted. Qed.
Print Assumptions C31_odd_refuted.

(** The upsampled series passes through the samples of the round trip. *)
Theorem C31_interpolates : forall x r j, (0 < length x)%nat -> (2 <= r)%nat -> (j < length x)%nat ->
  nth (j * r) (upsample r 0 0 false x) 0 = nth j (downsample r 0 0 false 0 (upsample r 0 0 false x)) 0.
Proof. exact up_interpolates. Qed.
Print Assumptions C31_interpolates.

Theorem C31_ratio_one : forall ft tp tt x, upsample 1 ft tp tt x = x /\ downsample 1 ft tp tt 0 x = x.
Proof. exact ratio_one. Qed.
Print Assumptions C31_ratio_one.

(** Lengths and linearity for all tapers, paddings, windows and shifts. *)
Theorem C31_upsample_length : forall r ft tp tt x, (0 < r)%nat -> length (upsample r ft tp tt x) = (length x * r)%nat.
Proof. exact upsample_length. Qed.
Print Assumptions C31_upsample_length.
Theorem C31_downsample_length : forall r ft tp tt s x, (0 < r)%nat -> length (downsample r ft tp tt s x) = (length x / r)%nat.
Proof. exact downsample_length. Qed.
Print Assumptions C31_downsample_length.
Theorem C31_upsample_linear : forall a b r ft tp tt z x y,
  length x = length z /\ length y = length z /\ (forall k, nth k z 0 = a * nth k x 0 + b * nth k y 0) ->
  forall k, nth k (upsample r ft tp tt z) 0 = a * nth k (upsample r ft tp tt x) 0 + b * nth k (upsample r ft tp tt y) 0.
Proof. exact (fun a b r ft tp tt z x y H => proj2 (proj2 (upsample_linear a b r ft tp tt z x y H))). Qed.
Print Assumptions C31_upsample_linear.
Theorem C31_downsample_linear : forall a b r ft tp tt s z x y,
  length x = length z /\ length y = length z /\ (forall k, nth k z 0 = a * nth k x 0 + b * nth k y 0) ->
  forall k, nth k (downsample r ft tp tt s z) 0 = a * nth k (downsample r ft tp tt s x) 0 + b * nth k (downsample r ft tp tt s y) 0.
Proof. exact (fun a b r ft tp tt s z x y H => proj2 (proj2 (downsample_linear a b r ft tp tt s z x y H))). Qed.
Print Assumptions C31_downsample_linear.

(** ** Examples *)
Example resample_even : nth 0 (downsample 2 0 0 false 0 (upsample 2 0 0 false [1; 2; 0; 0])) 0 = 5 / 4.
Proof. rewrite (C31_round_trip _ 2 2) by (cbn; lia). cbn. lra. Qed.
(** A series of three samples is replaced by its mean. *)
Example resample_odd : nth 0 (downsample 2 0 0 false 0 (upsample 2 0 0 false [1; 0; 0])) 0 = 1 / 3.
Proof.
  rewrite (C31_round_trip_odd _ 2 1) by (cbn; lia). cbn. replace (2 * PI * 1 * (0 - 0) / (1 + 1 + 1)) with 0 by field. rewrite cos_0. lra.
Qed.
Example resample_linear : length [1; 2; 0] = length [5; 4; 3] /\ length [1; 0; 1] = length [5; 4; 3] /\
  forall k, nth k [5; 4; 3] 0 = 2 * nth k [1; 2; 0] 0 + 3 * nth k [1; 0; 1] 0.
Proof. repeat split. intros [|[|[|[|k]]]]; cbn; lra. Qed.
Example resample_length : length (upsample 3 (1#10) (1#2) true [1; 2; 3; 4]) = 12%nat.
Proof. rewrite C31_upsample_length by lia. reflexivity. Qed.
