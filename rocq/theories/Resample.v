(** * Resampling of time series (common.py: upsample, downsample and their helpers): model over the reals.

    One series; [torch.fft.rfft] and [irfft] with [norm="ortho"] are taken to compute the discrete Fourier
    transform and its inverse from half spectra, without rounding.  Fractions are rationals and
    [int(frac * n)] is computed exactly.  Argument checks (lines 1254-1287) are left out. *)
From Coq Require Import List ZArith QArith Qround Reals Lra Lia.
Import ListNotations.
Local Open Scope R_scope.

Fixpoint rsum (n : nat) (f : nat -> R) : R := match n with O => 0 | S m => rsum m f + f m end.

Definition ang (n m : nat) : R := 2 * PI * INR m / INR n.
(** [torch.fft.rfft(x, norm="ortho")]: frequencies 0 .. n // 2, real and imaginary parts. *)
Definition rfft (x : list R) : list (R * R) :=
  let n := length x in
  map (fun k => (rsum n (fun j => nth j x 0 * cos (ang n (j * k))) / sqrt (INR n),
                 - rsum n (fun j => nth j x 0 * sin (ang n (j * k))) / sqrt (INR n)))
      (seq 0 (n / 2 + 1)).
(** [torch.fft.irfft(X, n=n, norm="ortho")]: the frequencies other than 0 and Nyquist stand for two. *)
Definition wgt (n k : nat) : R := if (k =? 0)%nat || (2 * k =? n)%nat then 1 else 2.
Definition irfft (X : list (R * R)) (n : nat) : list R :=
  map (fun j => rsum (n / 2 + 1) (fun k => wgt n k *
         (fst (nth k X (0, 0)) * cos (ang n (j * k)) - snd (nth k X (0, 0)) * sin (ang n (j * k)))) / sqrt (INR n))
      (seq 0 n).

Definition cscale (c : R) (z : R * R) : R * R := (c * fst z, c * snd z).
Definition cmul (w z : R * R) : R * R := (fst w * fst z - snd w * snd z, fst w * snd z + snd w * fst z).

(** [cosine_taper_end] (lines 1199-1229). *)
Definition taper_end (X : list (R * R)) (n_taper : nat) : list (R * R) :=
  let n := Nat.min n_taper (length X) in
  map (fun i => if (i <? length X - n)%nat then nth i X (0, 0)
                else cscale ((cos (INR (i - (length X - n) + 1) / INR n * PI) + 1) / 2) (nth i X (0, 0)))
      (seq 0 (length X)).
(** [zero_last_element_of_final_dimension] (lines 1232-1251). *)
Definition zero_last (X : list (R * R)) : list (R * R) :=
  map (fun i => if (i =? length X - 1)%nat then (0, 0) else nth i X (0, 0)) (seq 0 (length X)).
(** [torch.hann_window(n, periodic=False)]. *)
Definition hann (n j : nat) : R := if (n =? 1)%nat then 1 else (1 - cos (2 * PI * INR j / INR (n - 1))) / 2.
Definition windowed (tt : bool) (x : list R) : list R :=
  if tt then map (fun j => nth j x 0 * hann (length x) j) (seq 0 (length x)) else x.
(** [int(frac * n) if frac > 0.0 else 0]. *)
Definition frac_of (frac : Q) (n : nat) : nat := if Qle_bool frac 0 then 0%nat else Z.to_nat (Qfloor (frac * inject_Z (Z.of_nat n))).
Definition pad_end {A} (d : A) (x : list A) (n : nat) : list A := x ++ repeat d n.
Definition cut_end {A} (x : list A) (n : nat) : list A := firstn (length x - n) x.
(** Lines 1343-1347 and 1437-1441. *)
Definition low_pass (ft : Q) (X : list (R * R)) : list (R * R) :=
  if negb (Qle_bool ft 0) then taper_end X (Z.to_nat (Qfloor (ft * inject_Z (Z.of_nat (length X)))))
  else if (1 <? length X)%nat then zero_last X else X.

(** [upsample] (lines 1290-1363). *)
Definition upsample (r : nat) (ft tp : Q) (tt : bool) (x : list R) : list R :=
  if (length x =? 0)%nat || (r =? 1)%nat then x
  else
    let np := frac_of tp (length x) in
    let x1 := pad_end 0 x np in
    let up := (length x1 * r)%nat in
    let X := low_pass ft (map (cscale (sqrt (INR r))) (rfft x1)) in
    let X1 := pad_end (0, 0) X (up / 2 + 1 - length X) in
    windowed tt (cut_end (irfft X1 up) (np * r)).

(** [downsample] (lines 1366-1451); frequencies of line 1443 are [k / n]. *)
Definition downsample (r : nat) (ft tp : Q) (tt : bool) (shift : R) (x : list R) : list R :=
  if (length x =? 0)%nat then x
  else if (r =? 1)%nat && (if Req_EM_T shift 0 then true else false) then x
  else
    let x1 := windowed tt x in
    let np := frac_of tp (length x1 / r) in
    let x2 := pad_end 0 x1 (np * r) in
    let down := (length x2 / r)%nat in
    let X := low_pass ft (firstn (down / 2 + 1) (rfft x2)) in
    let X1 := if Req_EM_T shift 0 then X
              else map (fun k => let a := 2 * PI * (INR k / INR (length x2)) * shift in cmul (cos a, - sin a) (nth k X (0, 0))) (seq 0 (length X)) in
    cut_end (map (fun y => y / sqrt (INR r)) (irfft X1 down)) np.
