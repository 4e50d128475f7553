(** * Resampling: sums of cosines, inversion, round trip, linearity, lengths. *)
From Coq Require Import List ZArith QArith Qround Reals Lra Lia Bool.
From Verif Require Import Resample.
Import ListNotations.
Local Open Scope R_scope.

(** ** Sums *)
Lemma rsum_ext n f g : (forall k, (k < n)%nat -> f k = g k) -> rsum n f = rsum n g.
Proof. induction n as [|n IH]; cbn; intros H; [reflexivity|]. rewrite IH by (intros; apply H; lia). rewrite H by lia. reflexivity. Qed.
Lemma rsum_plus n f g : rsum n (fun k => f k + g k) = rsum n f + rsum n g.
Proof. induction n as [|n IH]; cbn; [lra|]. rewrite IH. lra. Qed.
Lemma rsum_scal n c f : rsum n (fun k => c * f k) = c * rsum n f.
Proof. induction n as [|n IH]; cbn; [lra|]. rewrite IH. lra. Qed.
Lemma rsum_minus n f g : rsum n (fun k => f k - g k) = rsum n f - rsum n g.
Proof. induction n as [|n IH]; cbn; [lra|]. rewrite IH. lra. Qed.
Lemma rsum_zero n : rsum n (fun _ => 0) = 0.
Proof. induction n as [|n IH]; cbn; [reflexivity|]. rewrite IH. lra. Qed.
Lemma rsum_const n c : rsum n (fun _ => c) = INR n * c.
Proof. induction n as [|n IH]; [cbn; lra|]. cbn [rsum]. rewrite IH, S_INR. lra. Qed.
Lemma rsum_swap n m f : rsum n (fun i => rsum m (fun j => f i j)) = rsum m (fun j => rsum n (fun i => f i j)).
Proof.
  induction n as [|n IH]; cbn; [symmetry; apply rsum_zero|]. rewrite IH, <- rsum_plus. reflexivity.
Qed.
Lemma rsum_split n m f : rsum (n + m) f = rsum n f + rsum m (fun k => f (n + k)%nat).
Proof. induction m as [|m IH]; [rewrite Nat.add_0_r; cbn; lra|]. rewrite Nat.add_succ_r. cbn. rewrite IH. lra. Qed.
Lemma rsum_rev n f : rsum n f = rsum n (fun k => f (n - 1 - k)%nat).
Proof.
  induction n as [|n IH]; [reflexivity|]. change (S n) with (1 + n)%nat at 2. rewrite rsum_split. cbn [rsum]. rewrite IH.
  replace (S n - 1 - 0)%nat with n by lia.
  rewrite (rsum_ext n (fun k => f (S n - 1 - (1 + k))%nat) (fun k => f (n - 1 - k)%nat)) by (intros; f_equal; lia). lra.
Qed.
Lemma rsum_single n a f : (a < n)%nat -> (forall k, (k < n)%nat -> k <> a -> f k = 0) -> rsum n f = f a.
Proof.
  induction n as [|n IH]; [lia|]. intros Ha Hz. cbn. destruct (Nat.eq_dec a n) as [->|Ne].
  - rewrite (rsum_ext n f (fun _ => 0)) by (intros; apply Hz; lia). rewrite rsum_zero. lra.
  - rewrite IH by (try lia; intros; apply Hz; lia). rewrite (Hz n) by lia. lra.
Qed.

(** ** Sums of cosines and sines over all samples *)
Lemma sum_cos_tel n t : 2 * sin (t / 2) * rsum n (fun j => cos (INR j * t)) = sin ((INR n - 1 / 2) * t) + sin (t / 2).
Proof.
  induction n as [|n IH]; cbn [rsum].
  - cbn [INR]. replace ((0 - 1 / 2) * t) with (- (t / 2)) by lra. rewrite sin_neg. lra.
  - rewrite Rmult_plus_distr_l, IH, S_INR.
    replace ((INR n + 1 - 1 / 2) * t) with (INR n * t + t / 2) by lra. replace ((INR n - 1 / 2) * t) with (INR n * t - t / 2) by lra.
    rewrite sin_plus, sin_minus. ring.
Qed.
Lemma sum_sin_tel n t : 2 * sin (t / 2) * rsum n (fun j => sin (INR j * t)) = cos (t / 2) - cos ((INR n - 1 / 2) * t).
Proof.
  induction n as [|n IH]; cbn [rsum].
  - cbn [INR]. replace ((0 - 1 / 2) * t) with (- (t / 2)) by lra. rewrite cos_neg. lra.
  - rewrite Rmult_plus_distr_l, IH, S_INR.
    replace ((INR n + 1 - 1 / 2) * t) with (INR n * t + t / 2) by lra. replace ((INR n - 1 / 2) * t) with (INR n * t - t / 2) by lra.
    rewrite cos_plus, cos_minus. ring.
Qed.

(** Angles of integer multiples. *)
Definition cz (n : nat) (m : Z) : R := cos (2 * PI * IZR m / INR n).
Definition sz (n : nat) (m : Z) : R := sin (2 * PI * IZR m / INR n).
Lemma cos_period_Z x k : cos (x + 2 * PI * IZR k) = cos x.
Proof.
  destruct k as [|p|p].
  - f_equal. cbn. lra.
  - replace (IZR (Z.pos p)) with (INR (Pos.to_nat p)) by (rewrite INR_IZR_INZ, positive_nat_Z; reflexivity).
    replace (x + 2 * PI * INR (Pos.to_nat p)) with (x + 2 * INR (Pos.to_nat p) * PI) by ring. apply cos_period.
  - replace (IZR (Z.neg p)) with (- INR (Pos.to_nat p)) by (rewrite INR_IZR_INZ, positive_nat_Z, <- opp_IZR; reflexivity).
    rewrite <- (cos_period _ (Pos.to_nat p)). f_equal. ring.
Qed.
Lemma sin_period_Z x k : sin (x + 2 * PI * IZR k) = sin x.
Proof. rewrite <- !cos_shift. replace (PI / 2 - (x + 2 * PI * IZR k)) with (PI / 2 - x + 2 * PI * IZR (- k)) by (rewrite opp_IZR; ring). apply cos_period_Z. Qed.

Lemma sin_pi_frac_nz n m : (0 < m < Z.of_nat n)%Z -> sin (PI * IZR m / INR n) <> 0.
Proof.
  intros [H1 H2]. apply Rgt_not_eq. apply IZR_lt in H1. apply IZR_lt in H2. rewrite <- INR_IZR_INZ in H2.
  assert (Hn : 0 < INR n) by lra. pose proof PI_RGT_0.
  apply sin_gt_0.
  - apply Rdiv_lt_0_compat; [nra|exact Hn].
  - apply Rmult_lt_reg_r with (INR n); [exact Hn|]. unfold Rdiv. rewrite Rmult_assoc, Rinv_l by lra. nra.
Qed.

Lemma cz_mod n m k : (0 < n)%nat -> cz n (m + Z.of_nat n * k) = cz n m.
Proof.
  intros Hn. unfold cz. rewrite plus_IZR, mult_IZR, <- INR_IZR_INZ. assert (INR n <> 0) by (apply not_0_INR; lia).
  replace (2 * PI * (IZR m + INR n * IZR k) / INR n) with (2 * PI * IZR m / INR n + 2 * PI * IZR k) by (field; assumption). apply cos_period_Z.
Qed.
Lemma sz_mod n m k : (0 < n)%nat -> sz n (m + Z.of_nat n * k) = sz n m.
Proof.
  intros Hn. unfold sz. rewrite plus_IZR, mult_IZR, <- INR_IZR_INZ. assert (INR n <> 0) by (apply not_0_INR; lia).
  replace (2 * PI * (IZR m + INR n * IZR k) / INR n) with (2 * PI * IZR m / INR n + 2 * PI * IZR k) by (field; assumption). apply sin_period_Z.
Qed.
Lemma cz_opp n m : cz n (- m) = cz n m.
Proof. unfold cz. rewrite opp_IZR. rewrite <- cos_neg. f_equal. unfold Rdiv. ring. Qed.
Lemma sz_opp n m : sz n (- m) = - sz n m.
Proof. unfold sz. rewrite opp_IZR, <- sin_neg. f_equal. unfold Rdiv. ring. Qed.
Lemma cz_add n a b : cz n (a + b) = cz n a * cz n b - sz n a * sz n b.
Proof. unfold cz, sz. rewrite plus_IZR, <- cos_plus. f_equal. unfold Rdiv. ring. Qed.
Lemma sz_add n a b : sz n (a + b) = sz n a * cz n b + cz n a * sz n b.
Proof. unfold cz, sz. rewrite plus_IZR, <- sin_plus. f_equal. unfold Rdiv. ring. Qed.
Lemma cz_sub n a b : cz n (a - b) = cz n a * cz n b + sz n a * sz n b.
Proof. unfold Z.sub. rewrite cz_add, cz_opp, sz_opp. ring. Qed.
Lemma sz_sub n a b : sz n (a - b) = sz n a * cz n b - cz n a * sz n b.
Proof. unfold Z.sub. rewrite sz_add, cz_opp, sz_opp. ring. Qed.
Lemma cz_0 n : cz n 0 = 1.
Proof. unfold cz. replace (2 * PI * 0 / INR n) with 0 by (unfold Rdiv; ring). apply cos_0. Qed.
Lemma sz_0 n : sz n 0 = 0.
Proof. unfold sz. replace (2 * PI * 0 / INR n) with 0 by (unfold Rdiv; ring). apply sin_0. Qed.

Lemma sum_cz n m : (0 < n)%nat -> rsum n (fun j => cz n (Z.of_nat j * m)) = if (m mod Z.of_nat n =? 0)%Z then INR n else 0.
Proof.
  intros Hn. set (q := (m / Z.of_nat n)%Z). set (e := (m mod Z.of_nat n)%Z).
  assert (Em : m = (e + Z.of_nat n * q)%Z) by (unfold e, q; pose proof (Z.div_mod m (Z.of_nat n)); lia).
  assert (He : (0 <= e < Z.of_nat n)%Z) by (apply Z.mod_pos_bound; lia).
  rewrite (rsum_ext n _ (fun j => cz n (Z.of_nat j * e))).
  2:{ intros j _. rewrite Em. replace (Z.of_nat j * (e + Z.of_nat n * q))%Z with (Z.of_nat j * e + Z.of_nat n * (Z.of_nat j * q))%Z by ring. apply cz_mod, Hn. }
  destruct (Z.eqb_spec e 0) as [->|Ne].
  - rewrite (rsum_ext n _ (fun _ => 1)) by (intros j _; rewrite Z.mul_0_r; apply cz_0). rewrite rsum_const. ring.
  - assert (Sn : sin (PI * IZR e / INR n) <> 0) by (apply sin_pi_frac_nz; lia).
    assert (INR n <> 0) by (apply not_0_INR; lia).
    pose proof (sum_cos_tel n (2 * PI * IZR e / INR n)) as T.
    replace (2 * PI * IZR e / INR n / 2) with (PI * IZR e / INR n) in T by (field; assumption).
    replace ((INR n - 1 / 2) * (2 * PI * IZR e / INR n)) with (- (PI * IZR e / INR n) + 2 * PI * IZR e) in T by (field; assumption).
    rewrite sin_period_Z, sin_neg in T. apply Rmult_eq_reg_l with (2 * sin (PI * IZR e / INR n)); [|lra].
    rewrite Rmult_0_r. rewrite (rsum_ext n _ (fun j => cos (INR j * (2 * PI * IZR e / INR n)))); [lra|].
    intros j _. unfold cz. f_equal. rewrite mult_IZR, <- INR_IZR_INZ. field. assumption.
Qed.
Lemma sum_sz n m : (0 < n)%nat -> rsum n (fun j => sz n (Z.of_nat j * m)) = 0.
Proof.
  intros Hn. set (q := (m / Z.of_nat n)%Z). set (e := (m mod Z.of_nat n)%Z).
  assert (Em : m = (e + Z.of_nat n * q)%Z) by (unfold e, q; pose proof (Z.div_mod m (Z.of_nat n)); lia).
  assert (He : (0 <= e < Z.of_nat n)%Z) by (apply Z.mod_pos_bound; lia).
  rewrite (rsum_ext n _ (fun j => sz n (Z.of_nat j * e))).
  2:{ intros j _. rewrite Em. replace (Z.of_nat j * (e + Z.of_nat n * q))%Z with (Z.of_nat j * e + Z.of_nat n * (Z.of_nat j * q))%Z by ring. apply sz_mod, Hn. }
  destruct (Z.eq_dec e 0) as [->|Ne].
  - rewrite (rsum_ext n _ (fun _ => 0)) by (intros j _; rewrite Z.mul_0_r; apply sz_0). apply rsum_zero.
  - assert (Sn : sin (PI * IZR e / INR n) <> 0) by (apply sin_pi_frac_nz; lia).
    assert (INR n <> 0) by (apply not_0_INR; lia).
    pose proof (sum_sin_tel n (2 * PI * IZR e / INR n)) as T.
    replace (2 * PI * IZR e / INR n / 2) with (PI * IZR e / INR n) in T by (field; assumption).
    replace ((INR n - 1 / 2) * (2 * PI * IZR e / INR n)) with (- (PI * IZR e / INR n) + 2 * PI * IZR e) in T by (field; assumption).
    rewrite cos_period_Z, cos_neg in T. apply Rmult_eq_reg_l with (2 * sin (PI * IZR e / INR n)); [|lra].
    rewrite Rmult_0_r. rewrite (rsum_ext n _ (fun j => sin (INR j * (2 * PI * IZR e / INR n)))); [lra|].
    intros j _. unfold sz. f_equal. rewrite mult_IZR, <- INR_IZR_INZ. field. assumption.
Qed.

Lemma cos_ang n m : cos (ang n m) = cz n (Z.of_nat m).
Proof. unfold ang, cz. rewrite INR_IZR_INZ. reflexivity. Qed.
Lemma sin_ang n m : sin (ang n m) = sz n (Z.of_nat m).
Proof. unfold ang, sz. rewrite INR_IZR_INZ. reflexivity. Qed.

(** ** Half spectra *)
Lemma wgt_cases n k : (k = 0%nat \/ (2 * k)%nat = n) /\ wgt n k = 1 \/ (k <> 0%nat /\ (2 * k)%nat <> n) /\ wgt n k = 2.
Proof. unfold wgt. destruct (Nat.eqb_spec k 0), (Nat.eqb_spec (2 * k) n); cbn [orb]; auto. Qed.
Lemma half_sum n f : (0 < n)%nat -> (forall k, (0 < k < n)%nat -> f (n - k)%nat = f k) -> rsum n f = rsum (n / 2 + 1) (fun k => wgt n k * f k).
Proof.
  intros Hn Hf. set (a := (n / 2)%nat). assert (Ha : (2 * a <= n < 2 * a + 2)%nat) by (pose proof (Nat.mod_upper_bound n 2); pose proof (Nat.div_mod n 2); unfold a; lia).
  set (p := (n - a - 1)%nat). assert (Ep : n = (1 + a + p)%nat) by (unfold p; lia).
  assert (L : rsum n f = f 0%nat + rsum a (fun k => f (1 + k)%nat) + rsum p (fun k => f (1 + k)%nat)).
  { rewrite Ep at 1. rewrite !rsum_split. cbn [rsum]. rewrite Rplus_0_l. f_equal. rewrite (rsum_rev p).
    apply rsum_ext. intros k Hk. rewrite <- (Hf (1 + k)%nat) by lia. f_equal. lia. }
  rewrite L, Nat.add_comm, rsum_split. cbn [rsum]. rewrite Rplus_0_l.
  replace (wgt n 0) with 1 by (unfold wgt; reflexivity). rewrite Rmult_1_l, Rplus_assoc. f_equal.
  destruct (Nat.eq_dec n (2 * a)) as [E|E].
  - destruct a as [|a']; [lia|]. assert (p = a') by lia. clearbody p. subst p. change (S a') with (1 + a')%nat. rewrite Nat.add_comm. rewrite !rsum_split. cbn [rsum].
    rewrite Rplus_0_l. rewrite (rsum_ext a' (fun k => wgt n (1 + k) * f (1 + k)%nat) (fun k => 2 * f (1 + k)%nat)).
    + rewrite rsum_scal. replace (1 + (a' + 0))%nat with (S a') by lia.
      destruct (wgt_cases n (S a')) as [[_ ->]|[[_ B] _]]; [|exfalso; lia]. lra.
    + intros k Hk. destruct (wgt_cases n (1 + k)) as [[[B|B] _]|[_ ->]]; [lia|lia|reflexivity].
  - assert (p = a) by lia. clearbody p. subst p. rewrite (rsum_ext a (fun k => wgt n (1 + k) * f (1 + k)%nat) (fun k => 2 * f (1 + k)%nat)).
    + rewrite rsum_scal. lra.
    + intros k Hk. destruct (wgt_cases n (1 + k)) as [[[B|B] _]|[_ ->]]; [lia|lia|reflexivity].
Qed.

Lemma nth_map_seq0 {X} (f : nat -> X) n k d : (k < n)%nat -> nth k (map f (seq 0 n)) d = f k.
Proof. intros H. rewrite (nth_indep _ d (f 0%nat)) by (rewrite map_length, seq_length; exact H). rewrite map_nth, seq_nth by exact H. reflexivity. Qed.

Definition Ar (x : list R) (k : nat) : R := rsum (length x) (fun l => nth l x 0 * cz (length x) (Z.of_nat l * Z.of_nat k)).
Definition Br (x : list R) (k : nat) : R := - rsum (length x) (fun l => nth l x 0 * sz (length x) (Z.of_nat l * Z.of_nat k)).
Lemma rfft_length x : length (rfft x) = (length x / 2 + 1)%nat.
Proof. unfold rfft. rewrite map_length, seq_length. reflexivity. Qed.
Lemma rfft_nth x k : (k <= length x / 2)%nat -> nth k (rfft x) (0, 0) = (Ar x k / sqrt (INR (length x)), Br x k / sqrt (INR (length x))).
Proof.
  intros H. unfold rfft. rewrite nth_map_seq0 by lia. unfold Ar, Br. do 2 f_equal.
  - apply rsum_ext. intros j _. rewrite cos_ang, Nat2Z.inj_mul. reflexivity.
  - f_equal. apply rsum_ext. intros j _. rewrite sin_ang, Nat2Z.inj_mul. reflexivity.
Qed.
Lemma irfft_length X n : length (irfft X n) = n.
Proof. unfold irfft. rewrite map_length, seq_length. reflexivity. Qed.
Lemma irfft_nth X n j : (j < n)%nat -> nth j (irfft X n) 0
  = rsum (n / 2 + 1) (fun k => wgt n k * (fst (nth k X (0, 0)) * cz n (Z.of_nat j * Z.of_nat k) - snd (nth k X (0, 0)) * sz n (Z.of_nat j * Z.of_nat k))) / sqrt (INR n).
Proof.
  intros H. unfold irfft. rewrite nth_map_seq0 by exact H. f_equal. apply rsum_ext. intros k _. rewrite cos_ang, sin_ang, Nat2Z.inj_mul. reflexivity.
Qed.

(** The part of the series at one frequency. *)
Definition part (x : list R) (k j : nat) : R := rsum (length x) (fun l => nth l x 0 * cz (length x) (Z.of_nat k * (Z.of_nat j - Z.of_nat l))).
Lemma part_eq x k j : Ar x k * cz (length x) (Z.of_nat j * Z.of_nat k) - Br x k * sz (length x) (Z.of_nat j * Z.of_nat k) = part x k j.
Proof.
  unfold Ar, Br, part. set (n := length x).
  rewrite (rsum_ext n (fun l => nth l x 0 * cz n (Z.of_nat k * (Z.of_nat j - Z.of_nat l)))
    (fun l => cz n (Z.of_nat j * Z.of_nat k) * (nth l x 0 * cz n (Z.of_nat l * Z.of_nat k)) + sz n (Z.of_nat j * Z.of_nat k) * (nth l x 0 * sz n (Z.of_nat l * Z.of_nat k)))).
  - rewrite rsum_plus, !rsum_scal. ring.
  - intros l _. replace (Z.of_nat k * (Z.of_nat j - Z.of_nat l))%Z with (Z.of_nat j * Z.of_nat k - Z.of_nat l * Z.of_nat k)%Z by ring. rewrite cz_sub. ring.
Qed.
Lemma inversion x j : (j < length x)%nat -> rsum (length x / 2 + 1) (fun k => wgt (length x) k * part x k j) = INR (length x) * nth j x 0.
Proof.
  intros Hj. set (n := length x) in *. assert (Hn : (0 < n)%nat) by lia. rewrite <- half_sum; [|exact Hn|].
  - unfold part. fold n. rewrite rsum_swap. rewrite (rsum_single n j).
    + rewrite Z.sub_diag. rewrite (rsum_ext n _ (fun _ => nth j x 0)) by (intros; rewrite Z.mul_0_r, cz_0; ring). apply rsum_const.
    + exact Hj.
    + intros l Hl Ne. rewrite rsum_scal, sum_cz by exact Hn. destruct (Z.eqb_spec ((Z.of_nat j - Z.of_nat l) mod Z.of_nat n) 0) as [E|_]; [|ring].
      exfalso. apply Z.mod_divide in E; [|lia]. destruct E as [q E]. assert (q = 0 \/ q <= -1 \/ 1 <= q)%Z as [->|[B|B]] by lia; nia.
  - intros k Hk. unfold part. fold n. apply rsum_ext. intros l _. f_equal.
    replace (Z.of_nat (n - k) * (Z.of_nat j - Z.of_nat l))%Z with (- (Z.of_nat k * (Z.of_nat j - Z.of_nat l)) + Z.of_nat n * (Z.of_nat j - Z.of_nat l))%Z by (rewrite Nat2Z.inj_sub by lia; ring).
    rewrite cz_mod by exact Hn. apply cz_opp.
Qed.

(** ** A band-limited series gives back its spectrum *)
Lemma sum_cc N m k : (0 < N)%nat -> (m + k < N)%nat ->
  rsum N (fun i => cz N (Z.of_nat i * Z.of_nat m) * cz N (Z.of_nat i * Z.of_nat k)) = if (m =? k)%nat then (if (m =? 0)%nat then INR N else INR N / 2) else 0.
Proof.
  intros HN Hb. rewrite (rsum_ext N _ (fun i => / 2 * (cz N (Z.of_nat i * (Z.of_nat m - Z.of_nat k)) + cz N (Z.of_nat i * (Z.of_nat m + Z.of_nat k))))).
  2:{ intros i _. rewrite Z.mul_sub_distr_l, Z.mul_add_distr_l, cz_sub, cz_add. lra. }
  rewrite rsum_scal, rsum_plus, !sum_cz by exact HN.
  destruct (Nat.eqb_spec m k) as [->|Ne].
  - rewrite Z.sub_diag, Z.mod_0_l by lia. cbn [Z.eqb]. destruct (Nat.eqb_spec k 0) as [->|Nk].
    + cbn. lra.
    + rewrite Z.mod_small by lia. destruct (Z.eqb_spec (Z.of_nat k + Z.of_nat k) 0); [lia|lra].
  - rewrite (Z.mod_small (Z.of_nat m + Z.of_nat k)) by lia. destruct (Z.eqb_spec (Z.of_nat m + Z.of_nat k) 0); [lia|].
    destruct (Z.eqb_spec ((Z.of_nat m - Z.of_nat k) mod Z.of_nat N) 0) as [E|_]; [|lra].
    exfalso. apply Z.mod_divide in E; [|lia]. destruct E as [q E]. assert (q = 0 \/ q <= -1 \/ 1 <= q)%Z as [->|[B|B]] by lia; nia.
Qed.
Lemma sum_ss N m k : (0 < N)%nat -> (m + k < N)%nat ->
  rsum N (fun i => sz N (Z.of_nat i * Z.of_nat m) * sz N (Z.of_nat i * Z.of_nat k)) = if (m =? k)%nat then (if (m =? 0)%nat then 0 else INR N / 2) else 0.
Proof.
  intros HN Hb. rewrite (rsum_ext N _ (fun i => / 2 * (cz N (Z.of_nat i * (Z.of_nat m - Z.of_nat k)) - cz N (Z.of_nat i * (Z.of_nat m + Z.of_nat k))))).
  2:{ intros i _. rewrite Z.mul_sub_distr_l, Z.mul_add_distr_l, cz_sub, cz_add. lra. }
  rewrite rsum_scal, rsum_minus, !sum_cz by exact HN.
  destruct (Nat.eqb_spec m k) as [->|Ne].
  - rewrite Z.sub_diag, Z.mod_0_l by lia. cbn [Z.eqb]. destruct (Nat.eqb_spec k 0) as [->|Nk].
    + cbn. lra.
    + rewrite Z.mod_small by lia. destruct (Z.eqb_spec (Z.of_nat k + Z.of_nat k) 0); [lia|lra].
  - rewrite (Z.mod_small (Z.of_nat m + Z.of_nat k)) by lia. destruct (Z.eqb_spec (Z.of_nat m + Z.of_nat k) 0); [lia|].
    destruct (Z.eqb_spec ((Z.of_nat m - Z.of_nat k) mod Z.of_nat N) 0) as [E|_]; [|lra].
    exfalso. apply Z.mod_divide in E; [|lia]. destruct E as [q E]. assert (q = 0 \/ q <= -1 \/ 1 <= q)%Z as [->|[B|B]] by lia; nia.
Qed.
Lemma sum_sc N m k : (0 < N)%nat -> rsum N (fun i => sz N (Z.of_nat i * Z.of_nat m) * cz N (Z.of_nat i * Z.of_nat k)) = 0.
Proof.
  intros HN. rewrite (rsum_ext N _ (fun i => / 2 * (sz N (Z.of_nat i * (Z.of_nat m + Z.of_nat k)) + sz N (Z.of_nat i * (Z.of_nat m - Z.of_nat k))))).
  2:{ intros i _. rewrite Z.mul_sub_distr_l, Z.mul_add_distr_l, sz_sub, sz_add. lra. }
  rewrite rsum_scal, rsum_plus, !sum_sz by exact HN. lra.
Qed.

Lemma band_re N M (a b : nat -> R) k : (0 < N)%nat -> (2 * M <= N)%nat -> (k < M)%nat ->
  rsum N (fun i => rsum M (fun m => wgt N m * (a m * cz N (Z.of_nat i * Z.of_nat m) - b m * sz N (Z.of_nat i * Z.of_nat m))) * cz N (Z.of_nat i * Z.of_nat k)) = INR N * a k.
Proof.
  intros HN HM Hk.
  rewrite (rsum_ext N _ (fun i => rsum M (fun m => wgt N m * a m * (cz N (Z.of_nat i * Z.of_nat m) * cz N (Z.of_nat i * Z.of_nat k)) - wgt N m * b m * (sz N (Z.of_nat i * Z.of_nat m) * cz N (Z.of_nat i * Z.of_nat k))))).
  2:{ intros i _. rewrite Rmult_comm, <- rsum_scal. apply rsum_ext. intros m _. ring. }
  rewrite rsum_swap, (rsum_single M k).
  - rewrite rsum_minus, !rsum_scal, sum_sc, sum_cc by lia. rewrite Nat.eqb_refl.
    destruct (wgt_cases N k) as [[[->|B] ->]|[[B _] ->]]; [cbn [Nat.eqb]; lra|lia|]. destruct (Nat.eqb_spec k 0); [lia|lra].
  - exact Hk.
  - intros m Hm Ne. rewrite rsum_minus, !rsum_scal, sum_sc, sum_cc by lia. destruct (Nat.eqb_spec m k); [lia|lra].
Qed.
Lemma band_im N M (a b : nat -> R) k : (0 < N)%nat -> (2 * M <= N)%nat -> (k < M)%nat -> b 0%nat = 0 ->
  - rsum N (fun i => rsum M (fun m => wgt N m * (a m * cz N (Z.of_nat i * Z.of_nat m) - b m * sz N (Z.of_nat i * Z.of_nat m))) * sz N (Z.of_nat i * Z.of_nat k)) = INR N * b k.
Proof.
  intros HN HM Hk H0.
  rewrite (rsum_ext N _ (fun i => rsum M (fun m => wgt N m * a m * (sz N (Z.of_nat i * Z.of_nat k) * cz N (Z.of_nat i * Z.of_nat m)) - wgt N m * b m * (sz N (Z.of_nat i * Z.of_nat m) * sz N (Z.of_nat i * Z.of_nat k))))).
  2:{ intros i _. rewrite Rmult_comm, <- rsum_scal. apply rsum_ext. intros m _. ring. }
  rewrite rsum_swap, (rsum_single M k).
  - rewrite rsum_minus, !rsum_scal, sum_sc, sum_ss by lia. rewrite Nat.eqb_refl.
    destruct (wgt_cases N k) as [[[->|B] ->]|[[B _] ->]]; [cbn [Nat.eqb]; rewrite H0; lra|lia|]. destruct (Nat.eqb_spec k 0); [lia|lra].
  - exact Hk.
  - intros m Hm Ne. rewrite rsum_minus, !rsum_scal, sum_sc, sum_ss by lia. destruct (Nat.eqb_spec m k); [lia|lra].
Qed.

(** ** Round trip *)
Lemma rsum_tail n m f : (m <= n)%nat -> (forall k, (m <= k < n)%nat -> f k = 0) -> rsum n f = rsum m f.
Proof.
  intros H Hz. replace n with (m + (n - m))%nat by lia. rewrite rsum_split.
  rewrite (rsum_ext (n - m) _ (fun _ => 0)) by (intros; apply Hz; lia). rewrite rsum_zero. lra.
Qed.
Lemma zero_last_length X : length (zero_last X) = length X.
Proof. unfold zero_last. rewrite map_length, seq_length. reflexivity. Qed.
Lemma low_pass0_nth X k : (0 < length X)%nat ->
  nth k (low_pass 0 X) (0, 0) = if (k <? Nat.max 1 (length X - 1))%nat then nth k X (0, 0) else (0, 0).
Proof.
  intros H. unfold low_pass. change (negb (Qle_bool 0 0)) with false. cbv iota.
  destruct (Nat.ltb_spec 1 (length X)) as [B|B].
  - destruct (Nat.ltb_spec k (Nat.max 1 (length X - 1))) as [C|C].
    + unfold zero_last. rewrite nth_map_seq0 by lia. destruct (Nat.eqb_spec k (length X - 1)); [lia|reflexivity].
    + destruct (Nat.ltb_spec k (length X)) as [D|D].
      * unfold zero_last. rewrite nth_map_seq0 by lia. destruct (Nat.eqb_spec k (length X - 1)); [reflexivity|lia].
      * apply nth_overflow. rewrite zero_last_length. exact D.
  - destruct (Nat.ltb_spec k (Nat.max 1 (length X - 1))) as [C|C]; [reflexivity|]. apply nth_overflow. lia.
Qed.
Lemma low_pass0_length X : length (low_pass 0 X) = length X.
Proof. unfold low_pass. change (negb (Qle_bool 0 0)) with false. cbv iota. destruct (1 <? length X)%nat; [apply zero_last_length|reflexivity]. Qed.
Lemma nth_pad_end {A} (d : A) x n k : nth k (pad_end d x n) d = nth k x d.
Proof.
  unfold pad_end. destruct (Nat.lt_ge_cases k (length x)) as [H|H]; [apply app_nth1, H|].
  rewrite app_nth2, (nth_overflow x) by lia. apply nth_repeat.
Qed.
Lemma cut_end_0 {A} (x : list A) : cut_end x 0 = x.
Proof. unfold cut_end. rewrite Nat.sub_0_r. apply firstn_all. Qed.

Section Round.
Variable x : list R.
Variable r : nat.
Notation n := (length x).
Notation N := (n * r)%nat.
Hypothesis Hn : (0 < n)%nat.
Hypothesis Hr : (2 <= r)%nat.
Definition kept (n : nat) : nat := Nat.max 1 (n / 2).

Lemma kept_le : (2 * kept n <= N)%nat /\ (kept n <= n / 2 + 1)%nat /\ (kept n <= N / 2 + 1)%nat.
Proof.
  unfold kept. assert (2 * (n / 2) <= n)%nat by (apply Nat.mul_div_le; lia). assert (2 * n <= N)%nat by nia.
  assert (n <= N / 2)%nat by (apply Nat.div_le_lower_bound; lia). lia.
Qed.
Lemma up_eq : upsample r 0 0 false x
  = irfft (pad_end (0, 0) (low_pass 0 (map (cscale (sqrt (INR r))) (rfft x))) (N / 2 + 1 - length (low_pass 0 (map (cscale (sqrt (INR r))) (rfft x))))) N.
Proof.
  unfold upsample. destruct (Nat.eqb_spec n 0) as [|_]; [lia|]. destruct (Nat.eqb_spec r 1) as [|_]; [lia|]. cbn [orb].
  change (frac_of 0 n) with 0%nat. unfold pad_end at 1 2 3 4 5. cbn [repeat]. rewrite app_nil_r. cbn [windowed Nat.mul]. rewrite cut_end_0. reflexivity.
Qed.
Lemma up_length : length (upsample r 0 0 false x) = N.
Proof. rewrite up_eq. apply irfft_length. Qed.
Lemma up_nth i : (i < N)%nat -> nth i (upsample r 0 0 false x) 0
  = rsum (kept n) (fun m => wgt N m * (sqrt (INR r) * (Ar x m / sqrt (INR n)) * cz N (Z.of_nat i * Z.of_nat m)
                                     - sqrt (INR r) * (Br x m / sqrt (INR n)) * sz N (Z.of_nat i * Z.of_nat m))) / sqrt (INR N).
Proof.
  intros Hi. rewrite up_eq, irfft_nth by exact Hi. f_equal. destruct kept_le as (K1 & K2 & K3).
  rewrite (rsum_tail _ (kept n)); [|exact K3|].
  2:{ intros k Hk. rewrite nth_pad_end, low_pass0_nth by (rewrite map_length, rfft_length; lia).
      rewrite map_length, rfft_length. destruct (Nat.ltb_spec k (Nat.max 1 (n / 2 + 1 - 1))); [unfold kept in Hk; lia|cbn; ring]. }
  apply rsum_ext. intros k Hk. rewrite nth_pad_end, low_pass0_nth by (rewrite map_length, rfft_length; lia).
  rewrite map_length, rfft_length. destruct (Nat.ltb_spec k (Nat.max 1 (n / 2 + 1 - 1))); [|unfold kept in Hk; lia].
  rewrite (nth_indep _ (0, 0) (cscale (sqrt (INR r)) (0, 0))) by (rewrite map_length, rfft_length; lia).
  rewrite map_nth, rfft_nth by lia. reflexivity.
Qed.
Lemma up_spectrum k : (k < kept n)%nat ->
  Ar (upsample r 0 0 false x) k = sqrt (INR N) * (sqrt (INR r) * (Ar x k / sqrt (INR n))) /\
  Br (upsample r 0 0 false x) k = sqrt (INR N) * (sqrt (INR r) * (Br x k / sqrt (INR n))).
Proof.
  intros Hk. destruct kept_le as (K1 & K2 & K3).
  assert (HN : (0 < N)%nat) by lia. assert (P : 0 < INR N) by (apply lt_0_INR; exact HN). assert (SQ : sqrt (INR N) <> 0) by (apply Rgt_not_eq, sqrt_lt_R0, P).
  assert (E : INR N / sqrt (INR N) = sqrt (INR N)) by (apply Rmult_eq_reg_r with (sqrt (INR N)); [unfold Rdiv; rewrite Rmult_assoc, Rinv_l, sqrt_sqrt by lra; ring|exact SQ]).
  split.
  - unfold Ar at 1. rewrite up_length. rewrite (rsum_ext N _ (fun i => / sqrt (INR N) * (rsum (kept n) (fun m => wgt N m * (sqrt (INR r) * (Ar x m / sqrt (INR n)) * cz N (Z.of_nat i * Z.of_nat m)
                                     - sqrt (INR r) * (Br x m / sqrt (INR n)) * sz N (Z.of_nat i * Z.of_nat m))) * cz N (Z.of_nat i * Z.of_nat k)))).
    2:{ intros i Hi. rewrite up_nth by exact Hi. unfold Rdiv. ring. }
    rewrite rsum_scal. rewrite (band_re N (kept n) (fun m => sqrt (INR r) * (Ar x m / sqrt (INR n))) (fun m => sqrt (INR r) * (Br x m / sqrt (INR n))) k) by (try exact HN; lia).
    rewrite <- E at 2. unfold Rdiv. ring.
  - unfold Br at 1. rewrite up_length. rewrite (rsum_ext N _ (fun i => / sqrt (INR N) * (rsum (kept n) (fun m => wgt N m * (sqrt (INR r) * (Ar x m / sqrt (INR n)) * cz N (Z.of_nat i * Z.of_nat m)
                                     - sqrt (INR r) * (Br x m / sqrt (INR n)) * sz N (Z.of_nat i * Z.of_nat m))) * sz N (Z.of_nat i * Z.of_nat k)))).
    2:{ intros i Hi. rewrite up_nth by exact Hi. unfold Rdiv. ring. }
    rewrite rsum_scal, Ropp_mult_distr_r.
    rewrite (band_im N (kept n) (fun m => sqrt (INR r) * (Ar x m / sqrt (INR n))) (fun m => sqrt (INR r) * (Br x m / sqrt (INR n))) k); try exact HN; try lia.
    + rewrite <- E at 2. unfold Rdiv. ring.
    + unfold Br. rewrite (rsum_ext n _ (fun _ => 0)) by (intros; rewrite Z.mul_0_r, sz_0; ring). rewrite rsum_zero. unfold Rdiv. ring.
Qed.

Lemma down_of_up_nth j : (j < n)%nat ->
  nth j (downsample r 0 0 false 0 (upsample r 0 0 false x)) 0 = rsum (kept n) (fun k => wgt n k * part x k j) / INR n.
Proof.
  intros Hj. set (U := upsample r 0 0 false x). assert (LU : length U = N) by apply up_length.
  destruct kept_le as (K1 & K2 & K3). assert (Dn : (N / r = n)%nat) by (apply Nat.div_mul; lia).
  unfold downsample. rewrite LU. destruct (Nat.eqb_spec N 0) as [|_]; [lia|]. destruct (Nat.eqb_spec r 1) as [|_]; [lia|]. cbn [andb windowed].
  rewrite LU. change (frac_of 0 (N / r)) with 0%nat. cbn [Nat.mul]. unfold pad_end. cbn [repeat]. rewrite app_nil_r, LU, Dn.
  destruct (Req_EM_T 0 0) as [_|C]; [|lra]. rewrite cut_end_0.
  rewrite (nth_indep _ 0 (0 / sqrt (INR r))) by (rewrite map_length, irfft_length; exact Hj).
  rewrite (map_nth (fun y => y / sqrt (INR r))), irfft_nth by exact Hj.
  assert (LF : length (firstn (n / 2 + 1) (rfft U)) = (n / 2 + 1)%nat) by (rewrite firstn_length, rfft_length, LU; assert (n / 2 <= N / 2)%nat by (apply Nat.div_le_mono; nia); lia).
  rewrite (rsum_tail _ (kept n)); [|exact K2|].
  2:{ intros k Hk. rewrite low_pass0_nth by lia. rewrite LF. destruct (Nat.ltb_spec k (Nat.max 1 (n / 2 + 1 - 1))); [unfold kept in Hk; lia|cbn; ring]. }
  assert (P : 0 < INR n) by (apply lt_0_INR; exact Hn). assert (Pr : 0 < INR r) by (apply lt_0_INR; lia).
  assert (S1 : sqrt (INR n) <> 0) by (apply Rgt_not_eq, sqrt_lt_R0, P). assert (S2 : sqrt (INR r) <> 0) by (apply Rgt_not_eq, sqrt_lt_R0, Pr).
  assert (S3 : sqrt (INR N) <> 0) by (apply Rgt_not_eq, sqrt_lt_R0; apply lt_0_INR; lia).
  rewrite (rsum_ext (kept n) _ (fun k => sqrt (INR r) / sqrt (INR n) * (wgt n k * part x k j))).
  - rewrite rsum_scal. rewrite <- (sqrt_sqrt (INR n)) at 3 by lra. field. split; assumption.
  - intros k Hk. rewrite low_pass0_nth by lia. rewrite LF. destruct (Nat.ltb_spec k (Nat.max 1 (n / 2 + 1 - 1))); [|unfold kept in Hk; lia].
    replace (nth k (firstn (n / 2 + 1) (rfft U)) (0, 0)) with (nth k (rfft U) (0, 0)).
    2:{ rewrite <- (firstn_skipn (n / 2 + 1) (rfft U)) at 1. apply app_nth1. lia. }
    rewrite rfft_nth by (rewrite LU; assert (n / 2 <= N / 2)%nat by (apply Nat.div_le_mono; nia); lia). cbn [fst snd].
    destruct (up_spectrum k Hk) as [E1 E2]. fold U in E1, E2. rewrite E1, E2, LU, <- part_eq. field. split; assumption.
Qed.

Lemma round_trip j : (j < n)%nat ->
  nth j (downsample r 0 0 false 0 (upsample r 0 0 false x)) 0
  = nth j x 0 - (if (n =? 1)%nat then 0 else wgt n (n / 2) * part x (n / 2) j / INR n).
Proof.
  intros Hj. rewrite down_of_up_nth by exact Hj. pose proof (inversion x j Hj) as I. rewrite Nat.add_1_r in I. cbn [rsum] in I.
  assert (P : 0 < INR n) by (apply lt_0_INR; exact Hn).
  destruct (Nat.eqb_spec n 1) as [E|E].
  - assert (Z0 : (n / 2 = 0)%nat) by (rewrite E; reflexivity). unfold kept. rewrite Z0 in *. cbn [rsum Nat.max] in *. rewrite I. field. lra.
  - assert (Z0 : (1 <= n / 2)%nat) by (apply Nat.div_le_lower_bound; lia). unfold kept. rewrite Nat.max_r by exact Z0.
    apply Rmult_eq_reg_r with (INR n); [|lra]. unfold Rdiv. rewrite Rmult_minus_distr_r, !Rmult_assoc, Rinv_l by lra. lra.
Qed.
Lemma round_trip_length : length (downsample r 0 0 false 0 (upsample r 0 0 false x)) = n.
Proof.
  set (U := upsample r 0 0 false x). assert (LU : length U = N) by apply up_length. assert (Dn : (N / r = n)%nat) by (apply Nat.div_mul; lia).
  unfold downsample. rewrite LU. assert (0 < N)%nat by (destruct kept_le; unfold kept in *; lia).
  destruct (Nat.eqb_spec N 0) as [|_]; [lia|]. destruct (Nat.eqb_spec r 1) as [|_]; [lia|]. cbn [andb windowed].
  rewrite LU. change (frac_of 0 (N / r)) with 0%nat. cbn [Nat.mul]. unfold pad_end. cbn [repeat]. rewrite app_nil_r, LU, Dn, cut_end_0, map_length. apply irfft_length.
Qed.
End Round.

(** ** Linearity and lengths, any options *)
Section Lin.
Variables a b : R.
(** [z] is [a x + b y]; for series and for spectra. *)
Definition lc (z x y : list R) : Prop := length x = length z /\ length y = length z /\ forall k, nth k z 0 = a * nth k x 0 + b * nth k y 0.
Notation c0 := (0, 0).
Definition lcC (Z X Y : list (R * R)) : Prop := length X = length Z /\ length Y = length Z /\
  forall k, fst (nth k Z c0) = a * fst (nth k X c0) + b * fst (nth k Y c0) /\ snd (nth k Z c0) = a * snd (nth k X c0) + b * snd (nth k Y c0).

Lemma lc_mk n (f g h : nat -> R) : (forall k, (k < n)%nat -> f k = a * g k + b * h k) ->
  lc (map f (seq 0 n)) (map g (seq 0 n)) (map h (seq 0 n)).
Proof.
  intros H. unfold lc. rewrite !map_length, !seq_length. split; [reflexivity|]. split; [reflexivity|]. intros k.
  destruct (Nat.lt_ge_cases k n) as [B|B]; [rewrite !nth_map_seq0 by exact B; apply H, B|].
  rewrite !nth_overflow by (rewrite map_length, seq_length; exact B). ring.
Qed.
Lemma lcC_mk n (f g h : nat -> R * R) : (forall k, (k < n)%nat -> fst (f k) = a * fst (g k) + b * fst (h k) /\ snd (f k) = a * snd (g k) + b * snd (h k)) ->
  lcC (map f (seq 0 n)) (map g (seq 0 n)) (map h (seq 0 n)).
Proof.
  intros H. unfold lcC. rewrite !map_length, !seq_length. split; [reflexivity|]. split; [reflexivity|]. intros k.
  destruct (Nat.lt_ge_cases k n) as [B|B]; [rewrite !nth_map_seq0 by exact B; apply H, B|].
  rewrite !nth_overflow by (rewrite map_length, seq_length; exact B). cbn. split; ring.
Qed.
Lemma nth_cut {A} (d : A) m x k : nth k (firstn m x) d = if (k <? m)%nat then nth k x d else d.
Proof.
  revert m k. induction x as [|u x IH]; intros [|m] [|k]; cbn [firstn nth]; try reflexivity.
  - destruct (S k <? S m)%nat; reflexivity.
  - rewrite IH. reflexivity.
Qed.
Lemma lc_firstn m z x y : lc z x y -> lc (firstn m z) (firstn m x) (firstn m y).
Proof.
  intros (H1 & H2 & H3). unfold lc. rewrite !firstn_length, H1, H2. split; [reflexivity|]. split; [reflexivity|]. intros k.
  rewrite !nth_cut. destruct (k <? m)%nat; [apply H3|ring].
Qed.
Lemma lcC_firstn m z x y : lcC z x y -> lcC (firstn m z) (firstn m x) (firstn m y).
Proof.
  intros (H1 & H2 & H3). unfold lcC. rewrite !firstn_length, H1, H2. split; [reflexivity|]. split; [reflexivity|]. intros k.
  rewrite !nth_cut. destruct (k <? m)%nat; [apply H3|cbn; split; ring].
Qed.
Lemma lc_cut m z x y : lc z x y -> lc (cut_end z m) (cut_end x m) (cut_end y m).
Proof. intros H. unfold cut_end. destruct H as (H1 & H2 & H3). rewrite H1, H2. apply lc_firstn. exact (conj H1 (conj H2 H3)). Qed.
Lemma lc_pad m z x y : lc z x y -> lc (pad_end 0 z m) (pad_end 0 x m) (pad_end 0 y m).
Proof.
  intros (H1 & H2 & H3). split; [|split]; [unfold pad_end; rewrite !app_length; lia..|]. intros k. rewrite !nth_pad_end. apply H3.
Qed.
Lemma lcC_pad m z x y : lcC z x y -> lcC (pad_end c0 z m) (pad_end c0 x m) (pad_end c0 y m).
Proof.
  intros (H1 & H2 & H3). split; [|split]; [unfold pad_end; rewrite !app_length; lia..|]. intros k. rewrite !nth_pad_end. apply H3.
Qed.
Lemma lc_windowed tt z x y : lc z x y -> lc (windowed tt z) (windowed tt x) (windowed tt y).
Proof.
  intros H. unfold windowed. destruct tt; [|exact H]. destruct H as (H1 & H2 & H3). rewrite H1, H2. apply lc_mk. intros k _. rewrite H3. ring.
Qed.
Lemma lin_rsum n (f g h : nat -> R) : (forall k, (k < n)%nat -> f k = a * g k + b * h k) -> rsum n f = a * rsum n g + b * rsum n h.
Proof. intros H. rewrite (rsum_ext n f _ H), rsum_plus, !rsum_scal. reflexivity. Qed.
Lemma lc_rfft z x y : lc z x y -> lcC (rfft z) (rfft x) (rfft y).
Proof.
  intros (H1 & H2 & H3). unfold rfft. rewrite H1, H2. apply lcC_mk. intros k _. cbn [fst snd]. split.
  - rewrite (lin_rsum (length z) _ (fun j => nth j x 0 * cos (ang (length z) (j * k))) (fun j => nth j y 0 * cos (ang (length z) (j * k)))); [unfold Rdiv; ring|]. intros j _. rewrite H3. ring.
  - rewrite (lin_rsum (length z) _ (fun j => nth j x 0 * sin (ang (length z) (j * k))) (fun j => nth j y 0 * sin (ang (length z) (j * k)))); [unfold Rdiv; ring|]. intros j _. rewrite H3. ring.
Qed.
Lemma lc_irfft n Z X Y : lcC Z X Y -> lc (irfft Z n) (irfft X n) (irfft Y n).
Proof.
  intros (H1 & H2 & H3). unfold irfft. apply lc_mk. intros j _.
  rewrite (lin_rsum (n / 2 + 1) _ (fun k => wgt n k * (fst (nth k X (0, 0)) * cos (ang n (j * k)) - snd (nth k X (0, 0)) * sin (ang n (j * k))))
     (fun k => wgt n k * (fst (nth k Y (0, 0)) * cos (ang n (j * k)) - snd (nth k Y (0, 0)) * sin (ang n (j * k))))); [unfold Rdiv; ring|].
  intros k _. destruct (H3 k) as [-> ->]. ring.
Qed.
Lemma nth_cscale c X k : nth k (map (cscale c) X) c0 = cscale c (nth k X c0).
Proof.
  assert (E : c0 = cscale c c0) by (unfold cscale; cbn; f_equal; ring). rewrite E at 1. apply map_nth.
Qed.
Lemma lcC_cscale c Z X Y : lcC Z X Y -> lcC (map (cscale c) Z) (map (cscale c) X) (map (cscale c) Y).
Proof.
  intros (H1 & H2 & H3). unfold lcC. rewrite !map_length. split; [exact H1|]. split; [exact H2|]. intros k. rewrite !nth_cscale. cbn [cscale fst snd].
  destruct (H3 k) as [-> ->]. split; ring.
Qed.
Lemma lcC_low_pass ft Z X Y : lcC Z X Y -> lcC (low_pass ft Z) (low_pass ft X) (low_pass ft Y).
Proof.
  intros H. unfold low_pass. pose proof H as (H1 & H2 & H3). rewrite H1, H2. destruct (negb (Qle_bool ft 0)).
  - unfold taper_end. rewrite H1, H2. apply lcC_mk. intros k _. destruct (k <? _)%nat; [apply H3|]. cbn [cscale fst snd]. destruct (H3 k) as [-> ->]. split; ring.
  - destruct (1 <? length Z)%nat; [|exact H]. unfold zero_last. rewrite H1, H2. apply lcC_mk. intros k _. destruct (k =? _)%nat; [cbn; split; ring|apply H3].
Qed.
Lemma low_pass_length ft X : length (low_pass ft X) = length X.
Proof. unfold low_pass. destruct (negb _); [unfold taper_end; rewrite map_length, seq_length; reflexivity|]. destruct (1 <? length X)%nat; [apply zero_last_length|reflexivity]. Qed.

Lemma upsample_linear r ft tp tt z x y : lc z x y -> lc (upsample r ft tp tt z) (upsample r ft tp tt x) (upsample r ft tp tt y).
Proof.
  intros H. unfold upsample. pose proof H as (H1 & H2 & _). rewrite H1, H2.
  destruct ((length z =? 0)%nat || (r =? 1)%nat); [exact H|]. cbv zeta.
  apply lc_windowed, lc_cut. set (m := frac_of tp (length z)).
  pose proof (lc_pad m _ _ _ H) as P. set (z1 := pad_end 0 z m) in *. set (x1 := pad_end 0 x m) in *. set (y1 := pad_end 0 y m) in *.
  pose proof (lcC_low_pass ft _ _ _ (lcC_cscale (sqrt (INR r)) _ _ _ (lc_rfft _ _ _ P))) as L.
  set (Z1 := low_pass ft (map _ (rfft z1))) in *. set (X1 := low_pass ft (map _ (rfft x1))) in *. set (Y1 := low_pass ft (map _ (rfft y1))) in *.
  destruct P as (P1 & P2 & _). rewrite P1, P2. destruct L as (L1 & L2 & L3). rewrite L1, L2. apply lc_irfft, lcC_pad. exact (conj L1 (conj L2 L3)).
Qed.
Lemma downsample_linear r ft tp tt s z x y : lc z x y -> lc (downsample r ft tp tt s z) (downsample r ft tp tt s x) (downsample r ft tp tt s y).
Proof.
  intros H. unfold downsample. pose proof H as (H1 & H2 & _). rewrite H1, H2.
  destruct (length z =? 0)%nat; [exact H|]. destruct ((r =? 1)%nat && _); [exact H|]. cbv zeta.
  pose proof (lc_windowed tt _ _ _ H) as W. set (zw := windowed tt z) in *. set (xw := windowed tt x) in *. set (yw := windowed tt y) in *.
  pose proof W as (W1 & W2 & _). rewrite W1, W2. set (m := frac_of tp _).
  pose proof (lc_pad (m * r) _ _ _ W) as P. set (z1 := pad_end 0 zw _) in *. set (x1 := pad_end 0 xw _) in *. set (y1 := pad_end 0 yw _) in *.
  pose proof P as (P1 & P2 & _). rewrite P1, P2. set (dn := (length z1 / r)%nat).
  pose proof (lcC_low_pass ft _ _ _ (lcC_firstn (dn / 2 + 1) _ _ _ (lc_rfft _ _ _ P))) as L.
  set (Z1 := low_pass ft (firstn _ (rfft z1))) in *. set (X1 := low_pass ft (firstn _ (rfft x1))) in *. set (Y1 := low_pass ft (firstn _ (rfft y1))) in *.
  apply lc_cut.
  assert (D : forall u v w, lc u v w -> lc (map (fun y => y / sqrt (INR r)) u) (map (fun y => y / sqrt (INR r)) v) (map (fun y => y / sqrt (INR r)) w)).
  { intros u v w (U1 & U2 & U3). unfold lc. rewrite !map_length. split; [exact U1|]. split; [exact U2|]. intros k.
    assert (E : 0 = 0 / sqrt (INR r)) by (unfold Rdiv; ring). rewrite E at 1 2 3. rewrite !(map_nth (fun y => y / sqrt (INR r))), U3. unfold Rdiv. ring. }
  apply D, lc_irfft. destruct (Req_EM_T s 0); [exact L|]. destruct L as (L1 & L2 & L3). rewrite L1, L2. apply lcC_mk. intros k _.
  cbn [cmul fst snd]. destruct (L3 k) as [-> ->]. split; ring.
Qed.
End Lin.

Lemma windowed_length tt x : length (windowed tt x) = length x.
Proof. destruct tt; [cbn; rewrite map_length, seq_length; reflexivity|reflexivity]. Qed.
Lemma upsample_length r ft tp tt x : (0 < r)%nat -> length (upsample r ft tp tt x) = (length x * r)%nat.
Proof.
  intros Hr. unfold upsample. destruct (Nat.eqb_spec (length x) 0) as [E|E]; [cbn [orb]; lia|]. destruct (Nat.eqb_spec r 1) as [->|E1]; [cbn; lia|].
  cbn [orb]. rewrite windowed_length. unfold cut_end. rewrite firstn_length, irfft_length. unfold pad_end at 1 2. rewrite app_length, repeat_length. lia.
Qed.
Lemma downsample_length r ft tp tt s x : (0 < r)%nat -> length (downsample r ft tp tt s x) = (length x / r)%nat.
Proof.
  intros Hr. unfold downsample. destruct (Nat.eqb_spec (length x) 0) as [E|E]; [rewrite E, Nat.div_0_l by lia; reflexivity|].
  destruct (Nat.eqb_spec r 1) as [->|E1]; cbn [andb]; [destruct (Req_EM_T s 0); [symmetry; apply Nat.div_1_r|]|].
  all: cbv zeta; unfold cut_end; rewrite firstn_length, map_length, irfft_length, windowed_length; unfold pad_end; rewrite app_length, repeat_length, windowed_length, Nat.div_add by lia; rewrite ?Nat.div_1_r; lia.
Qed.

(** ** Statements for property C31 *)
Lemma cz_scale n r m : (0 < n)%nat -> (0 < r)%nat -> cz (n * r) (m * Z.of_nat r) = cz n m /\ sz (n * r) (m * Z.of_nat r) = sz n m.
Proof.
  intros Hn Hr. assert (INR n <> 0) by (apply not_0_INR; lia). assert (INR r <> 0) by (apply not_0_INR; lia).
  unfold cz, sz. rewrite mult_IZR, <- INR_IZR_INZ, mult_INR.
  replace (2 * PI * (IZR m * INR r) / (INR n * INR r)) with (2 * PI * IZR m / INR n) by (field; split; assumption). split; reflexivity.
Qed.
(** The samples of the upsampled series at the original times are those of the round trip. *)
Lemma up_interpolates x r j : (0 < length x)%nat -> (2 <= r)%nat -> (j < length x)%nat ->
  nth (j * r) (upsample r 0 0 false x) 0 = nth j (downsample r 0 0 false 0 (upsample r 0 0 false x)) 0.
Proof.
  intros Hn Hr Hj. rewrite down_of_up_nth by assumption. rewrite up_nth by (try assumption; nia). set (n := length x) in *.
  assert (P : 0 < INR n) by (apply lt_0_INR; exact Hn). assert (Pr : 0 < INR r) by (apply lt_0_INR; lia).
  assert (S1 : sqrt (INR n) <> 0) by (apply Rgt_not_eq, sqrt_lt_R0, P). assert (S2 : sqrt (INR r) <> 0) by (apply Rgt_not_eq, sqrt_lt_R0, Pr).
  assert (2 * (n / 2) <= n)%nat by (apply Nat.mul_div_le; lia).
  rewrite (rsum_ext (kept n) _ (fun k => sqrt (INR r) / sqrt (INR n) * (wgt n k * part x k j))).
  - rewrite rsum_scal, mult_INR, sqrt_mult by lra. set (Sm := rsum _ _). replace (Sm / INR n) with (Sm / (sqrt (INR n) * sqrt (INR n))) by (rewrite sqrt_sqrt by lra; reflexivity). field. split; assumption.
  - intros k Hk. rewrite <- part_eq. fold n.
    replace (Z.of_nat (j * r) * Z.of_nat k)%Z with (Z.of_nat j * Z.of_nat k * Z.of_nat r)%Z by (rewrite Nat2Z.inj_mul; ring).
    destruct (cz_scale n r (Z.of_nat j * Z.of_nat k) Hn ltac:(lia)) as [-> ->].
    replace (wgt (n * r) k) with (wgt n k); [field; exact S1|]. unfold kept in Hk.
    destruct (wgt_cases n k) as [[[->|B] ->]|[[B1 B2] ->]].
    + unfold wgt. reflexivity.
    + assert (k = n / 2)%nat by lia. assert (n / 2 = 0)%nat by lia. assert (k = 0)%nat by lia. lia.
    + destruct (wgt_cases (n * r) k) as [[[B|B] _]|[_ ->]]; [lia| |reflexivity]. exfalso. nia.
Qed.

Lemma cz_half m k : (0 < m)%nat -> cz (2 * m) (Z.of_nat m * k) = if Z.even k then 1 else -1.
Proof.
  intros Hm. destruct (Z.even k) eqn:E.
  - apply Z.even_spec in E. destruct E as [q ->]. replace (Z.of_nat m * (2 * q))%Z with (0 + Z.of_nat (2 * m) * q)%Z by lia. rewrite cz_mod by lia. apply cz_0.
  - assert (O : Z.odd k = true) by (rewrite <- Z.negb_even, E; reflexivity). apply Z.odd_spec in O. destruct O as [q ->].
    replace (Z.of_nat m * (2 * q + 1))%Z with (Z.of_nat m + Z.of_nat (2 * m) * q)%Z by lia. rewrite cz_mod by lia.
    unfold cz. rewrite mult_INR, <- INR_IZR_INZ. change (INR 2) with 2. assert (INR m <> 0) by (apply not_0_INR; lia).
    replace (2 * PI * INR m / (2 * INR m)) with PI by (field; assumption). apply cos_PI.
Qed.
Lemma pow_neg1 k : (-1) ^ k = if Z.even (Z.of_nat k) then 1 else -1.
Proof.
  induction k as [|k IH]; [reflexivity|]. cbn [pow]. rewrite IH, Nat2Z.inj_succ, Z.even_succ, <- Z.negb_even. destruct (Z.even (Z.of_nat k)); cbn; lra.
Qed.
Lemma part_nyquist x m j : length x = (2 * m)%nat -> (0 < m)%nat ->
  wgt (length x) (length x / 2) * part x (length x / 2) j = (-1) ^ j * rsum (length x) (fun l => (-1) ^ l * nth l x 0).
Proof.
  intros Hl Hm. rewrite Hl, (Nat.mul_comm 2 m), Nat.div_mul by lia. unfold wgt. rewrite (Nat.mul_comm m 2), Nat.eqb_refl, orb_true_r, Rmult_1_l.
  unfold part. rewrite Hl, <- rsum_scal. apply rsum_ext. intros l _. rewrite cz_half by exact Hm.
  rewrite !pow_neg1. rewrite Z.even_sub. destruct (Z.even (Z.of_nat j)), (Z.even (Z.of_nat l)); cbn; ring.
Qed.

Lemma round_trip_even x r m j : length x = (2 * m)%nat -> (0 < m)%nat -> (2 <= r)%nat -> (j < length x)%nat ->
  nth j (downsample r 0 0 false 0 (upsample r 0 0 false x)) 0
  = nth j x 0 - (-1) ^ j * rsum (length x) (fun l => (-1) ^ l * nth l x 0) / INR (length x).
Proof.
  intros Hl Hm Hr Hj. rewrite round_trip by (try assumption; lia). destruct (Nat.eqb_spec (length x) 1); [lia|].
  rewrite (part_nyquist x m j Hl Hm). reflexivity.
Qed.
Lemma round_trip_odd x r m j : length x = (2 * m + 1)%nat -> (2 <= r)%nat -> (j < length x)%nat ->
  nth j (downsample r 0 0 false 0 (upsample r 0 0 false x)) 0
  = nth j x 0 - (if (m =? 0)%nat then 0 else 2 / INR (length x) * rsum (length x) (fun l => nth l x 0 * cos (2 * PI * INR m * (INR j - INR l) / INR (length x)))).
Proof.
  intros Hl Hr Hj. rewrite round_trip by (try assumption; lia). assert (Hh : (length x / 2 = m)%nat) by (rewrite Hl, Nat.mul_comm, Nat.div_add_l by lia; cbn; lia).
  rewrite Hh. destruct (Nat.eqb_spec (length x) 1) as [E|E].
  - destruct (Nat.eqb_spec m 0); [reflexivity|lia].
  - destruct (Nat.eqb_spec m 0); [lia|]. f_equal. destruct (wgt_cases (length x) m) as [[[B|B] _]|[_ ->]]; [lia|lia|]. unfold part.
    unfold Rdiv. rewrite Rmult_assoc. rewrite (Rmult_comm (rsum _ _)), <- Rmult_assoc. f_equal. apply rsum_ext. intros l _. unfold cz. do 2 f_equal.
    rewrite mult_IZR, minus_IZR, <- !INR_IZR_INZ. unfold Rdiv. ring.
Qed.
Lemma odd_refuted : exists (x : list R) (r : nat), Nat.odd (length x) = true /\ (2 <= r)%nat /\
  downsample r 0 0 false 0 (upsample r 0 0 false x) <> x.
Proof.
  exists [1; 0; 0], 2%nat. split; [reflexivity|]. split; [lia|]. intros H. apply (f_equal (fun l => nth 0 l 0)) in H.
  rewrite (round_trip_odd _ 2 1) in H by (cbn; lia). cbn in H.
  replace (2 * PI * 1 * (0 - 0) / (1 + 1 + 1)) with 0 in H by field. rewrite cos_0 in H. lra.
Qed.
Lemma ratio_one ft tp tt x : upsample 1 ft tp tt x = x /\ downsample 1 ft tp tt 0 x = x.
Proof.
  unfold upsample, downsample. rewrite Nat.eqb_refl, orb_true_r. split; [reflexivity|].
  destruct (length x =? 0)%nat; [reflexivity|]. destruct (Req_EM_T 0 0) as [_|C]; [reflexivity|lra].
Qed.
