(** * Positivity of the acoustic energy under the CFL time step, and boundedness of the acoustic wavefields. *)
From Coq Require Import List ZArith QArith Qreals Reals Lra Lia Bool Permutation.
From Verif Require Import Ops Sums Grid Stencil StencilOrder DualNum ScalarModel ScalarRefine ScalarForward
  ScalarAdjoint RealModel RealThm EnergyReal Stag StagAdj StagKernel StagCell StagRefine StagGrad AcousticModel AcousticThm ElasticModel StagEqs
  StagEnergy StagSetup.
Import ListNotations.
Local Open Scope R_scope.

Local Arguments deriv : simpl never.
Local Arguments SDH1 : simpl never.

(** Largest ratio of densities less than [accuracy / 2] cells apart for which stability is shown; accuracy 2 needs none
    (cells at distance zero). *)
Definition contrast (a : acc) : R := match a with A2 => 1 | A4 => 100 | A6 => 36 | A8 => 16 end.
(** Its square root. *)
Definition croot (a : acc) : R := match a with A2 => 1 | A4 => 10 | A6 => 6 | A8 => 4 end.

Lemma Q2R_oq q : oq R_ops q = Q2R q. Proof. reflexivity. Qed.

(** [(sum c_k D_k)^2 <= (sum |c_k| s_k) (sum |c_k| D_k^2 / s_k)] *)
Fixpoint wsum (cs : list Q) (s : R) : R := match cs with [] => 0 | c :: cs' => Rabs (Q2R c) * s + wsum cs' s end.
Fixpoint wsq (cs : list Q) (k : Z) (s : R) (D : Z -> R) : R :=
  match cs with [] => 0 | c :: cs' => Rabs (Q2R c) * (D k ^ 2 / s) + wsq cs' (k + 1) s D end.
Fixpoint lsum (cs : list Q) (k : Z) (D : Z -> R) : R :=
  match cs with [] => 0 | c :: cs' => Q2R c * D k + lsum cs' (k + 1) D end.

Lemma wsum_nonneg cs s : 0 < s -> 0 <= wsum cs s.
Proof. intros Hs. induction cs as [|c cs IH]; cbn; [lra|]. pose proof (Rabs_pos (Q2R c)). nra. Qed.
Lemma wsq_nonneg cs k s D : 0 < s -> 0 <= wsq cs k s D.
Proof.
  intros Hs. revert k. induction cs as [|c cs IH]; intros k; cbn [wsq]; [lra|]. specialize (IH (k + 1)%Z).
  assert (0 <= D k ^ 2 / s) by (apply Rmult_le_pos; [nra|left; apply Rinv_0_lt_compat, Hs]). pose proof (Rabs_pos (Q2R c)). nra.
Qed.
(** Two-term step of Cauchy's inequality: [(x + y)^2 <= (a + b) (x^2/a + y^2/b)] without division. *)
Lemma cauchy2 x y a b X Y : 0 <= a -> 0 <= b -> 0 <= X -> 0 <= Y -> x ^ 2 <= a * X -> y ^ 2 <= b * Y -> (x + y) ^ 2 <= (a + b) * (X + Y).
Proof.
  intros Ha Hb HX HY H1 H2.
  assert (H3 : (x * y) ^ 2 <= (a * Y) * (b * X)).
  { replace ((x * y) ^ 2) with (x ^ 2 * y ^ 2) by ring. replace (a * Y * (b * X)) with (a * X * (b * Y)) by ring.
    apply Rmult_le_compat; nra. }
  assert (H4 : 2 * (x * y) <= a * Y + b * X).
  { set (u := a * Y) in *. set (w := b * X) in *. assert (0 <= u) by (unfold u; nra). assert (0 <= w) by (unfold w; nra).
    destruct (Rle_lt_dec (2 * (x * y)) (u + w)) as [Hle|Hlt]; [exact Hle|exfalso].
    set (t := x * y) in *. pose proof (Rmult_lt_0_compat (2 * t - (u + w)) (2 * t + (u + w)) ltac:(lra) ltac:(lra)) as Hm.
    pose proof (pow2_ge_0 (u - w)) as Hq. clearbody t u w. lra. }
  nra.
Qed.
Lemma wcauchy cs k s D : 0 < s -> lsum cs k D ^ 2 <= wsum cs s * wsq cs k s D.
Proof.
  intros Hs. revert k. induction cs as [|c cs IH]; intros k; cbn [lsum wsum wsq]; [lra|].
  assert (HD : 0 <= D k ^ 2 / s) by (apply Rmult_le_pos; [nra|left; apply Rinv_0_lt_compat, Hs]).
  pose proof (Rabs_pos (Q2R c)) as Hc. apply cauchy2.
  - nra.
  - apply wsum_nonneg, Hs.
  - nra.
  - apply wsq_nonneg, Hs.
  - replace (Rabs (Q2R c) * s * (Rabs (Q2R c) * (D k ^ 2 / s))) with (Rabs (Q2R c) ^ 2 * D k ^ 2) by (field; lra).
    rewrite pow2_abs. right. ring.
  - apply IH.
Qed.

(** First coefficient with weight 1, the others with weight [s]. *)
Definition gamma (a : acc) : R := match coefs a with [] => 0 | c :: cs => Rabs (Q2R c) * 1 + wsum cs (croot a) end.
Definition qform (a : acc) (D : Z -> R) : R :=
  match coefs a with [] => 0 | c :: cs => Rabs (Q2R c) * (D 1%Z ^ 2) + wsq cs 2 (croot a) D end.
Lemma croot_pos a : 0 < croot a. Proof. destruct a; cbn; lra. Qed.
Lemma stencil_sq a D : lsum (coefs a) 1 D ^ 2 <= gamma a * qform a D.
Proof.
  unfold gamma, qform. destruct (coefs a) as [|c cs]; [cbn; lra|]. cbn [lsum]. pose proof (croot_pos a) as Hs.
  pose proof (Rabs_pos (Q2R c)) as Hc. apply cauchy2.
  - nra.
  - apply wsum_nonneg, Hs.
  - nra.
  - apply wsq_nonneg, Hs.
  - rewrite Rmult_1_r. replace (Rabs (Q2R c) * (Rabs (Q2R c) * D 1%Z ^ 2)) with (Rabs (Q2R c) ^ 2 * D 1%Z ^ 2) by ring. rewrite pow2_abs. right. ring.
  - apply (wcauchy cs 2), Hs.
Qed.
Lemma gamma_bound a : 0 < gamma a /\ 6 / 10 * gamma a <= 24 / 25.
Proof.
  unfold gamma. destruct a; cbn [coefs wsum croot]; unfold Q2R; cbn [Qnum Qden];
    rewrite ?Rabs_mult, ?Rabs_inv;
    repeat match goal with |- context [Rabs (IZR ?z)] => let v := eval cbv in (Z.abs z) in replace (Rabs (IZR z)) with (IZR v) by (rewrite <- abs_IZR; reflexivity) end;
    split; lra.
Qed.

Fixpoint tsum (cs : list Q) (k : Z) (s : R) (T : Z -> R) : R :=
  match cs with [] => 0 | c :: cs' => Rabs (Q2R c) * (s * T k) + tsum cs' (k + 1) s T end.

Lemma half_lsum cs k (g : Z -> R) : st_half (K := R_ops) cs k g = lsum cs k (fun k => g k - g (1 - k)%Z).
Proof. revert k. induction cs as [|c cs IH]; intros k; cbn [st_half lsum]; [reflexivity|]. rewrite IH. reflexivity. Qed.

Section Pos.
Variable nd : nat.
Variable P : spar (ac_sys nd) R_ops.
Notation S := (ac_sys nd).
Notation shape := (sp_shape P).
Notation fd := (fd_pad (sp_acc P)).
Notation L := (box_pts (abox shape)).
Notation inarr q := (inb (abox shape) q = true).
Hypothesis Hnd : length shape = nd.
Variable rho : pt -> R.
Hypothesis Hrho : forall q, inarr q -> 0 < rho q.
Hypothesis Hcon : forall d j q, (d < nd)%nat -> (Z.abs j < fd)%Z -> inarr q -> inarr (shift d j q) -> rho (shift d j q) <= contrast (sp_acc P) * rho q.
Variable p : field R_ops.
Hypothesis Hp : fsup S R_ops P (fun _ => false) p.

Definition gden (q : pt) : R := p q ^ 2 / rho q.
Lemma p_out q : ~ inarr q -> p q = 0.
Proof. intros H. apply Hp. destruct (dom S R_ops P (fun _ => false) q) eqn:E; [|reflexivity]. exfalso. apply H, (dom_array S R_ops P _ _ E). Qed.
Lemma gden_out q : ~ inarr q -> gden q = 0.
Proof. intros H. unfold gden. rewrite p_out by exact H. unfold Rdiv. ring. Qed.
Lemma gden_pos q : 0 <= gden q.
Proof.
  destruct (inb (abox shape) q) eqn:E.
  - apply Rmult_le_pos; [nra|]. left. apply Rinv_0_lt_compat, Hrho, E.
  - rewrite gden_out; [lra|congruence].
Qed.
Lemma shift_sum d k : Rsum L (fun q => gden (shift d k q)) <= Rsum L gden.
Proof.
  replace (Rsum L (fun q => gden (shift d k q))) with (Rsum (map (shift d k) L) gden) by (unfold Rsum; rewrite sumf_map; reflexivity).
  rewrite (Rsum_filter (inb (abox shape))) by (intros q _ H; apply gden_out; congruence).
  apply Rsum_incl; [|intros q H; apply filter_In in H; apply In_box_pts, H|intros q; apply gden_pos].
  apply NoDup_filter. apply NoDup_map_inj; [|apply NoDup_box_pts]. intros x y _ _ Hxy. rewrite <- (shift_neg d k x), Hxy. apply shift_neg.
Qed.

Variable d : nat.
Hypothesis Hd : (d < nd)%nat.
Definition Tk (q : pt) (k : Z) : R := gden (shift d k q) + gden (shift d (1 - k) q).

Lemma at_array q k : dom S R_ops P (Nat.eqb d) q = true -> (1 - fd <= k <= fd)%Z -> inarr (shift d k q).
Proof.
  rewrite dom_spec, inb_abox. intros [H1 H2] Hk. split; [rewrite shift_length; exact H1|].
  intros e He. specialize (H2 e He). pose proof (fd_pad_pos (sp_acc P)).
  destruct (Nat.eq_dec e d) as [->|Hne].
  - rewrite coord_shift_same by lia. rewrite Nat.eqb_refl in H2. lia.
  - rewrite coord_shift_other by congruence. destruct (Nat.eqb_spec d e); [congruence|]. lia.
Qed.

Notation Dk q := (fun k => p (shift d k q) - p (shift d (1 - k) q)).
(** [(x - y)^2 <= (r + r') (x^2/r + y^2/r')] *)
Lemma diff_sq x y r r' : 0 < r -> 0 < r' -> (x - y) ^ 2 <= (r + r') * (x ^ 2 / r + y ^ 2 / r').
Proof.
  intros H1 H2. replace (x - y) with (x + - y) by ring. replace (y ^ 2) with ((- y) ^ 2) by ring. apply cauchy2; try lra.
  - apply Rmult_le_pos; [nra|left; apply Rinv_0_lt_compat, H1].
  - apply Rmult_le_pos; [nra|left; apply Rinv_0_lt_compat, H2].
  - right. field. lra.
  - right. field. lra.
Qed.
Lemma Dk_sq q k : dom S R_ops P (Nat.eqb d) q = true -> (1 <= k <= fd)%Z ->
  Dk q k ^ 2 <= (rho (shift d k q) + rho (shift d (1 - k) q)) * Tk q k.
Proof. intros Hq Hk. apply diff_sq; apply Hrho, at_array; (exact Hq || lia). Qed.

Section Point.
Variable q : pt.
Hypothesis Hq : dom S R_ops P (Nat.eqb d) q = true.
Notation wb := ((rho q + rho (shift d 1 q)) / 2).
Lemma in_q : inarr q. Proof. apply (dom_array S R_ops P _ _ Hq). Qed.
Lemma in_q1 : inarr (shift d 1 q). Proof. apply at_array; [exact Hq|]. pose proof (fd_pad_pos (sp_acc P)). lia. Qed.
Lemma wb_pos : 0 < wb. Proof. pose proof (Hrho _ in_q). pose proof (Hrho _ in_q1). lra. Qed.
Lemma Tk_pos k : 0 <= Tk q k. Proof. unfold Tk. pose proof (gden_pos (shift d k q)). pose proof (gden_pos (shift d (1 - k) q)). lra. Qed.
Lemma contrast_root : contrast (sp_acc P) = croot (sp_acc P) ^ 2. Proof. destruct (sp_acc P); cbn; lra. Qed.

Lemma D1_bound : Dk q 1%Z ^ 2 <= 2 * Tk q 1 * wb.
Proof.
  pose proof (fd_pad_pos (sp_acc P)). pose proof (Dk_sq q 1 Hq ltac:(lia)) as H1. cbv beta in *.
  change (1 - 1)%Z with 0%Z in *. rewrite shift_0 in *. eapply Rle_trans; [exact H1|]. right. field.
Qed.
Lemma Dk_bound k : (2 <= k <= fd)%Z -> Dk q k ^ 2 <= 2 * croot (sp_acc P) ^ 2 * Tk q k * wb.
Proof.
  intros Hk. pose proof (Dk_sq q k Hq ltac:(lia)) as H1. pose proof (Tk_pos k) as HT.
  assert (A : rho (shift d k q) <= contrast (sp_acc P) * rho (shift d 1 q)).
  { replace (shift d k q) with (shift d (k - 1) (shift d 1 q)) by (rewrite shift_shift; f_equal; lia). apply Hcon; [exact Hd|lia|exact in_q1|].
    rewrite shift_shift. replace (1 + (k - 1))%Z with k by lia. replace (k - 1 + 1)%Z with k by lia. apply at_array; [exact Hq|lia]. }
  assert (B : rho (shift d (1 - k) q) <= contrast (sp_acc P) * rho q).
  { apply Hcon; [exact Hd|lia|exact in_q|]. apply at_array; [exact Hq|lia]. }
  rewrite contrast_root in A, B. eapply Rle_trans; [exact H1|].
  replace (2 * croot (sp_acc P) ^ 2 * Tk q k * wb) with (croot (sp_acc P) ^ 2 * (rho q + rho (shift d 1 q)) * Tk q k) by field.
  apply Rmult_le_compat_r; [exact HT|]. lra.
Qed.
Lemma wsq_bound cs k : (2 <= k)%Z -> (k + Z.of_nat (length cs) <= fd + 1)%Z ->
  wsq cs k (croot (sp_acc P)) (Dk q) <= 2 * tsum cs k (croot (sp_acc P)) (Tk q) * wb.
Proof.
  revert k. induction cs as [|c cs IH]; intros k Hk Hl; cbn [wsq tsum]; [lra|]. cbn [length] in Hl.
  specialize (IH (k + 1)%Z ltac:(lia) ltac:(lia)). pose proof (Dk_bound k ltac:(lia)) as HD. pose proof (croot_pos (sp_acc P)) as Hs.
  assert (X : Dk q k ^ 2 / croot (sp_acc P) <= 2 * (croot (sp_acc P) * Tk q k) * wb).
  { apply (Rmult_le_reg_r (croot (sp_acc P))); [exact Hs|]. unfold Rdiv at 1. rewrite Rmult_assoc, Rinv_l, Rmult_1_r by lra.
    eapply Rle_trans; [exact HD|]. right. ring. }
  pose proof (Rmult_le_compat_l _ _ _ (Rabs_pos (Q2R c)) X). lra.
Qed.
Definition tform : R := match coefs (sp_acc P) with [] => 0 | c :: cs => Rabs (Q2R c) * (1 * Tk q 1) + tsum cs 2 (croot (sp_acc P)) (Tk q) end.
Lemma len_coefs a : Z.of_nat (length (coefs a)) = fd_pad a. Proof. destruct a; reflexivity. Qed.
Lemma qform_bound : qform (sp_acc P) (Dk q) <= 2 * tform * wb.
Proof.
  unfold qform, tform. pose proof (len_coefs (sp_acc P)) as Hl. destruct (coefs (sp_acc P)) as [|c cs]; [lra|]. cbn [length] in Hl.
  pose proof (wsq_bound cs 2 ltac:(lia) ltac:(lia)) as H2. pose proof (Rmult_le_compat_l _ _ _ (Rabs_pos (Q2R c)) D1_bound) as H1. cbv beta in H1, H2. lra.
Qed.
Lemma deriv_sq : deriv P true d p q ^ 2 <= sp_rd P d ^ 2 * (2 * gamma (sp_acc P) * tform) * wb.
Proof.
  unfold deriv, SDH1, SDIFFH1. rewrite half_lsum.
  change (omul R_ops) with Rmult. rewrite Rpow_mult_distr.
  pose proof (stencil_sq (sp_acc P) (Dk q)) as H1. pose proof qform_bound as H2. destruct (gamma_bound (sp_acc P)) as [Hg _].
  pose proof (Rmult_le_compat_l _ _ _ (Rlt_le _ _ Hg) H2) as H3.
  assert (H4 : lsum (coefs (sp_acc P)) 1 (Dk q) ^ 2 <= 2 * gamma (sp_acc P) * tform * wb) by lra.
  pose proof (Rmult_le_compat_l _ _ _ (pow2_ge_0 (sp_rd P d)) H4). cbv beta in *. 
  rewrite (Rmult_comm (lsum _ _ _ ^ 2)). lra.
Qed.
End Point.

Lemma tsum_total cs k s : 0 < s -> Rsum L (fun q => tsum cs k s (Tk q)) <= wsum cs s * (2 * Rsum L gden).
Proof.
  intros Hs. revert k. induction cs as [|c cs IH]; intros k; cbn [tsum wsum].
  - rewrite (Rsum_zero L (fun _ => 0)) by reflexivity. lra.
  - rewrite Rsum_add, Rsum_scal, Rsum_scal. specialize (IH (k + 1)%Z).
    assert (X : Rsum L (fun q => Tk q k) <= 2 * Rsum L gden).
    { unfold Tk. rewrite Rsum_add. pose proof (shift_sum d k). pose proof (shift_sum d (1 - k)). lra. }
    pose proof (Rabs_pos (Q2R c)). assert (0 <= Rabs (Q2R c) * s) by nra.
    assert (Rabs (Q2R c) * s * Rsum L (fun q => Tk q k) <= Rabs (Q2R c) * s * (2 * Rsum L gden)) by (apply Rmult_le_compat_l; assumption). lra.
Qed.
Lemma tform_total : Rsum L tform <= gamma (sp_acc P) * (2 * Rsum L gden).
Proof.
  unfold tform, gamma. destruct (coefs (sp_acc P)) as [|c cs].
  - rewrite (Rsum_zero L (fun _ => 0)) by reflexivity. lra.
  - rewrite Rsum_add. pose proof (tsum_total cs 2 _ (croot_pos (sp_acc P))) as H1.
    pose proof (tsum_total [c] 1 1 ltac:(lra)) as H2. cbn [tsum wsum] in H2. 
    rewrite (Rsum_ext L (fun q => Rabs (Q2R c) * (1 * Tk q 1) + 0) (fun q => Rabs (Q2R c) * (1 * Tk q 1))) in H2 by (intros; ring). lra.
Qed.
End Pos.

Lemma tsum_nonneg cs k s T : 0 < s -> (forall k, 0 <= T k) -> 0 <= tsum cs k s T.
Proof.
  intros Hs HT. revert k. induction cs as [|c cs IH]; intros k; cbn [tsum]; [lra|]. specialize (IH (k + 1)%Z).
  pose proof (Rmult_le_pos _ _ (Rabs_pos (Q2R c)) (Rmult_le_pos _ _ (Rlt_le _ _ Hs) (HT k))). lra.
Qed.
Lemma amgm w th B x y : 0 < w -> 0 < th -> y ^ 2 <= B * w -> Rabs (x * y) <= th * (x * (w * x)) + B / (4 * th).
Proof.
  intros Hw Ht Hy. assert (Hd : 0 < 4 * th * w) by nra.
  assert (X : forall z, z ^ 2 <= B * w -> x * z <= th * (x * (w * x)) + B / (4 * th)).
  { intros z Hz. apply (Rmult_le_reg_l (4 * th * w)); [exact Hd|].
    replace (4 * th * w * (th * (x * (w * x)) + B / (4 * th))) with ((2 * th * w * x) ^ 2 + B * w) by (field; lra).
    pose proof (pow2_ge_0 (2 * th * w * x - z)). lra. }
  unfold Rabs. destruct (Rcase_abs (x * y)) as [_|_]; [|apply X, Hy].
  replace (- (x * y)) with (x * - y) by ring. apply X. replace ((- y) ^ 2) with (y ^ 2) by ring. exact Hy.
Qed.
Lemma Rsum_abs {A} (l : list A) f : Rabs (Rsum l f) <= Rsum l (fun x => Rabs (f x)).
Proof.
  induction l as [|x l IH]; [unfold Rsum; cbn; rewrite Rabs_R0; lra|]. rewrite !Rsum_cons.
  eapply Rle_trans; [apply Rabs_triang|]. lra.
Qed.

(** Twice the sum of kinetic and strain energy, each with its own wavefield. *)
Definition acoustic_norm (nd : nat) (P : spar (ac_sys nd) R_ops) (wk : field R_ops) (wb : nat -> field R_ops) (s : sst (ac_sys nd) R_ops) : R :=
  let p := cut P (fun _ => false) (mn s XP) in
  let v := fun d => cut P (Nat.eqb d) (mn s (XV d)) in
  inner P p (fun q => wk q * p q) + Rsum (seq 0 nd) (fun d => inner P (v d) (fun q => wb d q * v d q)).

Section Energy.
Variable nd : nat.
Variable P : spar (ac_sys nd) R_ops.
Notation S := (ac_sys nd).
Notation shape := (sp_shape P).
Notation fd := (fd_pad (sp_acc P)).
Notation L := (box_pts (abox shape)).
Notation inarr q := (inb (abox shape) q = true).
Notation ga := (gamma (sp_acc P)).
Hypothesis Hnd : length shape = nd.
Variable rho : pt -> R.
Hypothesis Hrho : forall q, inarr q -> 0 < rho q.
Hypothesis Hcon : forall d j q, (d < nd)%nat -> (Z.abs j < fd)%Z -> inarr q -> inarr (shift d j q) -> rho (shift d j q) <= contrast (sp_acc P) * rho q.
Variables dt vmax : R.
Hypothesis Hv : 0 < vmax.
Hypothesis Hcfl : dt ^ 2 * vmax ^ 2 * Rsum (seq 0 nd) (fun d => sp_rd P d ^ 2) <= 36 / 100.
Variable wk : field R_ops.
Variable wb : nat -> field R_ops.
Variable s : sst S R_ops.
Notation p := (cut P (fun _ => false) (mn s XP)).
Notation v d := (cut P (Nat.eqb d) (mn s (XV d))).
Hypothesis Hwk : forall q, updated P (fun _ => false) q -> mn s XP q ^ 2 <= vmax ^ 2 * rho q * (wk q * mn s XP q ^ 2).
Hypothesis Hwb : forall d q, (d < nd)%nat -> updated P (Nat.eqb d) q -> wb d q = (rho q + rho (shift d 1 q)) / 2.
Notation th := (6 / 10 * ga).
Notation G := (Rsum L (gden rho p)).

Lemma G_bound : G <= vmax ^ 2 * inner P p (fun q => wk q * p q).
Proof.
  unfold inner. change (sumf (K := R_ops) L) with (@Rsum pt L). change (omul R_ops) with Rmult. rewrite <- Rsum_scal. apply Rsum_le. intros q Hq. apply In_box_pts in Hq.
  unfold gden, cut. destruct (dom S R_ops P (fun _ => false) q) eqn:E.
  - apply updated_dom in E. specialize (Hwk q E). pose proof (Hrho q Hq) as Hr. apply (Rmult_le_reg_r (rho q)); [exact Hr|].
    unfold Rdiv. rewrite Rmult_assoc, Rinv_l by lra. change (car R_ops) with R in *. eapply Rle_trans; [|eapply Rle_trans; [exact Hwk|]]; right; ring.
  - change (o0 R_ops) with 0. unfold Rdiv. right. ring.
Qed.
Lemma th_pos : 0 < th /\ th <= 24 / 25. Proof. destruct (gamma_bound (sp_acc P)). split; lra. Qed.

Lemma cross_bound d : (d < nd)%nat ->
  Rabs (dt * inner P (v d) (deriv P true d p)) <= th * inner P (v d) (fun q => wb d q * v d q) + dt ^ 2 * sp_rd P d ^ 2 * ga ^ 2 / th * G.
Proof.
  intros Hd. destruct th_pos as [Ht _]. destruct (gamma_bound (sp_acc P)) as [Hg _].
  unfold inner. change (sumf (K := R_ops) L) with (@Rsum pt L). change (omul R_ops) with Rmult.
  rewrite <- Rsum_scal. eapply Rle_trans; [apply Rsum_abs|].
  eapply Rle_trans; [apply (Rsum_le L _ (fun q => th * (v d q * (wb d q * v d q)) + dt ^ 2 * sp_rd P d ^ 2 * (2 * ga) / (4 * th) * tform nd P rho p d q))|].
  - intros q Hq. assert (HT : 0 <= tform nd P rho p d q).
    { unfold tform. destruct (coefs (sp_acc P)) as [|c cs]; [lra|]. apply Rplus_le_le_0_compat.
      - apply Rmult_le_pos; [apply Rabs_pos|]. rewrite Rmult_1_l. apply (Tk_pos nd P rho Hrho p (cut_fsup S R_ops P _ _) d q).
      - apply tsum_nonneg; [apply croot_pos|]. intros k. apply (Tk_pos nd P rho Hrho p (cut_fsup S R_ops P _ _) d q). }
    assert (HC : 0 <= dt ^ 2 * sp_rd P d ^ 2 * (2 * ga) / (4 * th)).
    { apply Rmult_le_pos; [|left; apply Rinv_0_lt_compat; lra]. apply Rmult_le_pos; [apply Rmult_le_pos; apply pow2_ge_0|lra]. }
    destruct (dom S R_ops P (Nat.eqb d) q) eqn:E.
    + rewrite (Hwb d q Hd) by (apply updated_dom, E).
      replace (dt * (v d q * deriv P true d p q)) with (v d q * (dt * deriv P true d p q)) by ring.
      replace (dt ^ 2 * sp_rd P d ^ 2 * (2 * ga) / (4 * th) * tform nd P rho p d q) with ((dt ^ 2 * sp_rd P d ^ 2 * (2 * ga) * tform nd P rho p d q) / (4 * th)) by (field; lra).
      apply amgm; [apply (wb_pos nd P Hnd rho Hrho d Hd q E)|exact Ht|].
      pose proof (deriv_sq nd P Hnd rho Hrho Hcon p (cut_fsup S R_ops P _ _) d Hd q E) as X. rewrite Rpow_mult_distr.
      eapply Rle_trans; [apply Rmult_le_compat_l; [apply pow2_ge_0|exact X]|]. right. ring.
    + assert (V0 : v d q = 0) by (unfold cut; rewrite E; reflexivity). rewrite V0.
      replace (dt * (0 * deriv P true d p q)) with 0 by ring. rewrite Rabs_R0.
      pose proof (Rmult_le_pos _ _ HC HT). change (car R_ops) with R in *. lra.
  - rewrite Rsum_add, !Rsum_scal. apply Rplus_le_compat_l.
    assert (HC : 0 <= dt ^ 2 * sp_rd P d ^ 2 * (2 * ga) / (4 * th)).
    { apply Rmult_le_pos; [|left; apply Rinv_0_lt_compat; lra]. apply Rmult_le_pos; [apply Rmult_le_pos; apply pow2_ge_0|lra]. }
    eapply Rle_trans; [apply Rmult_le_compat_l; [exact HC|apply (tform_total nd P rho Hrho p (cut_fsup S R_ops P _ _) d)]|].
    right. field. lra.
Qed.

Lemma energy_norm : Rabs (acoustic_energy nd R_ops P dt wk wb s - acoustic_norm nd P wk wb s) <= th * acoustic_norm nd P wk wb s.
Proof.
  unfold acoustic_energy, acoustic_norm. cbv zeta. destruct th_pos as [Ht _]. destruct (gamma_bound (sp_acc P)) as [Hg _].
  change (sumf (K := R_ops) (seq 0 nd)) with (@Rsum nat (seq 0 nd)).
  change (oadd R_ops) with Rplus. change (osub R_ops) with Rminus. change (omul R_ops dt) with (Rmult dt).
  change (omul R_ops) with Rmult.
  set (pp := inner P p _). set (vv := Rsum (seq 0 nd) (fun d => inner P (v d) (fun q => wb d q * v d q))).
  set (c := Rsum (seq 0 nd) (fun d => inner P (v d) (deriv P true d p))).
  replace (pp + vv - dt * c - (pp + vv)) with (- (dt * c)) by (cbn; ring). rewrite Rabs_Ropp.
  unfold c. rewrite <- Rsum_scal. eapply Rle_trans; [apply Rsum_abs|].
  eapply Rle_trans; [apply Rsum_le; intros d Hd; apply in_seq in Hd; apply cross_bound; lia|].
  rewrite Rsum_add, Rsum_scal. change (Rsum (seq 0 nd) (fun d => inner P (v d) (fun q => wb d q * v d q))) with vv.
  assert (X : Rsum (seq 0 nd) (fun d => dt ^ 2 * sp_rd P d ^ 2 * ga ^ 2 / th * G) <= th * pp).
  { rewrite (Rsum_ext _ _ (fun d => dt ^ 2 * ga ^ 2 / th * G * sp_rd P d ^ 2)) by (intros; unfold Rdiv; ring).
    rewrite Rsum_scal. pose proof G_bound as HG. fold pp in HG.
    assert (HG0 : 0 <= G) by (apply Rsum_pos; intros q _; apply (gden_pos nd P rho Hrho p (cut_fsup S R_ops P _ _) q)).
    assert (Hpp : 0 <= pp). { assert (0 < vmax ^ 2) by (apply pow_lt, Hv). change (car R_ops) with R in *. nra. }
    set (Sg := Rsum (seq 0 nd) (fun d => sp_rd P d ^ 2)) in *.
    assert (HS : 0 <= Sg) by (apply Rsum_pos; intros; apply pow2_ge_0).
    replace (dt ^ 2 * ga ^ 2 / th * G * Sg) with (dt ^ 2 * Sg * G * (ga ^ 2 / th)) by (field; lra).
    replace (th * pp) with (36 / 100 * pp * (ga ^ 2 / th)) by (field; lra).
    apply Rmult_le_compat_r; [apply Rmult_le_pos; [apply pow2_ge_0|left; apply Rinv_0_lt_compat; lra]|].
    assert (H1 : dt ^ 2 * Sg * G <= dt ^ 2 * Sg * (vmax ^ 2 * pp)).
    { apply Rmult_le_compat_l; [|exact HG]. apply Rmult_le_pos; [apply pow2_ge_0|exact HS]. }
    eapply Rle_trans; [exact H1|]. replace (dt ^ 2 * Sg * (vmax ^ 2 * pp)) with (dt ^ 2 * vmax ^ 2 * Sg * pp) by ring.
    apply Rmult_le_compat_r; [exact Hpp|exact Hcfl]. }
  change (car R_ops) with R in *. lra.
Qed.
Lemma norm_pos : 0 <= acoustic_norm nd P wk wb s.
Proof. destruct th_pos as [Ht _]. pose proof energy_norm. pose proof (Rabs_pos (acoustic_energy nd R_ops P dt wk wb s - acoustic_norm nd P wk wb s)). nra. Qed.
Lemma energy_two_sided :
  acoustic_norm nd P wk wb s <= 25 * acoustic_energy nd R_ops P dt wk wb s /\ 25 * acoustic_energy nd R_ops P dt wk wb s <= 49 * acoustic_norm nd P wk wb s.
Proof.
  pose proof energy_norm as H. pose proof norm_pos as HN. destruct th_pos as [Ht Ht']. 
  set (x := acoustic_energy nd R_ops P dt wk wb s - acoustic_norm nd P wk wb s) in *.
  pose proof (Rle_abs x) as H1. pose proof (Rle_abs (- x)) as H2. rewrite Rabs_Ropp in H2. subst x. change (car R_ops) with R in *.
  assert (th * acoustic_norm nd P wk wb s <= 24 / 25 * acoustic_norm nd P wk wb s) by (apply Rmult_le_compat_r; assumption). lra.
Qed.
End Energy.

Lemma cfl_sum gs dt vmax inner ratio n : cfl_condition_n gs dt vmax cfl_eps cfl_c_max = Some (inner, ratio) -> length gs = n ->
  Forall (fun g => 0 < g) gs /\ 0 < vmax /\ inner <> 0 /\ inner ^ 2 * vmax ^ 2 * Rsum (seq 0 n) (fun d => (1 / nth d gs 0) ^ 2) <= 36 / 100.
Proof.
  intros Hcfl Hlen.
  destruct (cfl_thm gs dt vmax cfl_eps cfl_c_max inner ratio) as (Hgs & F & Hv & Hdt & Hra & Hin & Hpos & Hb & _);
    [unfold cfl_eps; lra|unfold cfl_c_max; lra|exact Hcfl|].
  assert (Hi : inner <> 0) by (intros ->; lra).
  split; [exact F|]. split; [exact Hv|]. split; [exact Hi|].
  assert (HS : Rsum (seq 0 n) (fun d => (1 / nth d gs 0) ^ 2) = sum_inv2 gs).
  { apply sum_inv2_dims; [exact Hlen|]. intros d Hd. rewrite Forall_forall in F.
    assert (0 < nth d gs 0) by (apply F, nth_In; lia). field. lra. }
  assert (HSp : 0 < sum_inv2 gs).
  { destruct gs as [|g gs']; [congruence|]. unfold sum_inv2. cbn [fold_right]. fold (sum_inv2 gs').
    inversion F as [|? ? Hg F']; subst.
    assert (0 <= sum_inv2 gs').
    { clear -F'. induction gs' as [|x l IH]; [cbn; lra|]. inversion F' as [|? ? Hx F'']; subst. unfold sum_inv2. cbn [fold_right]. fold (sum_inv2 l).
      specialize (IH F''). assert (0 < 1 / x ^ 2) by (apply Rdiv_lt_0_compat; [lra|apply pow_lt, Hx]). lra. }
    assert (0 < 1 / g ^ 2) by (apply Rdiv_lt_0_compat; [lra|apply pow_lt, Hg]). lra. }
  rewrite HS. pose proof (sqrt_lt_R0 _ HSp) as Hq.
  assert (Hsv : 0 < sqrt (sum_inv2 gs) * vmax) by (apply Rmult_lt_0_compat; assumption).
  assert (X : Rabs inner * (sqrt (sum_inv2 gs) * vmax) <= 6 / 10).
  { apply (Rmult_le_compat_r (sqrt (sum_inv2 gs) * vmax)) in Hb; [|lra]. unfold cfl_c_max in Hb.
    replace (6 / 10 / (sqrt (sum_inv2 gs) * vmax) * (sqrt (sum_inv2 gs) * vmax)) with (6 / 10) in Hb by (field; lra). exact Hb. }
  assert (Y : (Rabs inner * (sqrt (sum_inv2 gs) * vmax)) ^ 2 <= (6 / 10) ^ 2).
  { apply pow_incr. split; [|exact X]. apply Rmult_le_pos; [apply Rabs_pos|lra]. }
  rewrite !Rpow_mult_distr, pow2_abs in Y. rewrite pow2_sqrt in Y by lra. lra.
Qed.

(** The densities as a condition on the user's model: positive, above the threshold, and less than [accuracy / 2] cells
    apart along a dimension they differ at most by the factor [contrast]. *)
Record densities_ok (rfmax : R) (a : acc) (shape : list Z) (rho : pt -> R) : Prop := {
  de_pos : forall q, inb (abox shape) q = true -> rfmax < rho q /\ 0 < rho q;
  de_con : forall d j q, (d < length shape)%nat -> (Z.abs j < fd_pad a)%Z -> inb (abox shape) q = true -> inb (abox shape) (shift d j q) = true ->
    rho (shift d j q) <= contrast a * rho q }.
(** Energy of a state for velocities [v] and densities [rho]: [sum p^2 / (rho v^2) + sum rho_mean v_d^2] over the cells. *)
Definition acoustic_size (nd : nat) (P : spar (ac_sys nd) R_ops) (v rho : pt -> R) (s : sst (ac_sys nd) R_ops) : R :=
  acoustic_norm nd P (fun q => / (rho q * v q ^ 2)) (fun d q => (rho q + rho (shift d 1 q)) / 2) s.

Section Run.
Variable nd : nat.
Variable ac : acc.
Variable shape : list Z.
Variable pw : nat -> Z * Z.
Variables (gs : list R) (dt vmax inner_dt freq rfmax : R) (ratio : Z).
Notation S := (ac_sys nd).
Variables src rec : sC S -> list Z.
Notation P := (stag_par S ac shape pw inner_dt gs vmax freq src rec).
Hypothesis Hcfl : cfl_condition_n gs dt vmax cfl_eps cfl_c_max = Some (inner_dt, ratio).
Hypothesis Hnd : length shape = nd.
Hypothesis Hgs : length gs = nd.
Hypothesis HN : no_layers nd pw.
Hypothesis Hsz : forall d, (d < nd)%nat -> (2 * fd_pad ac - 1 < nth d shape 0)%Z.
Hypothesis Hfr : 0 < freq.
Hypothesis Hsrc : locs_ok S R_ops P src.
Hypothesis Hrec : locs_ok S R_ops P rec.
Variables v rho : arr R_ops.
Notation vq := (fun q => v (idx shape q)).
Notation rq := (fun q => rho (idx shape q)).
Hypothesis Hden : densities_ok rfmax ac shape rq.
Notation kb := (prepare_models rfmax shape v rho).
Notation wk := (fun q => / (rq q * vq q ^ 2)).
Notation wb := (fun d q => (rq q + rq (shift d 1 q)) / 2).

Lemma run_geom : sgeom S R_ops P pw.
Proof.
  destruct (cfl_sum gs dt vmax inner_dt ratio nd Hcfl Hgs) as (F & Hv & Hi & _).
  apply stag_par_geom; [lia|exact F| |exact Hi|exact Hv|exact Hfr].
  intros d Hd. rewrite (HN d) by lia. cbn [fst snd]. specialize (Hsz d ltac:(lia)). lia.
Qed.
Lemma run_cells (s : sst S R_ops) : (forall q, updated P (fun _ => false) q -> vq q = 0 -> mn s XP q = 0) -> ac_cells nd R_ops P kb wk wb s.
Proof.
  intros H0. split.
  - intros q Hq. change (sp_shape P) with shape. change (o1 R_ops) with 1. change (omul R_ops) with Rmult. change (o0 R_ops) with 0.
    destruct (Req_dec (vq q) 0) as [Hv0|Hv0].
    + right. split; [|apply H0; assumption]. unfold prepare_models. rewrite Hv0. cbn. ring.
    + left. unfold prepare_models. pose proof Hq as Hq'. apply updated_dom in Hq'. apply dom_array in Hq'.
      destruct (de_pos _ _ _ _ Hden q Hq') as [_ Hr]. change (@eq (car R_ops)) with (@eq R). field. split; [exact Hv0|lra].
  - intros d q Hd Hq. left. change (sp_shape P) with shape. change (o1 R_ops) with 1. change (omul R_ops) with Rmult.
    apply updated_dom in Hq. pose proof (dom_array S R_ops P _ _ Hq) as Ha. unfold prepare_models.
    rewrite unidx_idx by exact Ha.
    destruct (de_pos _ _ _ _ Hden q Ha) as [Hr1 Hr2].
    assert (Ha1 : inb (abox shape) (shift d 1 q) = true).
    { apply (at_array nd P Hnd d Hd q 1 Hq). pose proof (fd_pad_pos ac). cbn. lia. }
    destruct (de_pos _ _ _ _ Hden _ Ha1) as [Hr3 Hr4].
    apply dom_spec in Hq. destruct Hq as [_ Hq]. specialize (Hq d). rewrite Nat.eqb_refl in Hq.
    change (sp_shape P) with shape in Hq. change (sp_acc P) with ac in Hq. specialize (Hq ltac:(lia)). pose proof (fd_pad_pos ac).
    unfold mean_next, at_pt. destruct (Z.ltb_spec (coord d q + 1) (nth d shape 0%Z)) as [_|?]; [|lia].
    unfold safe_inv, above_rfmax. change (car R_ops) with R in *. destruct (Rlt_dec rfmax _) as [_|X]; [change (@eq (car R_ops)) with (@eq R); field; lra|].
    exfalso. apply X. rewrite Rabs_right by lra. lra.
Qed.
Lemma run_norm (s : sst S R_ops) : (forall q, updated P (fun _ => false) q -> Rabs (vq q) <= vmax) ->
  (forall q, updated P (fun _ => false) q -> vq q = 0 -> mn s XP q = 0) ->
  0 <= acoustic_size nd P vq rq s /\
  acoustic_size nd P vq rq s <= 25 * acoustic_energy nd R_ops P inner_dt wk wb s /\ 25 * acoustic_energy nd R_ops P inner_dt wk wb s <= 49 * acoustic_size nd P vq rq s.
Proof.
  intros Hv H0. destruct (cfl_sum gs dt vmax inner_dt ratio nd Hcfl Hgs) as (F & Hvm & Hi & Hc).
  assert (A1 : forall q, inb (abox (sp_shape P)) q = true -> 0 < rq q) by (intros q Hq; apply (de_pos _ _ _ _ Hden q Hq)).
  assert (A2 : forall d j q, (d < nd)%nat -> (Z.abs j < fd_pad (sp_acc P))%Z -> inb (abox (sp_shape P)) q = true -> inb (abox (sp_shape P)) (shift d j q) = true -> rq (shift d j q) <= contrast (sp_acc P) * rq q).
  { intros d j q Hd. apply (de_con _ _ _ _ Hden). lia. }
  assert (A3 : forall q, updated P (fun _ => false) q -> mn s XP q ^ 2 <= vmax ^ 2 * rq q * (wk q * mn s XP q ^ 2)).
  { intros q Hq. destruct (Req_dec (vq q) 0) as [Hv0|Hv0].
    - rewrite (H0 q Hq Hv0). right. ring.
    - pose proof Hq as Hq'. apply updated_dom in Hq'. apply dom_array in Hq'. specialize (A1 q Hq'). specialize (Hv q Hq).
      assert (Hle : vq q ^ 2 <= vmax ^ 2) by (rewrite <- (pow2_abs (vq q)); apply pow_incr; split; [apply Rabs_pos|exact Hv]).
      assert (Hp : 0 < vq q ^ 2) by (rewrite <- Rsqr_pow2; apply Rsqr_pos_lt, Hv0).
      replace (vmax ^ 2 * rq q * (/ (rq q * vq q ^ 2) * mn s XP q ^ 2)) with (vmax ^ 2 * / vq q ^ 2 * mn s XP q ^ 2) by (field; split; [exact Hv0|lra]).
      rewrite <- (Rmult_1_l (mn s XP q ^ 2)) at 1. apply Rmult_le_compat_r; [apply pow2_ge_0|].
      apply (Rmult_le_reg_r (vq q ^ 2)); [exact Hp|]. rewrite Rmult_assoc, Rinv_l by (apply Rgt_not_eq, Hp). change (car R_ops) with R in *. lra. }
  assert (A4 : forall d q, (d < nd)%nat -> updated P (Nat.eqb d) q -> wb d q = (rq q + rq (shift d 1 q)) / 2) by reflexivity.
  split.
  - exact (norm_pos nd P Hnd rq A1 A2 inner_dt vmax Hvm Hc wk wb s A3 A4).
  - exact (energy_two_sided nd P Hnd rq A1 A2 inner_dt vmax Hvm Hc wk wb s A3 A4).
Qed.

Lemma run_stable f (u : sst S R_ops) nt sr visA visB kg bg cb store U Rc st :
  (forall q, updated P (fun _ => false) q -> Rabs (vq q) <= vmax) ->
  (forall q, updated P (fun _ => false) q -> vq q = 0 -> mn u XP q = 0) ->
  ac_fvis nd R_ops P pw true visA -> ac_fvis nd R_ops P pw false visB -> nt_ok nt sr cb ->
  (forall t c, (0 <= t)%Z -> Forall (fun x => x = 0) (f t c)) ->
  acoustic_forward nd R_ops P pw inner_dt kb visA visB kg bg sr f nt cb store u = Some (U, Rc, st) ->
  acoustic_size nd P vq rq U <= 49 * acoustic_size nd P vq rq u.
Proof.
  intros Hv H0 VA VB Hnt Hf E.
  destruct (acoustic_conserved nd R_ops R_is_ring P pw Hnd Hsrc Hrec run_geom HN inner_dt kb wk wb f u nt sr visA visB kg bg cb store U Rc st
    VA VB Hnt Hf (run_cells u H0) E) as [HE [C1 _]].
  destruct (run_norm u Hv H0) as (N1 & N2 & N3). 
  destruct (run_norm U Hv) as (M1 & M2 & M3).
  { intros q Hq Hv0. destruct (C1 q Hq) as [X|[_ X]]; [|exact X]. exfalso. revert X. change (sp_shape P) with shape.
    unfold prepare_models. rewrite Hv0. cbn. rewrite !Rmult_0_l, Rmult_0_r, Rmult_0_r. lra. }
  change (car R_ops) with R in *. rewrite HE in M2. lra.
Qed.
End Run.
