(** * CFL time step, PML profiles and parameter conversion. *)
From Coq Require Import List ZArith Reals Lra Lia.
From Verif Require Import Ops Sums Grid Stencil StencilOrder ScalarModel ScalarFunc RealModel.
Import ListNotations.
Local Open Scope R_scope.

Lemma Rceil_spec x : IZR (Rceil x) - 1 < x <= IZR (Rceil x).
Proof.
  unfold Rceil. rewrite opp_IZR. pose proof (base_Int_part (- x)). lra.
Qed.

Lemma inv_sq_pos g : 0 < g -> 0 < 1 / g ^ 2.
Proof. intros. apply Rdiv_lt_0_compat; [lra|]. apply pow_lt. assumption. Qed.

Lemma sum_inv2_pos gs : gs <> [] -> Forall (fun g => 0 < g) gs -> 0 < sum_inv2 gs.
Proof.
  intros H F. assert (G : forall l, Forall (fun g => 0 < g) l -> 0 <= sum_inv2 l).
  { induction 1 as [|g l Hg _ IH]; [cbn; lra|]. unfold sum_inv2 in *. cbn [fold_right]. pose proof (inv_sq_pos g Hg). lra. }
  destruct F as [|g l Hg F]; [congruence|]. unfold sum_inv2. cbn [fold_right].
  pose proof (inv_sq_pos g Hg). specialize (G l F). unfold sum_inv2 in G. lra.
Qed.

Lemma max_dt_pos gs v eps c : gs <> [] -> Forall (fun g => 0 < g) gs -> 0 < v -> 0 <= eps -> 0 < c ->
  0 < cfl_max_dt gs v eps c.
Proof.
  intros H F Hv He Hc. unfold cfl_max_dt. pose proof (sqrt_lt_R0 _ (sum_inv2_pos gs H F)).
  apply Rmult_lt_0_compat; [|exact Hv]. apply Rdiv_lt_0_compat; [|nra]. apply Rdiv_lt_0_compat; lra.
Qed.

Lemma max_dt_bounds gs v eps c : gs <> [] -> Forall (fun g => 0 < g) gs -> 0 < v -> 0 <= eps -> 0 < c ->
  let cfl := c / (sqrt (sum_inv2 gs) * v) in
  cfl * (1 - eps / v ^ 2) <= cfl_max_dt gs v eps c <= cfl.
Proof.
  intros H F Hv He Hc cfl. unfold cfl_max_dt. pose proof (sqrt_lt_R0 _ (sum_inv2_pos gs H F)) as Hs.
  set (s := sqrt (sum_inv2 gs)) in *.
  assert (Hc0 : 0 < cfl) by (apply Rdiv_lt_0_compat; nra).
  replace (c / s / (v ^ 2 + eps) * v) with (cfl * (v ^ 2 / (v ^ 2 + eps)))
    by (unfold cfl; field; repeat split; try lra; nra).
  assert (0 < v ^ 2) by nra.
  split.
  - apply Rmult_le_compat_l; [lra|]. 
    apply (Rmult_le_reg_r (v ^ 2 * (v ^ 2 + eps))); [nra|].
    replace ((1 - eps / v ^ 2) * (v ^ 2 * (v ^ 2 + eps))) with ((v ^ 2 - eps) * (v ^ 2 + eps)) by (field; lra).
    replace (v ^ 2 / (v ^ 2 + eps) * (v ^ 2 * (v ^ 2 + eps))) with (v ^ 2 * v ^ 2) by (field; lra). nra.
  - rewrite <- (Rmult_1_r cfl) at 2. apply Rmult_le_compat_l; [lra|].
    apply (Rmult_le_reg_r (v ^ 2 + eps)); [lra|]. replace (v ^ 2 / (v ^ 2 + eps) * (v ^ 2 + eps)) with (v ^ 2) by (field; lra). lra.
Qed.

(** C25 *)
Lemma cfl_thm gs dt v eps c inner ratio :
  0 <= eps -> 0 < c -> cfl_condition_n gs dt v eps c = Some (inner, ratio) ->
  gs <> [] /\ Forall (fun g => 0 < g) gs /\ 0 < v /\ dt <> 0 /\ (1 <= ratio)%Z /\
  inner * IZR ratio = dt /\ 0 < inner * dt /\
  Rabs inner <= c / (sqrt (sum_inv2 gs) * v) /\
  (forall k : Z, (1 <= k < ratio)%Z -> Rabs (dt / IZR k) > c / (sqrt (sum_inv2 gs) * v) * (1 - eps / v ^ 2)).
Proof.
  intros He Hc E. unfold cfl_condition_n in E.
  destruct (length gs =? 0)%nat eqn:El; [discriminate|].
  destruct (existsb _ gs) eqn:Ex; [discriminate|].
  destruct (Rle_dec v 0); [discriminate|]. assert (Hv : 0 < v) by lra.
  assert (Hgs : gs <> []) by (intros ->; discriminate El).
  assert (F : Forall (fun g => 0 < g) gs).
  { apply Forall_forall. intros g Hg. destruct (Rlt_le_dec 0 g) as [|Hle]; [assumption|exfalso].
    assert (X : existsb (fun g => if Rle_dec g 0 then true else false) gs = true).
    { apply existsb_exists. exists g. split; [exact Hg|]. destruct (Rle_dec g 0); [reflexivity|lra]. }
    congruence. }
  pose proof (max_dt_pos gs v eps c Hgs F Hv He Hc) as Hm.
  pose proof (max_dt_bounds gs v eps c Hgs F Hv He Hc) as [Hb1 Hb2].
  set (M := cfl_max_dt gs v eps c) in *. cbv zeta in E. unfold rdiv in E.
  destruct (Req_EM_T (IZR (Rceil (Rabs dt / M))) 0) as [|Hr0]; [discriminate|]. injection E as <- <-.
  pose proof (Rceil_spec (Rabs dt / M)) as [C1 C2]. set (r := Rceil (Rabs dt / M)) in *.
  pose proof (Rabs_pos dt) as Hp.
  assert (Hq : 0 <= Rabs dt / M) by (apply Rmult_le_pos; [lra|apply Rlt_le, Rinv_0_lt_compat; lra]).
  assert (Hr : (0 < r)%Z).
  { destruct (Z_le_gt_dec r 0) as [Hle|]; [|lia]. exfalso. apply IZR_le in Hle. lra. }
  assert (Hr' : 0 < IZR r) by (apply IZR_lt; exact Hr).
  assert (Hdt : dt <> 0).
  { intros ->. rewrite Rabs_R0 in C1. unfold Rdiv in C1. rewrite Rmult_0_l in C1.
    assert (1 <= IZR r) by (apply IZR_le; lia). lra. }
  repeat match goal with |- _ /\ _ => split end; try assumption; try lia.
  - field. lra.
  - replace (dt / IZR r * dt) with (dt * dt / IZR r) by (field; lra).
    apply Rdiv_lt_0_compat; [|lra]. nra.
  - apply Rle_trans with M; [|exact Hb2]. unfold Rdiv. rewrite Rabs_mult, (Rabs_right (/ IZR r)).
    2:{ apply Rle_ge, Rlt_le, Rinv_0_lt_compat; lra. }
    apply (Rmult_le_reg_r (IZR r)); [lra|]. replace (Rabs dt * / IZR r * IZR r) with (Rabs dt) by (field; lra).
    apply (Rmult_le_compat_r M) in C2; [|lra]. replace (Rabs dt / M * M) with (Rabs dt) in C2 by (field; lra). lra.
  - intros k Hk. apply Rlt_gt. apply Rle_lt_trans with M; [exact Hb1|].
    assert (Hk0 : 0 < IZR k) by (apply IZR_lt; lia).
    assert (Hkr : IZR k <= IZR r - 1) by (rewrite <- minus_IZR; apply IZR_le; lia).
    unfold Rdiv. rewrite Rabs_mult, (Rabs_right (/ IZR k)).
    2:{ apply Rle_ge, Rlt_le, Rinv_0_lt_compat; lra. }
    apply (Rmult_lt_reg_r (IZR k)); [lra|]. replace (Rabs dt * / IZR k * IZR k) with (Rabs dt) by (field; lra).
    assert (IZR k < Rabs dt / M) by lra. apply (Rmult_lt_compat_r M) in H; [|lra].
    replace (Rabs dt / M * M) with (Rabs dt) in H by (field; lra). lra.
Qed.

Lemma cfl_some gs dt v eps c :
  gs <> [] -> Forall (fun g => 0 < g) gs -> 0 < v -> dt <> 0 -> 0 <= eps -> 0 < c ->
  exists inner ratio, cfl_condition_n gs dt v eps c = Some (inner, ratio).
Proof.
  intros Hgs F Hv Hdt He Hc. unfold cfl_condition_n.
  destruct gs as [|g0 gs0] eqn:Eg; [congruence|]. rewrite <- Eg in *. replace (length gs =? 0)%nat with false by (rewrite Eg; reflexivity).
  destruct (existsb _ gs) eqn:Ex.
  { apply existsb_exists in Ex. destruct Ex as (g & Hg & X). rewrite Forall_forall in F. specialize (F g Hg). cbn in F.
    destruct (Rle_dec g 0); [lra|discriminate]. }
  destruct (Rle_dec v 0); [lra|]. cbv zeta. unfold rdiv.
  destruct (Req_EM_T _ 0) as [E|_]; [exfalso|eauto].
  pose proof (max_dt_pos gs v eps c Hgs F Hv He Hc) as Hm.
  pose proof (Rceil_spec (Rabs dt / cfl_max_dt gs v eps c)) as [_ C2]. rewrite E in C2.
  assert (0 < Rabs dt / cfl_max_dt gs v eps c) by (apply Rdiv_lt_0_compat; [apply Rabs_pos_lt; exact Hdt|exact Hm]). lra.
Qed.

Lemma cfl_zero_dt gs v eps c : cfl_condition_n gs 0 v eps c = None.
Proof.
  unfold cfl_condition_n. destruct (_ =? _)%nat; [reflexivity|]. destruct (existsb _ _); [reflexivity|].
  destruct (Rle_dec v 0); [reflexivity|]. rewrite Rabs_R0. unfold Rdiv. rewrite Rmult_0_l.
  replace (Rceil 0) with 0%Z; [unfold rdiv; destruct (Req_EM_T 0 0); [reflexivity|lra]|].
  pose proof (Rceil_spec 0) as [H1 H2]. apply Z.le_antisymm.
  - apply le_IZR. exact H2.
  - apply Z.lt_succ_r. apply lt_IZR. rewrite succ_IZR. lra.
Qed.

(** *** PML *)

Lemma clamp01_range x : 0 <= clamp01 x <= 1.
Proof.
  unfold clamp01. split.
  - apply Rmin_glb; [apply Rmax_r|lra].
  - apply Rmin_r.
Qed.
Lemma clamp01_zero x : clamp01 x = 0 <-> x <= 0.
Proof.
  unfold clamp01, Rmin, Rmax. destruct (Rle_dec x 0); destruct (Rle_dec _ 1); split; intros; lra.
Qed.

Lemma pml_frac_zero pw0 pw1 ps0 ps1 x : (0 <= pw0)%Z -> (0 <= pw1)%Z ->
  (pml_frac pw0 pw1 ps0 ps1 x = 0 <-> ((pw0 = 0)%Z \/ ps0 <= x) /\ ((pw1 = 0)%Z \/ x <= ps1)).
Proof.
  intros H0 H1. unfold pml_frac. rewrite clamp01_zero.
  assert (Hd : forall z w : R, 0 < w -> (z / w <= 0 <-> z <= 0)).
  { intros z w Hw. split; intros H.
    - apply (Rmult_le_compat_r w) in H; [|lra]. replace (z / w * w) with z in H by (field; lra). lra.
    - apply (Rmult_le_reg_r w); [lra|]. replace (z / w * w) with z by (field; lra). lra. }
  assert (E : forall u w, Rmax u w <= 0 <-> u <= 0 /\ w <= 0).
  { intros u w. unfold Rmax. destruct (Rle_dec u w); lra. }
  rewrite E.
  assert (A : (if (pw0 =? 0)%Z then 0 else (ps0 - x) / IZR pw0) <= 0 <-> (pw0 = 0)%Z \/ ps0 <= x).
  { destruct (Z.eqb_spec pw0 0); [split; [auto|lra]|].
    rewrite Hd by (apply IZR_lt; lia). split; [intros; right; lra|intros [?|?]; [contradiction|lra]]. }
  assert (B : (if (pw1 =? 0)%Z then 0 else (x - ps1) / IZR pw1) <= 0 <-> (pw1 = 0)%Z \/ x <= ps1).
  { destruct (Z.eqb_spec pw1 0); [split; [auto|lra]|].
    rewrite Hd by (apply IZR_lt; lia). split; [intros; right; lra|intros [?|?]; [contradiction|lra]]. }
  tauto.
Qed.

Lemma ln_r_val : ln (1 / 1000) < 0.
Proof.
  rewrite <- ln_1. apply ln_increasing; lra.
Qed.

Lemma setup_pml_spec pw0 pw1 ps0 ps1 mp dt v freq start y :
  (0 <= pw0)%Z -> (0 <= pw1)%Z -> 0 <= mp -> dt <> 0 -> 0 < v -> 0 <= freq ->
  let x := start + IZR y in
  let inside := ((pw0 = 0)%Z \/ ps0 <= x) /\ ((pw1 = 0)%Z \/ x <= ps1) in
  (inside -> 0 < freq \/ mp = 0 -> setup_pml pw0 pw1 ps0 ps1 mp dt v freq start y = Some (0, 0)) /\
  (inside -> freq = 0 -> mp <> 0 -> setup_pml pw0 pw1 ps0 ps1 mp dt v freq start y = None) /\
  (~ inside -> mp <> 0 -> exists a b, setup_pml pw0 pw1 ps0 ps1 mp dt v freq start y = Some (a, b) /\ 0 < a < 1 /\ -1 < b < 0).
Proof.
  intros H0 H1 Hm Hdt Hv Hf x inside.
  pose proof (pml_frac_zero pw0 pw1 ps0 ps1 x H0 H1) as Hz. fold inside in Hz.
  assert (Hr : 0 <= pml_frac pw0 pw1 ps0 ps1 x <= 1) by apply clamp01_range.
  pose proof ln_r_val as Hl. pose proof PI_RGT_0 as Hpi.
  pose proof (Rabs_pos_lt dt Hdt) as Hd.
  unfold setup_pml. fold x. cbv zeta.
  set (fr := pml_frac pw0 pw1 ps0 ps1 x) in *.
  set (s0 := - (1 + 2) * v * ln (1 / 1000) / (2 * mp)).
  assert (Hs0 : mp <> 0 -> 0 < s0) by (intros; apply Rdiv_lt_0_compat; [nra|lra]).
  clearbody fr s0.
  split; [|split].
  - intros Hi Hfr. destruct (Req_EM_T mp 0); [reflexivity|].
    assert (Hff : 0 < freq) by (destruct Hfr; [assumption|contradiction]).
    apply Hz in Hi. rewrite Hi. unfold rdiv.
    assert (0 < PI * freq) by nra.
    destruct (Req_EM_T (s0 * 0 ^ 2 + PI * freq * (1 - 0)) 0); [lra|].
    destruct (Req_EM_T 0 0); [|lra]. repeat f_equal.
    unfold Rdiv. cbn. lra.
  - intros Hi Hfr Hmp. destruct (Req_EM_T mp 0); [contradiction|]. apply Hz in Hi. rewrite Hi, Hfr. unfold rdiv.
    destruct (Req_EM_T (s0 * 0 ^ 2 + PI * 0 * (1 - 0)) 0); [reflexivity|lra].
  - intros Hi Hmp. destruct (Req_EM_T mp 0); [contradiction|]. specialize (Hs0 Hmp).
    assert (Hfr : 0 < fr) by (destruct (Req_dec fr 0) as [E|E]; [apply Hz in E; contradiction|lra]).
    assert (Hsg : 0 < s0 * fr ^ 2) by (apply Rmult_lt_0_compat; [lra|nra]).
    assert (Hal : 0 <= PI * freq * (1 - fr)) by (apply Rmult_le_pos; nra).
    set (sg := s0 * fr ^ 2) in *. set (al := PI * freq * (1 - fr)) in *.
    unfold rdiv. destruct (Req_EM_T (sg + al) 0); [lra|]. destruct (Req_EM_T fr 0); [lra|].
    eexists; eexists; split; [reflexivity|].
    assert (A : 0 < exp (- (sg + al) * Rabs dt) < 1).
    { split; [apply exp_pos|]. rewrite <- exp_0. apply exp_increasing. nra. }
    split; [exact A|].
    set (a := exp (- (sg + al) * Rabs dt)) in *.
    assert (Q : 0 < sg / (sg + al) <= 1).
    { split; [apply Rdiv_lt_0_compat; lra|]. apply (Rmult_le_reg_r (sg + al)); [lra|].
      replace (sg / (sg + al) * (sg + al)) with sg by (field; lra). lra. }
    nra.
Qed.

Lemma fold_Rmax_ge l x : x <= fold_left Rmax l x /\ Forall (fun y => y <= fold_left Rmax l x) l.
Proof.
  revert x. induction l as [|y l IH]; intros x; cbn; [split; [lra|constructor]|].
  destruct (IH (Rmax x y)) as [H1 H2]. pose proof (Rmax_l x y). pose proof (Rmax_r x y). split; [lra|]. constructor; [lra|exact H2].
Qed.
Lemma fold_Rmax_in l x : In (fold_left Rmax l x) (x :: l).
Proof.
  revert x. induction l as [|y l IH]; intros x; cbn; [auto|].
  destruct (IH (Rmax x y)) as [E|E].
  - rewrite <- E. unfold Rmax. destruct (Rle_dec x y); auto.
  - auto.
Qed.

Lemma max_pml_ge pw gs d : (d < length gs)%nat ->
  IZR (fst (pw d)) * nth d gs 0 <= max_pml pw gs /\ IZR (snd (pw d)) * nth d gs 0 <= max_pml pw gs.
Proof.
  intros Hd. unfold max_pml.
  set (l := flat_map _ _).
  assert (H : In (IZR (fst (pw d)) * nth d gs 0) l /\ In (IZR (snd (pw d)) * nth d gs 0) l).
  { split; apply in_flat_map; exists d; (split; [apply in_seq; lia|cbn; auto]). }
  assert (G : forall z, In z l -> z <= match l with [] => 0 | x :: m => fold_left Rmax m x end).
  { intros z Hz. destruct l as [|x m]; [destruct Hz|]. destruct (fold_Rmax_ge m x) as [A B]. destruct Hz as [->|Hz]; [exact A|].
    rewrite Forall_forall in B. apply B. exact Hz. }
  split; apply G; apply H.
Qed.

Lemma max_pml_nonneg pw gs : (forall d, (d < length gs)%nat -> (0 <= fst (pw d))%Z /\ (0 <= snd (pw d))%Z) ->
  Forall (fun g => 0 < g) gs -> 0 <= max_pml pw gs.
Proof.
  intros Hw F. destruct gs as [|g gs]; [cbn; lra|].
  pose proof (max_pml_ge pw (g :: gs) 0 ltac:(cbn; lia)) as [H _]. cbn [nth] in H.
  destruct (Hw 0%nat ltac:(cbn; lia)) as [H0 _]. apply IZR_le in H0. inversion F; subst.
  apply Rle_trans with (2 := H). apply Rmult_le_pos; lra.
Qed.

(** C29 for the profiles of one dimension: [start] = 0 or 1/2. *)
Lemma pml_profile_spec pw fd0 fd1 dt gs v freq shape h d y :
  (forall d, (d < length gs)%nat -> (0 <= fst (pw d))%Z /\ (0 <= snd (pw d))%Z) -> Forall (fun g => 0 < g) gs ->
  dt <> 0 -> 0 < v -> 0 < freq -> (d < length gs)%nat ->
  let start := if (h : bool) then 1 / 2 else 0 in
  exists a b, pml_profile pw fd0 fd1 dt gs v freq shape start d y = Some (a, b) /\
    0 <= a < 1 /\ -1 < b <= 0 /\
    ((fd0 + fst (pw d) <= y < nth d shape 0 - fd1 - snd (pw d) - (if h then 1 else 0))%Z -> a = 0 /\ b = 0) /\
    ((0 < fst (pw d))%Z -> (y < fd0 + fst (pw d))%Z -> 0 < a /\ b < 0) /\
    ((0 < snd (pw d))%Z -> (nth d shape 0 - fd1 - snd (pw d) - (if h then 1 else 0) <= y)%Z -> 0 < a /\ b < 0).
Proof.
  intros Hw F Hdt Hv Hf Hd start. unfold pml_profile.
  destruct (Hw d Hd) as [W0 W1]. pose proof (max_pml_nonneg pw gs Hw F) as Hm.
  pose proof (setup_pml_spec (fst (pw d)) (snd (pw d)) (IZR (fd0 + fst (pw d))) (IZR (nth d shape 0%Z - 1 - fd1 - snd (pw d)))
    (max_pml pw gs) dt v freq start y W0 W1 Hm Hdt Hv ltac:(lra)) as (S1 & _ & S3).
  cbv zeta in S1, S3.
  set (x := start + IZR y) in *.
  assert (L : IZR (fd0 + fst (pw d)) <= x <-> (fd0 + fst (pw d) <= y)%Z).
  { unfold x, start. destruct h.
    - split; intros H.
      + apply Z.lt_succ_r, lt_IZR. rewrite succ_IZR. lra.
      + apply IZR_le in H. lra.
    - split; intros H; [apply le_IZR; lra|apply IZR_le in H; lra]. }
  assert (Rr : x <= IZR (nth d shape 0%Z - 1 - fd1 - snd (pw d)) <-> (y < nth d shape 0 - fd1 - snd (pw d) - (if h then 1 else 0))%Z).
  { unfold x, start. destruct h.
    - split; intros H.
      + assert (IZR y < IZR (nth d shape 0%Z - 1 - fd1 - snd (pw d))) as X by lra. apply lt_IZR in X. lia.
      + assert (X : (y + 1 <= nth d shape 0 - 1 - fd1 - snd (pw d))%Z) by lia. apply IZR_le in X. rewrite plus_IZR in X. lra.
    - split; intros H.
      + assert (IZR y <= IZR (nth d shape 0%Z - 1 - fd1 - snd (pw d))) as X by lra. apply le_IZR in X. lia.
      + assert (X : (y <= nth d shape 0 - 1 - fd1 - snd (pw d))%Z) by lia. apply IZR_le in X. lra. }
  assert (Hmp : (0 < fst (pw d))%Z \/ (0 < snd (pw d))%Z -> max_pml pw gs <> 0).
  { intros H. pose proof (max_pml_ge pw gs d Hd) as [G0 G1].
    assert (Hg : 0 < nth d gs 0) by (rewrite Forall_forall in F; apply F, nth_In, Hd).
    destruct H as [H|H]; apply IZR_lt in H; assert (0 < IZR (fst (pw d)) * nth d gs 0 \/ 0 < IZR (snd (pw d)) * nth d gs 0) by
      (first [left; apply Rmult_lt_0_compat; lra|right; apply Rmult_lt_0_compat; lra]); lra. }
  destruct (Z_le_gt_dec (fst (pw d)) 0) as [A|A]; destruct (Z_le_gt_dec (snd (pw d)) 0) as [B|B];
    destruct (Z_lt_ge_dec y (fd0 + fst (pw d))%Z) as [C|C];
    destruct (Z_lt_ge_dec y (nth d shape 0 - fd1 - snd (pw d) - (if h then 1 else 0))%Z) as [D|D];
  first [
    exists 0, 0; split; [apply S1; [rewrite L, Rr; lia|auto]|]; split; [lra|]; split; [lra|]; split; [auto|]; split; intros; lia
  | destruct S3 as (a & b & E & Ha & Hb); [rewrite L, Rr; lia|apply Hmp; lia|];
    exists a, b; split; [exact E|]; split; [lra|]; split; [lra|]; split; [intros; lia|]; split; intros; lra ].
Qed.

(** The profiles give the geometry that the propagator theorems assume. *)
Lemma scalar_par_geom ac shape pw dt gs v freq src rec :
  length gs = length shape -> Forall (fun g => 0 < g) gs ->
  (forall d, (d < length shape)%nat -> (0 <= fst (pw d))%Z /\ (0 <= snd (pw d))%Z /\
     (fst (pw d) + snd (pw d) + 2 * fd_pad ac < nth d shape 0)%Z) ->
  dt <> 0 -> 0 < v -> 0 < freq ->
  geom_ok R_ops (scalar_par ac shape pw dt gs v freq src rec) pw.
Proof.
  intros Hl F Hw Hdt Hv Hf d Hd. cbn [scalar_par p_shape p_acc p_a p_b p_db p_rd] in *.
  destruct (Hw d Hd) as (W0 & W1 & W2). split; [exact W0|]. split; [exact W1|]. split; [exact W2|]. split.
  - intros y Hy.
    destruct (pml_profile_spec pw (fd_pad ac) (fd_pad ac) dt gs v freq shape false d y) as (a & b & E & _ & _ & Z & _);
      [rewrite Hl; intros; split; apply Hw; assumption|exact F|exact Hdt|exact Hv|exact Hf|rewrite Hl; exact Hd|].
    cbv zeta in E. rewrite E. cbn [prof_a prof_b]. destruct Z as [-> ->]; [lia|]. split; reflexivity.
  - intros y Hy. replace ((fd_pad ac <=? y)%Z && (y <? nth d shape 0 - fd_pad ac)%Z)%bool with true; [reflexivity|].
    symmetry. apply andb_true_intro. split; [apply Z.leb_le|apply Z.ltb_lt]; lia.
Qed.

(** *** Elastic parameters *)

Lemma shrink rho eps : 0 < rho -> 0 <= eps ->
  1 - eps / rho ^ 2 <= rho / sqrt (rho ^ 2 + eps) <= 1.
Proof.
  intros Hr He. assert (Hp : 0 < rho ^ 2) by nra.
  assert (Hs : 0 < sqrt (rho ^ 2 + eps)) by (apply sqrt_lt_R0; lra).
  assert (Hq : sqrt (rho ^ 2 + eps) * sqrt (rho ^ 2 + eps) = rho ^ 2 + eps) by (apply sqrt_sqrt; lra).
  set (s := sqrt (rho ^ 2 + eps)) in *.
  assert (rho <= s) by (destruct (Rle_lt_dec rho s); [assumption|nra]).
  split.
  - apply (Rmult_le_reg_r (rho ^ 2 * s)); [nra|].
    replace ((1 - eps / rho ^ 2) * (rho ^ 2 * s)) with ((rho ^ 2 - eps) * s) by (field; lra).
    replace (rho / s * (rho ^ 2 * s)) with (rho ^ 2 * rho) by (field; lra).
    assert (0 <= (s - rho) * (s * s + rho * s - rho * rho)) by (apply Rmult_le_pos; nra).
    replace eps with (s * s - rho ^ 2) by lra.
    replace (rho ^ 2 * rho) with ((rho ^ 2 - (s * s - rho ^ 2)) * s + (s - rho) * (s * s + rho * s - rho * rho)) by ring. lra.
  - apply (Rmult_le_reg_r s); [lra|]. replace (rho / s * s) with rho by (field; lra). lra.
Qed.

Lemma round_trip vp vs rho eps : 0 <= vp -> 0 <= vs -> 0 < rho -> 0 <= eps ->
  let '(lamb, mu, b) := to_lamb vp vs rho eps in
  let '(vp', vs', rho') := to_vp lamb mu b eps in
  vp * (1 - eps / rho ^ 2) <= vp' <= vp /\ vs * (1 - eps / rho ^ 2) <= vs' <= vs /\
  Rabs (rho' - rho) <= rho * (eps * (1 + (rho ^ 2 + eps) ^ 2) / rho ^ 2).
Proof.
  intros Hvp Hvs Hr He. unfold to_lamb, to_vp. cbv zeta.
  assert (Hp : 0 < rho ^ 2) by nra.
  set (q := rho / sqrt (rho ^ 2 + eps)).
  assert (Hs : 0 < sqrt (rho ^ 2 + eps)) by (apply sqrt_lt_R0; lra).
  assert (Hq : sqrt (rho ^ 2 + eps) * sqrt (rho ^ 2 + eps) = rho ^ 2 + eps) by (apply sqrt_sqrt; lra).
  pose proof (shrink rho eps Hr He) as Hsh. fold q in Hsh.
  assert (Hq0 : 0 < q) by (apply Rdiv_lt_0_compat; lra).
  assert (Hqq : q * q = rho ^ 2 / (rho ^ 2 + eps)).
  { unfold q. set (s := sqrt (rho ^ 2 + eps)) in *. rewrite <- Hq. field. lra. }
  assert (Evs : sqrt (vs ^ 2 * rho * (1 / (rho ^ 2 + eps) * rho)) = vs * q).
  { replace (vs ^ 2 * rho * (1 / (rho ^ 2 + eps) * rho)) with ((vs * q) * (vs * q)).
    - apply sqrt_square. nra.
    - replace (vs * q * (vs * q)) with (vs ^ 2 * (q * q)) by ring. rewrite Hqq. field. lra. }
  rewrite Evs.
  assert (Evp : sqrt ((vp ^ 2 - 2 * vs ^ 2) * rho * (1 / (rho ^ 2 + eps) * rho) + 2 * (vs * q) ^ 2) = vp * q).
  { replace ((vp ^ 2 - 2 * vs ^ 2) * rho * (1 / (rho ^ 2 + eps) * rho) + 2 * (vs * q) ^ 2) with ((vp * q) * (vp * q)).
    - apply sqrt_square. nra.
    - replace (vp * q * (vp * q)) with (vp ^ 2 * (q * q)) by ring.
      replace ((vs * q) ^ 2) with (vs ^ 2 * (q * q)) by ring. rewrite Hqq. field. lra. }
  rewrite Evp. split; [nra|]. split; [nra|].
  assert (Hb : 0 < rho ^ 2 + eps) by lra. set (B := rho ^ 2 + eps) in *.
  set (e2 := B ^ 2). assert (He2 : 0 < e2) by (apply pow_lt; exact Hb).
  assert (Hd : 0 < rho ^ 2 + eps * e2) by (assert (0 <= eps * e2) by (apply Rmult_le_pos; lra); lra).
  replace (1 / ((1 / B * rho) ^ 2 + eps) * (1 / B * rho) - rho) with (rho * ((eps - eps * e2) / (rho ^ 2 + eps * e2))).
  2:{ replace ((1 / B * rho) ^ 2 + eps) with ((rho ^ 2 + eps * e2) / B ^ 2) by (unfold e2; field; lra).
      replace (eps - eps * e2) with (B - (rho ^ 2 + eps * e2)) by (unfold B; ring).
      field. split; lra. }
  rewrite Rabs_mult, (Rabs_right rho) by lra. apply Rmult_le_compat_l; [lra|].
  unfold Rdiv. rewrite Rabs_mult, (Rabs_right (/ _)).
  2:{ apply Rle_ge, Rlt_le, Rinv_0_lt_compat. nra. }
  apply Rmult_le_compat.
  - apply Rabs_pos.
  - apply Rlt_le, Rinv_0_lt_compat. nra.
  - apply Rabs_le. nra.
  - apply Rinv_le_contravar; [lra|nra].
Qed.

(** With [eps = 0] the round trip is exact. *)
Lemma round_trip_exact vp vs rho : 0 <= vp -> 0 <= vs -> 0 < rho ->
  let '(lamb, mu, b) := to_lamb vp vs rho 0 in to_vp lamb mu b 0 = (vp, vs, rho).
Proof.
  intros Hvp Hvs Hr. pose proof (round_trip vp vs rho 0 Hvp Hvs Hr (Rle_refl 0)) as H.
  destruct (to_lamb vp vs rho 0) as [[l m] b]. destruct (to_vp l m b 0) as [[vp' vs'] rho'].
  destruct H as (H1 & H2 & H3). unfold Rdiv in *. rewrite !Rmult_0_l, Rminus_0_r, Rmult_1_r in H1, H2.
  rewrite !Rmult_0_l, Rmult_0_r in H3. pose proof (Rabs_pos (rho' - rho)).
  assert (rho' - rho = 0) by (destruct (Req_dec (rho' - rho) 0) as [|X]; [assumption|apply Rabs_pos_lt in X; lra]).
  f_equal; [f_equal|]; lra.
Qed.
