(** * What a call of [scalar] computes, in the user's coordinates: specification and proof. *)
From Coq Require Import List ZArith QArith Reals Lra Lia Bool Permutation.
From Verif Require Import Ops Sums Grid Stencil StencilOrder ScalarModel ScalarRefine ScalarForward ScalarFunc ScalarApi ScalarAdjoint ScalarMore ScalarPhys ScalarReach ScalarEqs GeomModel Geom Geom2 GeomLocs SetupModel RealModel RealThm
  Resample ResampleThm EqsUser UserModel UserThm UserCrop UserMain.
Import ListNotations.
Local Open Scope Z_scope.

(** ** Specification: the wave equation with a convolutional PML around the box [md_ext]. *)
Record medium := mkmedium {
  md_nd : nat; md_acc : acc; md_h : nat -> R; md_dt : R; md_vel : R; md_freq : R;
  md_pw : nat -> Z * Z; md_ext : nat -> Z * Z; md_v : pt -> R }.
(** How deep coordinate [x] is in the PML: 0 inside the box [lo, hi), 1 at the outer end. *)
Definition depth (pw e : Z * Z) (x : Z) : R :=
  (if x <? fst e then (if fst pw =? 0 then 0 else Rmin 1 (IZR (fst e - x) / IZR (fst pw)))
   else if snd e <=? x then (if snd pw =? 0 then 0 else Rmin 1 (IZR (x - (snd e - 1)) / IZR (snd pw)))
   else 0)%R.
(** The thickness of the thickest PML. *)
Definition thickest (m : medium) : R :=
  fold_right Rmax 0%R (flat_map (fun d => [IZR (fst (md_pw m d)) * md_h m d; IZR (snd (md_pw m d)) * md_h m d])%R (seq 0 (md_nd m))).
Definition damping (m : medium) (d : nat) (x : Z) : R :=
  (3 * md_vel m * ln 1000 / (2 * thickest m) * depth (md_pw m d) (md_ext m d) x ^ 2)%R.
Definition freq_shift (m : medium) (d : nat) (x : Z) : R := (PI * md_freq m * (1 - depth (md_pw m d) (md_ext m d) x))%R.
Definition decay (m : medium) (d : nat) (x : Z) : R := exp (- (damping m d x + freq_shift m d x) * Rabs (md_dt m)).
Definition cpml_a (m : medium) (d : nat) (x : Z) : R := if Req_EM_T (depth (md_pw m d) (md_ext m d) x) 0 then 0%R else decay m d x.
Definition cpml_b (m : medium) (d : nat) (x : Z) : R := (damping m d x / (damping m d x + freq_shift m d x) * (decay m d x - 1))%R.
Definition cpml_db (m : medium) (d : nat) (x : Z) : R := DIFF1 (K := R_ops) (md_acc m) (1 / md_h m d)%R (fun k => cpml_b m d (x + k)).
(** The cells that are updated: the box and the PML.  [inner]: at least a stencil inside the box. *)
Definition domain (m : medium) (x : pt) : Prop :=
  length x = md_nd m /\ forall d, (d < md_nd m)%nat -> fst (md_ext m d) - fst (md_pw m d) <= coord d x < snd (md_ext m d) + snd (md_pw m d).
Definition inner (m : medium) (x : pt) : Prop :=
  length x = md_nd m /\ forall d, (d < md_nd m)%nat -> fst (md_ext m d) + fd_pad (md_acc m) <= coord d x < snd (md_ext m d) - fd_pad (md_acc m).
Definition dx1 (m : medium) (d : nat) (f : pt -> R) : pt -> R := D1 (K := R_ops) (md_acc m) (1 / md_h m d)%R d f.
Definition dx2 (m : medium) (d : nat) (f : pt -> R) : pt -> R := D2 (K := R_ops) (md_acc m) (1 / md_h m d ^ 2)%R d f.
(** The second derivative stretched by the PML, from the wavefield and its memory variable [psi]. *)
Definition stretched (m : medium) (s : st R_ops) (d : nat) (x : pt) : R :=
  ((1 + cpml_b m d (coord d x)) * dx2 m d (s_wfc R_ops s) x + cpml_db m d (coord d x) * dx1 m d (s_wfc R_ops s) x
   + dx1 m d (fun y => cpml_a m d (coord d y) * s_psi R_ops s d y) x)%R.
(** One time step; [q]: the source term. *)
Record wave_step (m : medium) (q : pt -> R) (s s' : st R_ops) : Prop := {
  ws_prev : forall x, s_wfp R_ops s' x = s_wfc R_ops s x;
  ws_inner : forall x, inner m x ->
    (s_wfc R_ops s' x = 2 * s_wfc R_ops s x - s_wfp R_ops s x
       + md_v m x ^ 2 * md_dt m ^ 2 * (sumf (K := R_ops) (seq 0 (md_nd m)) (fun d => dx2 m d (s_wfc R_ops s) x) - q x))%R;
  ws_wave : forall x, domain m x ->
    (s_wfc R_ops s' x = 2 * s_wfc R_ops s x - s_wfp R_ops s x
       + md_v m x ^ 2 * md_dt m ^ 2 * (sumf (K := R_ops) (seq 0 (md_nd m)) (fun d => stretched m s d x + s_zeta R_ops s' d x) - q x))%R;
  ws_psi : forall d x, (d < md_nd m)%nat -> domain m x ->
    (s_psi R_ops s' d x = cpml_b m d (coord d x) * dx1 m d (s_wfc R_ops s) x + cpml_a m d (coord d x) * s_psi R_ops s d x)%R;
  ws_zeta : forall d x, (d < md_nd m)%nat -> domain m x ->
    (s_zeta R_ops s' d x = cpml_b m d (coord d x) * stretched m s d x + cpml_a m d (coord d x) * s_zeta R_ops s d x)%R;
  ws_edge : forall x, length x = md_nd m -> ~ domain m x ->
    s_wfc R_ops s' x = 0%R /\ forall d, (d < md_nd m)%nat -> s_psi R_ops s' d x = 0%R /\ s_zeta R_ops s' d x = 0%R }.

(** The medium and the source term that the user of [scalar] means: [v] at [x], or beyond the survey area [ext] at its nearest cell; the
    amplitudes of the sources at [x], resampled to the internal time step [c_dt / ratio]. *)
Definition call_medium (c : call) (nd : nat) (ratio : Z) (a : acc) (vel : R) (ext : list (Z * Z)) (b : nat) : medium :=
  mkmedium nd a (fun d => nth d (per_list (c_gs c) nd) 1%R) (c_dt c / IZR ratio) vel (match c_freq c with Some f => f | None => 25 end)%R
    (fun d => (nth (2 * d) (per_list (c_pw c) (2 * nd)) 0, nth (2 * d + 1) (per_list (c_pw c) (2 * nd)) 0)) (fun d => nth d ext (0, 0))
    (fun x => let y := map (fun d => Z.min (Z.max (coord d x) (fst (nth d ext (0, 0)))) (snd (nth d ext (0, 0)) - 1)) (seq 0 nd) in
       if (length (t_shape (c_v c)) =? nd)%nat then t_at (c_v c) y else t_at (c_v c) ((if hd 0 (t_shape (c_v c)) =? 1 then 0 else Z.of_nat b) :: y)).
Definition call_source (c : call) (ratio : Z) (ps : list pt) (a : tens R) (b : nat) (t : nat) (x : pt) : R :=
  sumf (K := R_ops) (seq 0 (length ps)) (fun j => if (negb (coord 0 x =? IGNORE) && if pt_eq_dec (nth j ps []) x then true else false)%bool
     then nth t (upsample (Z.to_nat ratio) (c_ft c) (c_tp c) (c_taper c)
                   (map (fun i => t_at a [Z.of_nat b; Z.of_nat j; Z.of_nat i]) (seq 0 (Z.to_nat (nth 2 (t_shape a) 0))))) 0%R
     else 0%R).

(** ** Profiles *)
Lemma depth_frac pw e x : 0 <= fst pw -> 0 <= snd pw -> fst e < snd e -> depth pw e x = ufrac (fst pw) (snd pw) (fst e) (snd e) x.
Proof.
  intros Hp Hq He. unfold depth, ufrac. destruct (Z.ltb_spec x (fst e)) as [H|H].
  - rewrite clamp_max_r by (apply quot_neg; lia). destruct (Z.eqb_spec (fst pw) 0) as [|N]; [unfold clamp01; rewrite Rmax_left by lra; rewrite Rmin_left by lra; reflexivity|].
    unfold clamp01. assert (0 <= IZR (fst e - x) / IZR (fst pw))%R.
    { apply Rmult_le_pos; [apply IZR_le; lia|]. left. apply Rinv_0_lt_compat, IZR_lt. lia. }
    rewrite Rmax_left by assumption. apply Rmin_comm.
  - rewrite clamp_max_l by (apply quot_neg; lia). destruct (Z.leb_spec (snd e) x) as [G|G].
    + destruct (Z.eqb_spec (snd pw) 0) as [|N]; [unfold clamp01; rewrite Rmax_left by lra; rewrite Rmin_left by lra; reflexivity|].
      unfold clamp01. assert (0 <= IZR (x - (snd e - 1)) / IZR (snd pw))%R.
      { apply Rmult_le_pos; [apply IZR_le; lia|]. left. apply Rinv_0_lt_compat, IZR_lt. lia. }
      rewrite Rmax_left by assumption. apply Rmin_comm.
    + assert (((if snd pw =? 0 then 0 else IZR (x - (snd e - 1)) / IZR (snd pw)) <= 0)%R) by (apply quot_neg; lia).
      unfold clamp01. rewrite Rmax_right by assumption. rewrite Rmin_left by lra. reflexivity.
Qed.
Lemma depth_range pw e x : 0 <= fst pw -> 0 <= snd pw -> (0 <= depth pw e x <= 1)%R.
Proof.
  intros Hp Hq. unfold depth. destruct (Z.ltb_spec x (fst e)) as [H|H].
  - destruct (Z.eqb_spec (fst pw) 0) as [|N]; [lra|]. split; [|apply Rmin_l]. apply Rmin_glb; [lra|]. apply Rmult_le_pos; [apply IZR_le; lia|]. left. apply Rinv_0_lt_compat, IZR_lt. lia.
  - destruct (Z.leb_spec (snd e) x) as [G|G]; [|lra]. destruct (Z.eqb_spec (snd pw) 0) as [|N]; [lra|].
    split; [|apply Rmin_l]. apply Rmin_glb; [lra|]. apply Rmult_le_pos; [apply IZR_le; lia|]. left. apply Rinv_0_lt_compat, IZR_lt. lia.
Qed.
Lemma fold_left_Rmax l x : fold_left Rmax l x = Rmax x (fold_right Rmax x l).
Proof.
  revert x. induction l as [|y l IH]; intros x; cbn; [rewrite Rmax_left by lra; reflexivity|]. rewrite IH.
  assert (G : forall l a b, fold_right Rmax (Rmax a b) l = Rmax (fold_right Rmax a l) b).
  { clear. induction l as [|z l IH]; intros a b; cbn; [reflexivity|]. rewrite IH. rewrite Rmax_assoc. reflexivity. }
  rewrite G. unfold Rmax. repeat destruct (Rle_dec _ _); lra.
Qed.
Lemma fold_right_Rmax_ge l x : (x <= fold_right Rmax x l)%R /\ forall y, In y l -> (y <= fold_right Rmax x l)%R.
Proof.
  induction l as [|z l [I1 I2]]; cbn; [split; [lra|contradiction]|]. pose proof (Rmax_l z (fold_right Rmax x l)). pose proof (Rmax_r z (fold_right Rmax x l)).
  split; [lra|]. intros y [<-|Hy]; [lra|]. specialize (I2 y Hy). lra.
Qed.
Lemma fold_right_Rmax_0 l x : (0 <= x)%R -> fold_right Rmax x l = Rmax x (fold_right Rmax 0%R l).
Proof.
  intros Hx. induction l as [|y l IH]; cbn; [rewrite Rmax_left by lra; reflexivity|]. rewrite IH, !Rmax_assoc, (Rmax_comm y x). reflexivity.
Qed.
Lemma max_pml_thickest pw gs : (0 < length gs)%nat -> (forall d, 0 <= fst (pw d) /\ 0 <= snd (pw d)) -> Forall (fun g => 0 < g)%R gs ->
  max_pml pw gs = fold_right Rmax 0%R (flat_map (fun d => [IZR (fst (pw d)) * nth d gs 0; IZR (snd (pw d)) * nth d gs 0])%R (seq 0 (length gs))).
Proof.
  intros L Hp Hg. unfold max_pml. cbv zeta. destruct gs as [|g gs]; [cbn in L; lia|]. cbn [length seq flat_map app].
  set (l := flat_map _ _). rewrite fold_left_Rmax. set (x0 := (IZR (fst (pw 0%nat)) * nth 0 (g :: gs) 0)%R). set (y0 := (IZR (snd (pw 0%nat)) * nth 0 (g :: gs) 0)%R).
  assert (0 <= x0)%R. { unfold x0. inversion Hg. cbn. apply Rmult_le_pos; [apply IZR_le, Hp|lra]. }
  rewrite (fold_right_Rmax_0 (y0 :: l) x0) by assumption. cbn. rewrite Rmax_assoc, (Rmax_left x0 x0) by lra. reflexivity.
Qed.
Lemma ln_thousandth : (ln (1 / 1000) = - ln 1000)%R.
Proof. unfold Rdiv. rewrite Rmult_1_l. apply ln_Rinv. lra. Qed.
Lemma ln_1000 : (0 < ln 1000)%R.
Proof. rewrite <- ln_1. apply ln_increasing; lra. Qed.

Lemma combine_map_seq {A B} (l : list A) (h : nat -> B) (d : A) : combine l (map h (seq 0 (length l))) = map (fun j => (nth j l d, h j)) (seq 0 (length l)).
Proof.
  assert (G : forall (l : list A) k (h : nat -> B), combine l (map h (seq k (length l))) = map (fun j => (nth (j - k) l d, h j)) (seq k (length l))).
  { clear. induction l as [|x l IH]; intros k h; [reflexivity|]. cbn [length seq map combine]. rewrite Nat.sub_diag. f_equal. rewrite IH. apply map_ext_in. intros j Hj. apply in_seq in Hj.
    replace (j - k)%nat with (Datatypes.S (j - Datatypes.S k)) by lia. reflexivity. }
  rewrite G. apply map_ext. intros j. rewrite Nat.sub_0_r. reflexivity.
Qed.
Lemma sumf_mul_l_R {A} (k : R) (l : list A) f : sumf (K := R_ops) l (fun x => k * f x)%R = (k * sumf (K := R_ops) l f)%R.
Proof. induction l as [|x l IH]; cbn; [ring|]. cbn in IH. rewrite IH. ring. Qed.
Lemma sumf_opp_R {A} (l : list A) f : sumf (K := R_ops) l (fun x => - f x)%R = (- sumf (K := R_ops) l f)%R.
Proof. induction l as [|x l IH]; cbn; [ring|]. cbn in IH. rewrite IH. ring. Qed.

Ltac rring := unfold two; cbn [omul oopp oadd osub o0 o1 R_ops]; match goal with |- ?a = ?b => change (@eq R a b) end; ring.

Section Solves.
Variables (c : call) (nd : nat) (s : setup).
Hypothesis Hs : scalar_setup c nd = Some s.
Hypothesis Ha : area_ok c nd.
Hypothesis W1 : locs_whole nd [c_src c].
Hypothesis W2 : locs_whole nd [c_rec c].
Hypothesis Hf : c_freq c <> Some 0%R.
Variable b : nat.
Hypothesis Hb : Z.of_nat b < su_nb s.
Notation E := (su_ext s).
Notation fd := (fd_pad (su_acc s)).
Notation pad := (sum_pad (repeat (c_accuracy c / 2) (2 * nd)) (su_pw s)).
Notation M := (call_medium c nd (su_ratio s) (su_acc s) (su_vel s) E b).
Notation P := (shot_par s b).
Notation PW := (pw_of (su_pw s)).
Notation lo d := (fst (nth d E (0, 0))).
Notation hi d := (snd (nth d E (0, 0))).

Lemma LEs : length E = nd. Proof. apply (su_parts c nd s Hs). Qed.
Lemma m_pw d : (d < nd)%nat -> md_pw M d = PW d.
Proof. intros _. destruct (setup_parts c nd s Hs) as (_ & _ & _ & _ & H & _). apply set_pml_width_spec in H. destruct H as (_ & _ & ->). reflexivity. Qed.
Lemma m_gs : su_gs s = per_list (c_gs c) nd /\ length (su_gs s) = nd /\ Forall (fun g => 0 < g)%R (su_gs s).
Proof. destruct (setup_parts c nd s Hs) as (_ & H & _). apply set_grid_spacing_spec in H. tauto. Qed.
Lemma m_h d : md_h M d = nth d (su_gs s) 1%R.
Proof. destruct m_gs as (E1 & _). rewrite E1. reflexivity. Qed.
Lemma m_dt : md_dt M = su_dt s.
Proof.
  cbn. destruct (su_cfl c nd s Hs) as (_ & _ & _ & _ & Hr & Hd & _). rewrite <- Hd. field. apply not_0_IZR. lia.
Qed.
Lemma m_freq : md_freq M = su_freq s /\ (0 < su_freq s)%R.
Proof.
  destruct (setup_parts c nd s Hs) as (_ & _ & _ & _ & _ & H & _). apply set_pml_freq_spec in H. destruct H as (_ & H0 & H1). split; [cbn; rewrite H1; reflexivity|].
  destruct (Req_dec (su_freq s) 0) as [H2|]; [|lra]. exfalso. destruct (c_freq c) as [f|]; [apply Hf; congruence|lra].
Qed.
Lemma m_vel : (0 < su_vel s)%R. Proof. apply (su_cfl c nd s Hs). Qed.
Lemma pw_pos d : 0 <= fst (PW d) /\ 0 <= snd (PW d).
Proof. split; apply (nth_pw c nd s Hs). Qed.
Lemma m_thick : thickest M = max_pml PW (su_gs s).
Proof.
  destruct m_gs as (E1 & L & G). rewrite max_pml_thickest; [|rewrite L; apply (su_nd c nd s Hs)|intros d; apply pw_pos|exact G].
  unfold thickest. change (md_nd M) with nd. rewrite L. f_equal. rewrite !flat_map_concat_map. f_equal. apply map_ext_in. intros d Hd. apply in_seq in Hd.
  rewrite m_pw, m_h by lia. rewrite (nth_indep _ 1%R 0%R) by (rewrite L; lia). reflexivity.
Qed.
Lemma thick_zero d : (d < nd)%nat -> max_pml PW (su_gs s) = 0%R -> PW d = (0, 0).
Proof.
  intros Hd H0. rewrite <- m_thick in H0. unfold thickest in H0. destruct m_gs as (E1 & L & G).
  assert (Hh : (0 < md_h M d)%R). { rewrite m_h. rewrite Forall_forall in G. apply G, nth_In. rewrite L. exact Hd. }
  destruct (fold_right_Rmax_ge (flat_map (fun d => [IZR (fst (md_pw M d)) * md_h M d; IZR (snd (md_pw M d)) * md_h M d])%R (seq 0 nd)) 0%R) as [_ Q].
  change (md_nd M) with nd in H0. rewrite H0 in Q.
  assert (Q1 := Q (IZR (fst (md_pw M d)) * md_h M d)%R ltac:(apply in_flat_map; exists d; split; [apply in_seq; lia|left; reflexivity])).
  assert (Q2 := Q (IZR (snd (md_pw M d)) * md_h M d)%R ltac:(apply in_flat_map; exists d; split; [apply in_seq; lia|right; left; reflexivity])).
  rewrite m_pw in Q1, Q2 by exact Hd. destruct (pw_pos d) as [P1 P2].
  assert (Z1 : forall z, 0 <= z -> (IZR z * md_h M d <= 0)%R -> z = 0).
  { intros z Hz Q0. destruct (Z.eq_dec z 0) as [|N]; [assumption|]. exfalso. assert (0 < IZR z)%R by (apply IZR_lt; lia). assert (0 < IZR z * md_h M d)%R by (apply Rmult_lt_0_compat; assumption). lra. }
  apply Z1 in Q1, Q2; try assumption. destruct (PW d). cbn in *. congruence.
Qed.

(** The profile at element [y] of dimension [d]. *)
Definition ucoord (d : nat) (y : Z) : Z := y - (fd + fst (PW d)) + lo d.
Lemma ext_lt d : (d < nd)%nat -> lo d < hi d.
Proof. intros Hd. pose proof (su_ext_ok c nd s Hs Ha d Hd). lia. Qed.
Lemma depth_user d y : (d < nd)%nat ->
  pml_frac (fst (PW d)) (snd (PW d)) (IZR (fd + fst (PW d))) (IZR (nth d (su_shape s) 0 - 1 - fd - snd (PW d))) (0 + IZR y) = depth (md_pw M d) (md_ext M d) (ucoord d y).
Proof.
  intros Hd. destruct (pw_pos d). change (md_ext M d) with (nth d E (0, 0)). rewrite m_pw by exact Hd. rewrite depth_frac by (try assumption; apply ext_lt, Hd). apply frac_user. rewrite (su_dim c nd s Hs d Ha Hd). lia.
Qed.
Lemma prof_user d y : (d < nd)%nat -> p_a P d y = cpml_a M d (ucoord d y) /\ p_b P d y = cpml_b M d (ucoord d y).
Proof.
  intros Hd. cbn [p_a p_b shot_par scalar_par]. unfold pml_profile, setup_pml. cbv zeta. rewrite depth_user by exact Hd.
  set (e := depth (md_pw M d) (md_ext M d) (ucoord d y)).
  assert (He : (0 <= e <= 1)%R) by (apply depth_range; rewrite m_pw by exact Hd; apply pw_pos).
  pose proof m_freq as [F1 F2]. pose proof m_vel as V. pose proof ln_1000 as LN. pose proof PI_RGT_0 as HPI.
  destruct (Req_EM_T (max_pml PW (su_gs s)) 0) as [T0|T0].
  - assert (E0 : e = 0%R). { unfold e, depth. rewrite m_pw, (thick_zero d Hd T0) by exact Hd. cbn [fst snd]. rewrite Z.eqb_refl. destruct (_ <? _); [reflexivity|]. destruct (_ <=? _); reflexivity. }
    cbn [prof_a prof_b]. unfold cpml_a, cpml_b, damping. fold e. rewrite E0. destruct (Req_EM_T 0 0); [|lra]. split; [reflexivity|].
    replace (3 * md_vel M * ln 1000 / (2 * thickest M) * 0 ^ 2)%R with 0%R by ring. unfold Rdiv. rewrite Rmult_0_l, Rmult_0_l. reflexivity.
  - assert (TP : (0 < max_pml PW (su_gs s))%R).
    { rewrite <- m_thick in *. unfold thickest in *. destruct (fold_right_Rmax_ge (flat_map (fun d => [IZR (fst (md_pw M d)) * md_h M d; IZR (snd (md_pw M d)) * md_h M d])%R (seq 0 (md_nd M))) 0%R) as [Q _]. lra. }
    assert (SG : (- (1 + 2) * su_vel s * ln (1 / 1000) / (2 * max_pml PW (su_gs s)) * e ^ 2 = damping M d (ucoord d y))%R).
    { unfold damping. fold e. rewrite m_thick, ln_thousandth. change (md_vel M) with (su_vel s). field. exact T0. }
    assert (AL : (PI * su_freq s * (1 - e) = freq_shift M d (ucoord d y))%R) by (unfold freq_shift; fold e; rewrite F1; reflexivity).
    rewrite SG, AL.
    assert (SA : (damping M d (ucoord d y) + freq_shift M d (ucoord d y) <> 0)%R).
    { rewrite <- SG, <- AL, ln_thousandth. 
      assert (S0 : (0 < 3 * su_vel s * ln 1000 / (2 * max_pml PW (su_gs s)))%R).
      { apply Rmult_lt_0_compat; [repeat apply Rmult_lt_0_compat; lra|]. apply Rinv_0_lt_compat. lra. }
      replace (- (1 + 2) * su_vel s * - ln 1000 / (2 * max_pml PW (su_gs s)) * e ^ 2)%R with (3 * su_vel s * ln 1000 / (2 * max_pml PW (su_gs s)) * e ^ 2)%R by (field; exact T0).
      set (s0 := (3 * su_vel s * ln 1000 / (2 * max_pml PW (su_gs s)))%R) in *.
      assert (A0 : (0 < PI * su_freq s)%R) by (apply Rmult_lt_0_compat; lra).
      destruct (Req_dec e 0) as [->|N0].
      - replace (s0 * 0 ^ 2 + PI * su_freq s * (1 - 0))%R with (PI * su_freq s)%R by ring. lra.
      - assert (0 < s0 * e ^ 2)%R by (apply Rmult_lt_0_compat; [assumption|apply pow_lt; lra]).
        assert (0 <= PI * su_freq s * (1 - e))%R by (apply Rmult_le_pos; lra). lra. }
    unfold rdiv. destruct (Req_EM_T _ 0) as [|_]; [contradiction|]. cbn [prof_a prof_b]. unfold cpml_a, cpml_b, decay. fold e. rewrite m_dt. split; reflexivity.
Qed.
Lemma ucoord_plus d y k : ucoord d (y + k) = ucoord d y + k. Proof. unfold ucoord. lia. Qed.
Lemma db_user d y : (d < nd)%nat -> fd <= y < nth d (su_shape s) 0 - fd -> p_db P d y = cpml_db M d (ucoord d y).
Proof.
  intros Hd Hy. assert (L : length (su_shape s) = nd) by apply (su_rank c nd s Hs Ha).
  change (p_db P d y) with (if ((fd <=? y) && (y <? nth d (su_shape s) 0 - fd))%bool then DIFF1 (K := R_ops) (su_acc s) (1 / nth d (su_gs s) 1)%R (fun k => p_b P d (y + k)) else 0%R).
  destruct (Z.leb_spec fd y); [|lia]. destruct (Z.ltb_spec y (nth d (su_shape s) 0 - fd)); [|lia]. cbn [andb]. unfold cpml_db. rewrite m_h. change (md_acc M) with (su_acc s).
  apply DIFF1_ext. intros k _ _. rewrite (proj2 (prof_user d (y + k) Hd)), ucoord_plus. reflexivity.
Qed.

(** *** Coordinates *)
Notation rl := (rel E pad).
Lemma rl_length x : length (rl x) = nd. Proof. unfold rel. rewrite map_length, seq_length. apply LEs. Qed.
Lemma coord_rl d x : (d < nd)%nat -> coord d (rl x) = coord d x - lo d + (fd + fst (PW d)).
Proof. intros Hd. unfold rel. rewrite coord_map_seq by (rewrite LEs; exact Hd). rewrite (nth_pad c nd s Hs) by lia. reflexivity. Qed.
Lemma ucoord_rl d x : (d < nd)%nat -> ucoord d (coord d (rl x)) = coord d x.
Proof. intros Hd. rewrite coord_rl by exact Hd. unfold ucoord. lia. Qed.
Lemma rl_shift d k x : length x = nd -> (d < nd)%nat -> rl (shift d k x) = shift d k (rl x).
Proof.
  intros L Hd. apply (pt_ext nd); [apply rl_length|rewrite shift_length; apply rl_length|]. intros e He. rewrite coord_rl by exact He.
  destruct (Nat.eq_dec d e) as [->|N].
  - rewrite !coord_shift_same by (rewrite ?rl_length; lia). rewrite coord_rl by exact He. lia.
  - rewrite !coord_shift_other by (exact N). rewrite coord_rl by exact He. lia.
Qed.
Lemma domain_int x : length x = nd -> (domain M x <-> interior R_ops P (rl x) = true).
Proof.
  intros L. unfold interior. rewrite inb_ibox. change (p_shape P) with (su_shape s). change (p_acc P) with (su_acc s). rewrite rl_length, (su_rank c nd s Hs Ha).
  unfold domain. change (md_nd M) with nd. split; intros [H1 H2]; (split; [first [reflexivity|exact L]|]); intros d Hd; specialize (H2 d Hd);
    rewrite ?m_pw in * by exact Hd; change (md_ext M d) with (nth d E (0, 0)) in *; rewrite (su_dim c nd s Hs d Ha Hd), coord_rl in * by exact Hd; lia.
Qed.
Lemma dx1_user d (f : pt -> R) (g : pt -> R) x : length x = nd -> (d < nd)%nat -> (forall k, f (shift d k x) = g (rl (shift d k x))) ->
  dx1 M d f x = ScalarModel.d1 R_ops P d g (rl x).
Proof.
  intros L Hd H. unfold dx1, ScalarModel.d1, D1. change (p_acc P) with (su_acc s). change (md_acc M) with (su_acc s). change (p_rd P d) with (1 / nth d (su_gs s) 1)%R. rewrite m_h.
  apply (DIFF1_ext R_ops). intros k _ _. rewrite H, rl_shift by assumption. reflexivity.
Qed.
Lemma dx2_user d (g : pt -> R) x : length x = nd -> (d < nd)%nat -> dx2 M d (fun y => g (rl y)) x = ScalarModel.d2 R_ops P d g (rl x).
Proof.
  intros L Hd. unfold dx2, ScalarModel.d2, D2. change (p_acc P) with (su_acc s). change (md_acc M) with (su_acc s). change (p_rd2 P d) with (1 / nth d (su_gs s) 1 ^ 2)%R. rewrite m_h.
  apply (DIFF2_ext R_ops). intros k _. rewrite rl_shift by assumption. reflexivity.
Qed.
Definition ust (t : st R_ops) : st R_ops :=
  mkst R_ops (fun x => s_wfc R_ops t (rl x)) (fun x => s_wfp R_ops t (rl x)) (fun d x => s_psi R_ops t d (rl x)) (fun d x => s_zeta R_ops t d (rl x)).
Lemma tmp_user t d x : (d < nd)%nat -> domain M x -> stretched M (ust t) d x = tmpf R_ops P (s_wfc R_ops t) (s_psi R_ops t d) d (rl x).
Proof.
  intros Hd [L Hx]. change (md_nd M) with nd in *. unfold stretched, tmpf, pb, pdb.
  assert (A1 : dx2 M d (s_wfc R_ops (ust t)) x = ScalarModel.d2 R_ops P d (s_wfc R_ops t) (rl x)) by (apply (dx2_user d (s_wfc R_ops t)); assumption).
  assert (A2 : dx1 M d (s_wfc R_ops (ust t)) x = ScalarModel.d1 R_ops P d (s_wfc R_ops t) (rl x)) by (apply dx1_user; [assumption..|reflexivity]).
  assert (A3 : dx1 M d (fun y => cpml_a M d (coord d y) * s_psi R_ops (ust t) d y)%R x = ScalarModel.d1 R_ops P d (fun q => omul R_ops (pa R_ops P d q) (s_psi R_ops t d q)) (rl x)).
  { apply dx1_user; [assumption..|]. intros k. cbn [ust s_psi]. unfold pa. rewrite (proj1 (prof_user d (coord d (rl (shift d k x))) Hd)), ucoord_rl by exact Hd. reflexivity. }
  rewrite A1, A2, A3. rewrite (proj2 (prof_user d (coord d (rl x)) Hd)), (db_user d (coord d (rl x)) Hd), !ucoord_rl by
   (first [exact Hd|specialize (Hx d Hd); rewrite m_pw in Hx by exact Hd; change (md_ext M d) with (nth d E (0, 0)) in Hx; rewrite coord_rl by exact Hd; rewrite (su_dim c nd s Hs d Ha Hd); lia]).
  reflexivity.
Qed.

(** *** Models and sources *)
Lemma v_user x : domain M x -> shot_model s b (idx (su_shape s) (rl x)) = md_v M x.
Proof.
  intros Hx. pose proof Hx as [L _]. change (md_nd M) with nd in L. rewrite (shot_model_eq c nd s Hs b (rl x) Ha Hb) by (apply (inint_arr R_ops P), domain_int; assumption).
  cbn [md_v call_medium]. cbv zeta.
  assert (Y : nearest E (under E pad (rl x)) = map (fun d => Z.min (Z.max (coord d x) (lo d)) (hi d - 1)) (seq 0 nd)).
  { unfold nearest. rewrite LEs. apply map_ext_in. intros d Hd. apply in_seq in Hd. unfold clampZ. f_equal. f_equal.
    unfold under. rewrite coord_map_seq by (rewrite LEs; lia). rewrite coord_rl by lia. rewrite (nth_pad c nd s Hs) by lia. unfold pw_of. cbn [fst]. lia. }
  rewrite Y. unfold mval, user_shot, mbatch. destruct (_ =? nd)%nat; reflexivity.
Qed.
Lemma has_src : exists l a ps, c_src c = Some l /\ c_amps c = Some a /\ nth_error (lt_data l) b = Some ps.
Proof.
  destruct (setup_parts c nd s Hs) as (H & _ & _ & _ & _ & _ & _ & _ & _ & _ & _ & HC & _).
  unfold get_n_batch in H. rewrite present_none in H. destruct (c_src c) as [l|]; [|discriminate]. cbn in H. injection H as H.
  unfold check_amplitudes_locations in HC. destruct (c_amps c) as [a|]; [|discriminate HC].
  destruct (nth_error (lt_data l) b) as [ps|] eqn:En; [exists l, a, ps; auto|]. apply nth_error_None in En. rewrite <- H in Hb. lia.
Qed.
Lemma row_length (w : bool) l ps : (if w then c_src c else c_rec c) = Some l -> nth_error (lt_data l) b = Some ps -> length (shot_row (if w then su_src s else su_rec s) b) = length ps.
Proof.
  intros Hl Hps.
  assert (X : forall j, (nth_error (shot_row (if w then su_src s else su_rec s) b) j = None) <-> (nth_error ps j = None)).
  { intros j. assert (L : loc3 (if w then [c_src c] else [c_rec c]) 0 b j = nth_error ps j) by (unfold loc3; destruct w; cbn; rewrite Hl, Hps; reflexivity).
    assert (WW : locs_whole nd (if w then [c_src c] else [c_rec c])) by (destruct w; assumption). destruct (nth_error ps j) as [p|] eqn:Ej.
    - destruct (WW O b j p L) as [Hp|Hp].
      + destruct (loc_at c nd s Hs Ha w b j p L Hp) as (G & _). rewrite G. split; discriminate.
      + rewrite (loc_ign c nd s Hs w b j p L Hp). split; discriminate.
    - rewrite (loc_none c nd s Hs w b j L). split; reflexivity. }
  destruct (Nat.lt_trichotomy (length (shot_row (if w then su_src s else su_rec s) b)) (length ps)) as [G|[G|G]]; [exfalso|exact G|exfalso].
  - pose proof (proj2 (nth_error_None _ _) (le_n (length (shot_row (if w then su_src s else su_rec s) b)))) as Y. apply X, nth_error_None in Y. lia.
  - pose proof (proj2 (nth_error_None _ _) (le_n (length ps))) as Y. apply X, nth_error_None in Y. lia.
Qed.
Lemma rl_inj x y : length x = nd -> length y = nd -> rl x = rl y -> x = y.
Proof.
  intros Lx Ly H. apply (pt_ext nd); [assumption..|]. intros d Hd. apply (f_equal (coord d)) in H. rewrite !coord_rl in H by exact Hd. lia.
Qed.
Lemma idx_inj sh p q : inb (abox sh) p = true -> inb (abox sh) q = true -> idx sh p = idx sh q -> p = q.
Proof. intros Hp Hq H. rewrite <- (unidx_idx sh p Hp), <- (unidx_idx sh q Hq), H. reflexivity. Qed.

(** The amplitude of source [k] in internal step [t]. *)
Lemma amp_at a t k : c_amps c = Some a -> t_at (nth 0 (su_amps s) (mktens [] (fun _ => 0%R))) [Z.of_nat t; Z.of_nat b; Z.of_nat k] =
  nth t (upsample (Z.to_nat (su_ratio s)) (c_ft c) (c_tp c) (c_taper c) (map (fun i => t_at a [Z.of_nat b; Z.of_nat k; Z.of_nat i]) (seq 0 (Z.to_nat (nth 2 (t_shape a) 0))))) 0%R.
Proof.
  intros Hamp. destruct (setup_parts c nd s Hs) as (_ & _ & _ & _ & _ & _ & _ & _ & Hft & Htp & _ & _ & HA & _).
  unfold set_frac in Hft, Htp. destruct (_ && _)%bool in Hft; [|discriminate]. injection Hft as Hft. destruct (_ && _)%bool in Htp; [|discriminate]. injection Htp as Htp.
  unfold source_amplitudes in HA. destruct (set_source_amplitudes _ _ _ _ _) as [shapes|] eqn:ES; [|discriminate]. injection HA as HA. rewrite <- HA.
  rewrite Hamp in *. destruct shapes as [|sh0 shapes].
  { exfalso. apply sequence_length in ES. discriminate ES. }
  cbn [combine map nth fst snd t_at]. rewrite <- Hft, <- Htp. cbn [coord nth]. rewrite Nat2Z.id. reflexivity.
Qed.
Lemma amps_user l a ps t x : c_src c = Some l -> c_amps c = Some a -> nth_error (lt_data l) b = Some ps -> domain M x ->
  amp_in P (p_src P) (shot_amps s b (Z.of_nat t)) (rl x) = (- (md_v M x ^ 2 * md_dt M ^ 2 * call_source c (su_ratio s) ps a b t x))%R.
Proof.
  intros Hl Hamp Hps Hx. pose proof Hx as [Lx _]. change (md_nd M) with nd in Lx. assert (Hi : interior R_ops P (rl x) = true) by (apply domain_int; assumption).
  assert (Hin : inb (abox (su_shape s)) (rl x) = true) by (apply (inint_arr R_ops P), Hi).
  unfold amp_in. cbn [p_src shot_par scalar_par p_shape]. unfold shot_amps. cbv zeta. unfold scale_sources. rewrite (combine_map_seq _ _ 0), map_map, (combine_map_seq _ _ 0).
  pose proof (row_length true l ps Hl Hps) as LR. cbv iota in LR. rewrite LR. unfold call_source. rewrite sumf_map.
  rewrite <- sumf_mul_l_R, <- sumf_opp_R. apply sumf_ext. intros j Hj. apply in_seq in Hj. cbn [fst snd].
  assert (L3 : loc3 (if true then [c_src c] else [c_rec c]) 0 b j = Some (nth j ps [])) by (unfold loc3; cbn; rewrite Hl, Hps; apply nth_error_nth'; lia).
  destruct (W1 O b j _ L3) as [Hp|Hp].
  - destruct (loc_at c nd s Hs Ha true b j _ L3 Hp) as (G1 & G2 & _). cbv iota in G1. rewrite (nth_error_nth _ _ _ G1).
    destruct (Z.eqb_spec (idx (su_shape s) (rl (nth j ps []))) (idx (su_shape s) (rl x))) as [He|He].
    + apply idx_inj in He; [|assumption..]. apply rl_inj in He; [|apply Hp|exact Lx]. rewrite He. destruct (pt_eq_dec x x); [|congruence].
      destruct (Z.eqb_spec (coord 0 x) IGNORE) as [E0|_]; [exfalso; rewrite <- He in E0; apply (proj2 Hp O); [apply (su_nd c nd s Hs)|exact E0]|]. cbn [negb andb].
      rewrite (amp_at a t j Hamp). pose proof (idx_bound _ _ Hin) as B0. unfold py_masked. rewrite (proj2 (Z.eqb_neq _ IGNORE)) by (unfold IGNORE; lia).
      rewrite (v_user x Hx), m_dt. rring.
    + destruct (pt_eq_dec (nth j ps []) x) as [E0|_]; [exfalso; apply He; rewrite E0; reflexivity|]. rewrite andb_false_r. rring.
  - pose proof (loc_ign c nd s Hs true b j _ L3 Hp) as G1. cbv iota in G1. rewrite (nth_error_nth _ _ _ G1). pose proof (idx_bound _ _ Hin) as B0.
    rewrite (proj2 (Z.eqb_neq IGNORE _)) by (unfold IGNORE; lia).
    destruct (pt_eq_dec (nth j ps []) x) as [E0|_]; [|rewrite andb_false_r; rring]. rewrite <- E0, (proj2 Hp O) by apply (su_nd c nd s Hs). rewrite Z.eqb_refl. cbn [negb andb]. rring.
Qed.
(** *** One step *)
Lemma inject_out amps g p : interior R_ops P p = false -> inject R_ops P (p_src P) amps g p = g p.
Proof.
  intros Hp. unfold inject. rewrite (sumf_zero R_ops R_is_ring); [rring|]. intros [l x] Hin. apply in_combine_l in Hin. cbn [fst snd].
  pose proof (su_src_ok c nd s Hs b W1 Ha) as SO. rewrite Forall_forall in SO. destruct (SO l Hin) as [Hl|[Hl Hi]].
  - destruct (Z.leb_spec 0 l); [lia|reflexivity].
  - destruct (pt_eq_dec (unidx (p_shape P) l) p) as [He|]; [rewrite He in Hi; congruence|]. rewrite andb_false_r. reflexivity.
Qed.
Lemma inner_domain x : inner M x -> domain M x.
Proof.
  intros [L H]. split; [exact L|]. intros d Hd. specialize (H d Hd). rewrite m_pw by exact Hd. destruct (pw_pos d). pose proof (fd_pad_pos (md_acc M)). lia.
Qed.
Lemma inner_away x : inner M x -> away P PW (rl x).
Proof.
  intros [L H]. change (md_nd M) with nd in *. split; [rewrite rl_length; symmetry; apply (su_rank c nd s Hs Ha)|]. change (p_shape P) with (su_shape s). rewrite (su_rank c nd s Hs Ha).
  intros d Hd. specialize (H d Hd). change (md_ext M d) with (nth d E (0, 0)) in H. change (md_acc M) with (su_acc s) in H. change (p_acc P) with (su_acc s).
  rewrite coord_rl by exact Hd. rewrite (su_dim c nd s Hs d Ha Hd). lia.
Qed.
Lemma step_user l a ps t u : c_src c = Some l -> c_amps c = Some a -> nth_error (lt_data l) b = Some ps ->
  wave_step M (call_source c (su_ratio s) ps a b t) (ust u) (ust (step R_ops P (fun p => shot_model s b (idx (su_shape s) p)) (shot_amps s b (Z.of_nat t)) u)).
Proof.
  intros Hl Hamp Hps. set (u' := step R_ops P (fun p => shot_model s b (idx (su_shape s) p)) (shot_amps s b (Z.of_nat t)) u).
  pose proof (scalar_step_eqs R_ops R_is_ring P PW (su_geom c nd s Hs b Ha Hf) (su_src_ok c nd s Hs b W1 Ha) (shot_model s b) (shot_amps s b (Z.of_nat t)) u) as Eq.
  change (step R_ops P (fun p => shot_model s b (idx (p_shape P) p)) (shot_amps s b (Z.of_nat t)) u) with u' in Eq. destruct Eq as [Q1 Q2 Q3 Q4 Q5 _].
  assert (LS : length (p_shape P) = nd) by apply (su_rank c nd s Hs Ha).
  assert (D2 : p_dt2 P = (md_dt M ^ 2)%R) by (rewrite m_dt; reflexivity).
  assert (CE : forall x, domain M x -> cells P (rl x)) by (intros x Hx; apply cells_interior, domain_int; [apply Hx|exact Hx]).
  split.
  - intros x. exact (Q1 (rl x)).
  - intros x Hx. pose proof (inner_domain x Hx) as Hd. cbn [ust s_wfc s_wfp]. rewrite (Q2 (rl x) (inner_away x Hx)). rewrite (amps_user l a ps t x Hl Hamp Hps Hd).
    change (p_shape P) with (su_shape s) at 1 2. rewrite (v_user x Hd), D2, LS. change (md_nd M) with nd.
    rewrite (sumf_ext R_ops (seq 0 nd) (fun d => dx2 M d (fun x => s_wfc R_ops u (rl x)) x) (fun d => Stencil.D2 (p_acc P) (p_rd2 P d) d (s_wfc R_ops u) (rl x))).
    2:{ intros d Hd'. apply in_seq in Hd'. apply dx2_user; [apply Hx|lia]. }
    rring.
  - intros x Hd. cbn [ust s_wfc s_wfp s_zeta]. rewrite (Q3 (rl x) (CE x Hd)). rewrite (amps_user l a ps t x Hl Hamp Hps Hd).
    change (p_shape P) with (su_shape s) at 1 2. rewrite (v_user x Hd), D2, LS. change (md_nd M) with nd.
    rewrite (sumf_ext R_ops (seq 0 nd) (fun d => stretched M (ust u) d x + s_zeta R_ops u' d (rl x))%R (fun d => tmpf R_ops P (s_wfc R_ops u) (s_psi R_ops u d) d (rl x) + s_zeta R_ops u' d (rl x))%R).
    2:{ intros d Hd'. apply in_seq in Hd'. rewrite tmp_user by (try exact Hd; lia). reflexivity. }
    unfold tmpf, d1, d2, pa, pb, pdb. rring.
  - intros d x Hd Hx. change (md_nd M) with nd in Hd. cbn [ust s_psi]. rewrite (Q4 d (rl x) (CE x Hx)).
    destruct (prof_user d (coord d (rl x)) Hd) as [-> ->]. rewrite ucoord_rl by exact Hd.
    rewrite (dx1_user d (s_wfc R_ops (ust u)) (s_wfc R_ops u) x) by (first [apply Hx|exact Hd|reflexivity]). reflexivity.
  - intros d x Hd Hx. change (md_nd M) with nd in Hd. rewrite (tmp_user u d x Hd Hx). cbn [ust s_zeta]. rewrite (Q5 d (rl x) (CE x Hx)). unfold tmpf, d1, d2, pa, pb, pdb.
    destruct (prof_user d (coord d (rl x)) Hd) as [E1 E2]. rewrite ucoord_rl in E1, E2 by exact Hd. rewrite <- E1, <- E2. reflexivity.
  - intros x L Hn. change (md_nd M) with nd in *. assert (Hi : interior R_ops P (rl x) = false). { destruct (interior R_ops P (rl x)) eqn:Ei; [|reflexivity]. exfalso. apply Hn, domain_int; assumption. }
    unfold u'. cbn [ust s_wfc s_psi s_zeta step]. rewrite inject_out by exact Hi. unfold mask. rewrite Hi. split; [reflexivity|]. intros d _. split; reflexivity.
Qed.
End Solves.

(** The steps taken: the kernel makes a whole number of storage intervals. *)
Definition steps (c : call) (s : setup) : nat := Z.to_nat (su_nt s / (c_interval c * su_ratio s) * (c_interval c * su_ratio s)).
Lemma solves_user c nd s b vis vrg store : scalar_setup c nd = Some s ->
  locs_whole nd [c_src c] -> locs_whole nd [c_rec c] -> area_ok c nd -> c_freq c <> Some 0%R -> 0 < c_interval c -> (su_nt s = 0 \/ c_interval c * su_ratio s <= su_nt s) ->
  Z.of_nat b < su_nb s -> fvis R_ops (shot_par s b) (pw_of (su_pw s)) vis ->
  exists l a ps U R S (W : nat -> st R_ops),
    c_src c = Some l /\ c_amps c = Some a /\ nth_error (lt_data l) b = Some ps /\ nth 1 (t_shape a) 0 = lt_count l /\ shot_run s b vis vrg store = Some (U, R, S) /\
    (forall d x, s_wfc R_ops (W O) x = 0 /\ s_wfp R_ops (W O) x = 0 /\ s_psi R_ops (W O) d x = 0 /\ s_zeta R_ops (W O) d x = 0)%R /\
    (forall k, (k < steps c s)%nat -> wave_step (call_medium c nd (su_ratio s) (su_acc s) (su_vel s) (su_ext s) b) (call_source c (su_ratio s) ps a b k) (W k) (W (Datatypes.S k))) /\
    (forall lr qs j q, c_rec c = Some lr -> nth_error (lt_data lr) b = Some qs -> nth_error qs j = Some q ->
       nth_error (shot_data c s b R) j = Some (downsample (Z.to_nat (su_ratio s)) (c_ft c) (c_tp c) (c_taper c) 0%R
         (map (fun t => if (negb (coord 0 q =? IGNORE) && (t <? steps c s)%nat)%bool then s_wfc R_ops (W t) q else 0%R) (seq 0 (Z.to_nat (su_nt s)))))) /\
    (forall x, domain (call_medium c nd (su_ratio s) (su_acc s) (su_vel s) (su_ext s) b) x ->
       let q := map (fun d => coord d x - fst (nth d (su_ext s) (0, 0)) + nth (2 * d) (per_list (c_pw c) (2 * nd)) 0) (seq 0 nd) in
       s_wfc R_ops U q = s_wfc R_ops (W (steps c s)) x /\ s_wfp R_ops U q = s_wfp R_ops (W (steps c s)) x /\
       forall d, (d < nd)%nat -> s_psi R_ops U d q = s_psi R_ops (W (steps c s)) d x /\ s_zeta R_ops U d q = s_zeta R_ops (W (steps c s)) d x).
Proof.
  intros Hs W1 W2 Ha Hf Hi Hn Hb Hv. destruct (has_src c nd s Hs W1 b Hb) as (l & a & ps & Hl & Hamp & Hps).
  destruct (setup_parts c nd s Hs) as (_ & _ & _ & _ & _ & _ & _ & Hint & Hft & Htp & _ & HC & _).
  unfold set_sampling_interval in Hint. destruct (_ <? 0) in Hint; [discriminate|]. injection Hint as Hint.
  unfold set_frac in Hft, Htp. destruct (_ && _)%bool in Hft; [|discriminate]. injection Hft as Hft. destruct (_ && _)%bool in Htp; [|discriminate]. injection Htp as Htp.
  destruct (su_cfl c nd s Hs) as (_ & _ & _ & _ & Hr & _).
  destruct (scalar_forward_spec R_ops R_is_ring (shot_par s b) (pw_of (su_pw s)) (su_geom c nd s Hs b Ha Hf) (su_src_ok c nd s Hs b W1 Ha) (su_rec_ok c nd s Hs b W2 Ha) (shot_model s b) vis vrg
    (su_ratio s * c_interval c) (shot_amps s b) (su_nt s) None store (zero_st R_ops) Hv ltac:(nia) ltac:(cbn; lia)) as (U & R & S & HR & H1 & H2 & H3 & _).
  exists l, a, ps, U, R, S, (fun k => ust c nd s (state R_ops (shot_par s b) (fun _ p => shot_model s b (idx (su_shape s) p)) (shot_amps s b) k 0 (uinit R_ops (shot_par s b) (pw_of (su_pw s)) (zero_st R_ops)))).
  assert (NS : nsteps (su_nt s) (su_ratio s * c_interval c) = steps c s) by (unfold nsteps, steps; rewrite (Z.mul_comm (su_ratio s)); reflexivity). rewrite NS in H1, H2, H3.
  split; [exact Hl|]. split; [exact Hamp|]. split; [exact Hps|]. split.
  { rewrite Hl, Hamp in HC. unfold check_amplitudes_locations in HC. cbn in HC. apply andb_prop in HC. destruct HC as [HC _]. apply andb_prop in HC. destruct HC as [_ HC]. apply Z.eqb_eq in HC. exact HC. }
  split. { unfold shot_run. rewrite <- Hint. destruct (Z.eqb_spec (su_ratio s * c_interval c) 0); [nia|]. exact HR. }
  split. { intros d x. cbn. repeat split; repeat match goal with |- (if ?e then _ else _) = _ => destruct e end; reflexivity. }
  split.
  { intros k Hk. rewrite state_S_last. replace (0 + Z.of_nat k) with (Z.of_nat k) by lia. apply (step_user c nd s Hs Ha W1 W2 Hf b Hb l a ps k); assumption. }
  split; cycle 1.
  { intros x Hx q. pose proof Hx as [Lx Hx']. cbn in Lx.
    assert (Tq : topad R_ops (shot_par s b) q = rel (su_ext s) (sum_pad (repeat (c_accuracy c / 2) (2 * nd)) (su_pw s)) x).
    { assert (Lq : length q = nd) by (unfold q; rewrite map_length, seq_length; reflexivity).
      apply (pt_ext nd); [unfold topad; rewrite map_length; exact Lq|apply (rl_length c nd s Hs)|]. intros d Hd. rewrite coord_topad by lia. rewrite (coord_rl c nd s Hs b d x Hd).
      unfold q. rewrite coord_map_seq by exact Hd. destruct (setup_parts c nd s Hs) as (_ & _ & _ & _ & Hw & _). apply set_pml_width_spec in Hw. destruct Hw as (_ & _ & Hw). rewrite Hw. cbn. lia. }
    assert (Hu : In q (upts R_ops (shot_par s b))) by (apply In_upts; rewrite Tq; apply (domain_int c nd s Hs Ha b); assumption).
    destruct (H1 q Hu) as (A1 & A2 & A3). cbn [ucrop s_wfc s_wfp s_psi s_zeta] in A1, A2, A3. rewrite Tq in A1, A2, A3. split; [exact A1|]. split; [exact A2|].
    intros d Hd. apply A3. cbn [p_shape shot_par scalar_par]. rewrite (su_rank c nd s Hs Ha). exact Hd. }
  intros lr qs j q Hlr Hqs Hq. assert (L3 : loc3 (if false then [c_src c] else [c_rec c]) 0 b j = Some q) by (unfold loc3; cbn; rewrite Hlr, Hqs; exact Hq).
  assert (Hj : exists i, nth_error (shot_row (su_rec s) b) j = Some i /\
    forall f : field R_ops, (if 0 <=? i then f (unidx (su_shape s) i) else 0%R) = if negb (coord 0 q =? IGNORE) then f (rel (su_ext s) (sum_pad (repeat (c_accuracy c / 2) (2 * nd)) (su_pw s)) q) else 0%R).
  { pose proof (su_nd c nd s Hs) as N0. destruct (W2 O b j q L3) as [Hp|Hp].
    - destruct (loc_at c nd s Hs Ha false b j q L3 Hp) as (G1 & G2 & _). eexists. split; [exact G1|]. intros f. pose proof (idx_bound _ _ G2) as B0. destruct (Z.leb_spec 0 (idx (su_shape s) (rel (su_ext s) (sum_pad (repeat (c_accuracy c / 2) (2 * nd)) (su_pw s)) q))); [|lia].
      rewrite unidx_idx by exact G2. destruct (Z.eqb_spec (coord 0 q) IGNORE) as [E0|_]; [exfalso; apply (proj2 Hp O N0 E0)|reflexivity].
    - pose proof (loc_ign c nd s Hs false b j q L3 Hp) as G1. cbv iota in G1. eexists. split; [exact G1|]. intros f. rewrite (proj2 Hp O N0), Z.eqb_refl. reflexivity. }
  destruct Hj as (i & Hj & Hval). unfold shot_data. rewrite nth_error_map, nth_error_seq_lt by (apply nth_error_Some; congruence). cbn [option_map]. rewrite <- Hft, <- Htp. f_equal. f_equal.
  apply map_ext_in. intros t Ht. apply in_seq in Ht. destruct (Nat.ltb_spec t (steps c s)) as [Hlt|Hge].
  - rewrite H2 by exact Hlt. unfold rec_amps, gather. rewrite andb_true_r.
    match goal with |- nth j (map ?f ?l) 0%R = _ => transitivity (f i); [apply nth_error_nth; apply (map_nth_error f j l); exact Hj|] end.
    exact (Hval (s_wfc R_ops (state R_ops (shot_par s b) (fun _ p => shot_model s b (idx (su_shape s) p)) (shot_amps s b) t 0 (uinit R_ops (shot_par s b) (pw_of (su_pw s)) (zero_st R_ops))))).
  - rewrite H3 by lia. rewrite andb_false_r. clear. generalize j. induction (p_rec (shot_par s b)) as [|y r IH]; intros [|k]; cbn; auto.
Qed.
