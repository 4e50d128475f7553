(** * The survey area does not change the data of [scalar] (proofs). *)
From Coq Require Import List ZArith QArith Reals Lra Lia Bool Permutation.
From Verif Require Import Ops Sums Grid Stencil StencilOrder ScalarModel ScalarRefine ScalarFunc ScalarApi ScalarAdjoint ScalarMore ScalarPhys ScalarReach GeomModel Geom Geom2 GeomLocs SetupModel RealModel RealThm Resample
  UserModel UserThm.
Import ListNotations.
Local Open Scope Z_scope.

(** ** Profiles in the user's coordinates *)
Lemma clamp_max_l a b : (a <= 0)%R -> clamp01 (Rmax a b) = clamp01 b.
Proof. intros H. unfold clamp01. f_equal. unfold Rmax. repeat destruct (Rle_dec _ _); lra. Qed.
Lemma clamp_max_r a b : (b <= 0)%R -> clamp01 (Rmax a b) = clamp01 a.
Proof. intros H. unfold clamp01. f_equal. unfold Rmax. repeat destruct (Rle_dec _ _); lra. Qed.
Definition ufrac (pw0 pw1 lo hi u : Z) : R :=
  clamp01 (Rmax (if pw0 =? 0 then 0 else IZR (lo - u) / IZR pw0) (if pw1 =? 0 then 0 else IZR (u - (hi - 1)) / IZR pw1))%R.
Lemma frac_user fd pw0 pw1 lo hi n y : n = hi - lo + pw0 + pw1 + 2 * fd ->
  pml_frac pw0 pw1 (IZR (fd + pw0)) (IZR (n - 1 - fd - pw1)) (0 + IZR y) = ufrac pw0 pw1 lo hi (y - (fd + pw0) + lo).
Proof.
  intros ->. unfold pml_frac, ufrac. rewrite Rplus_0_l, <- !minus_IZR. do 2 f_equal; [destruct (pw0 =? 0)|destruct (pw1 =? 0)]; try reflexivity;
    do 2 f_equal; lia.
Qed.
Lemma quot_neg a w : 0 <= w -> a <= 0 -> ((if w =? 0 then 0 else IZR a / IZR w) <= 0)%R.
Proof.
  intros Hw Ha. destruct (Z.eqb_spec w 0) as [|Hn]; [lra|]. assert (0 < IZR w)%R by (apply IZR_lt; lia). assert (IZR a <= 0)%R by (apply IZR_le; lia).
  unfold Rdiv. apply (Rmult_le_reg_r (IZR w)); [assumption|]. rewrite Rmult_assoc, Rinv_l by lra. lra.
Qed.
(** One dimension of the condition on the survey areas: near [u] they agree. *)
Definition near_ok (e1 e2 : Z * Z) (m u : Z) : Prop :=
  (fst e1 = fst e2 \/ Z.max (fst e1) (fst e2) + m <= u) /\ (snd e1 = snd e2 \/ u + m < Z.min (snd e1) (snd e2)).
Lemma ufrac_eq pw0 pw1 e1 e2 u : 0 <= pw0 -> 0 <= pw1 -> near_ok e1 e2 0 u -> ufrac pw0 pw1 (fst e1) (snd e1) u = ufrac pw0 pw1 (fst e2) (snd e2) u.
Proof.
  intros H0 H1 [[Hl|Hl] [Hr|Hr]]; unfold ufrac.
  - rewrite Hl, Hr. reflexivity.
  - rewrite Hl. rewrite !clamp_max_r by (apply quot_neg; lia). reflexivity.
  - rewrite Hr. rewrite !clamp_max_l by (apply quot_neg; lia). reflexivity.
  - rewrite !clamp_max_l by (apply quot_neg; lia). unfold clamp01.
    f_equal. assert (A := quot_neg (u - (snd e1 - 1)) pw1 H1 ltac:(lia)). assert (B := quot_neg (u - (snd e2 - 1)) pw1 H1 ltac:(lia)).
    rewrite !Rmax_right by assumption. reflexivity.
Qed.
Lemma near_ok_sub e1 e2 m u k : near_ok e1 e2 m u -> - m <= k <= m -> near_ok e1 e2 0 (u + k).
Proof. intros [A B] Hk. split; [destruct A; [left; assumption|right; lia]|destruct B; [left; assumption|right; lia]]. Qed.
Lemma profile_eq pw fd dt gs vel freq sh1 sh2 e1 e2 d y1 y2 : 0 <= fst (pw d) -> 0 <= snd (pw d) ->
  nth d sh1 0 = snd e1 - fst e1 + fst (pw d) + snd (pw d) + 2 * fd -> nth d sh2 0 = snd e2 - fst e2 + fst (pw d) + snd (pw d) + 2 * fd ->
  y1 + fst e1 = y2 + fst e2 -> near_ok e1 e2 0 (y1 - (fd + fst (pw d)) + fst e1) ->
  pml_profile pw fd fd dt gs vel freq sh1 0 d y1 = pml_profile pw fd fd dt gs vel freq sh2 0 d y2.
Proof.
  intros H0 H1 E1 E2 Hy Hn. unfold pml_profile, setup_pml. rewrite (frac_user fd _ _ (fst e1) (snd e1) _ y1 E1), (frac_user fd _ _ (fst e2) (snd e2) _ y2 E2).
  replace (y2 - (fd + fst (pw d)) + fst e2) with (y1 - (fd + fst (pw d)) + fst e1) by lia. rewrite (ufrac_eq _ _ e1 e2) by assumption. reflexivity.
Qed.

Lemma Forall2_nth_error {A B} (R : A -> B -> Prop) l m :
  (forall j, match nth_error l j, nth_error m j with Some x, Some y => R x y | None, None => True | _, _ => False end) -> Forall2 R l m.
Proof.
  revert m; induction l as [|x l IH]; intros [|y m] H; [constructor|destruct (H O)|destruct (H O)|].
  constructor; [exact (H O)|]. apply IH. intros j. exact (H (S j)).
Qed.
Lemma coord_translate o p d : length o = length p -> (d < length p)%nat -> coord d (translate o p) = coord d o + coord d p.
Proof.
  revert p d; induction o as [|a o IH]; intros [|x p] d L Hd; cbn in *; try lia. destruct d; [reflexivity|]. apply (IH p d); lia.
Qed.

Lemma pt_ext n (p q : pt) : length p = n -> length q = n -> (forall d, (d < n)%nat -> coord d p = coord d q) -> p = q.
Proof. intros L1 L2 H. apply (nth_ext _ _ 0 0); [lia|]. intros d Hd. apply H. lia. Qed.
(** ** Locations of an accepted call *)
Lemma nth_error_combine {A B} (l : list A) (m : list B) k :
  nth_error (combine l m) k = match nth_error l k, nth_error m k with Some x, Some y => Some (x, y) | _, _ => None end.
Proof. revert m k; induction l as [|x l IH]; intros [|y m] [|k]; cbn; try reflexivity; [destruct (nth_error l k); reflexivity|apply IH]. Qed.
Lemma nth_error_seq_lt n k : (k < n)%nat -> nth_error (seq 0 n) k = Some k.
Proof. intros H. rewrite (nth_error_nth' _ O) by (rewrite seq_length; exact H). rewrite seq_nth by exact H. reflexivity. Qed.
Lemma run_length P pw v vis vrg sr f nt cb store u U R S t : geom_ok R_ops P pw -> Forall (loc_ok R_ops P) (p_src P) -> Forall (loc_ok R_ops P) (p_rec P) -> fvis R_ops P pw vis -> 0 < sr -> cb_ok nt sr cb ->
  scalar_forward R_ops P pw v vis vrg sr f nt cb store u = Some (U, R, S) -> length (R t) = length (p_rec P).
Proof.
  intros G S1 R1 V Hs C F. destruct (fwd_out R_ops R_is_ring P pw G S1 R1 _ _ _ _ _ _ _ _ _ _ _ _ V Hs C F) as (_ & A2 & A3 & _).
  destruct (Z.lt_ge_cases t 0) as [H|H]; [rewrite A3 by lia; apply map_length|]. destruct (Z.lt_ge_cases t (Z.of_nat (nsteps nt sr))) as [H'|H'].
  - rewrite <- (Z2Nat.id t) by exact H. rewrite A2 by lia. unfold rec_amps. apply map_length.
  - rewrite A3 by lia. apply map_length.
Qed.
Section LocAt.
Variables (c : call) (nd : nat) (s : setup).
Hypothesis H : scalar_setup c nd = Some s.
Hypothesis A : area_ok c nd.
Notation E := (su_ext s).
Notation pad := (sum_pad (repeat (c_accuracy c / 2) (2 * nd)) (su_pw s)).
Notation tin w := (if w : bool then [c_src c] else [c_rec c]).
Notation tout w := (if w : bool then su_src s else su_rec s).
Lemma loc_at w b j p : loc3 (tin w) 0 b j = Some p -> active_pt nd p ->
  nth_error (shot_row (tout w) b) j = Some (idx (su_shape s) (rel E pad p)) /\ inb (abox (su_shape s)) (rel E pad p) = true /\ under E pad (rel E pad p) = p.
Proof.
  intros Hl Ha. rewrite (su_shape_eq c nd s H A), row_at3.
  destruct (active_index 0%R _ _ _ _ _ _ _ _ _ _ _ _ _ _ _ (su_Lfd c nd) (su_Lpw c nd s H) (su_nd c nd s H) (su_fd0 c nd s H) (su_pw0 c nd s H) (su_survey c nd s H) w 0 b j p Hl Ha)
    as (_ & G1 & G2 & G3).
  split; [destruct w; exact G1|]. split; [|exact G3].
  exact (rel_inb 0%R _ _ _ _ _ _ _ _ _ _ _ _ _ _ _ (su_Lfd c nd) (su_Lpw c nd s H) (su_nd c nd s H) (su_fd0 c nd s H) (su_pw0 c nd s H) (su_survey c nd s H) p G2).
Qed.
Lemma loc_ign w b j p : loc3 (tin w) 0 b j = Some p -> ignored_pt nd p -> nth_error (shot_row (tout w) b) j = Some IGNORE.
Proof.
  intros Hl Hg. rewrite row_at3.
  pose proof (location_ignored 0%R _ _ _ _ _ _ _ _ _ _ _ _ _ _ _ (su_Lfd c nd) (su_Lpw c nd s H) (su_nd c nd s H) (su_survey c nd s H) w 0 b j p Hl Hg) as G. destruct w; exact G.
Qed.
Lemma loc_of w b j i : nth_error (shot_row (tout w) b) j = Some i -> exists p, loc3 (tin w) 0 b j = Some p.
Proof.
  rewrite row_at3. intros G. apply (at3_loc3 0%R _ _ _ _ _ _ _ _ _ _ _ _ _ _ _ (su_Lfd c nd) (su_Lpw c nd s H) (su_nd c nd s H) (su_survey c nd s H) w 0 b j i). destruct w; exact G.
Qed.
Lemma loc_none w b j : loc3 (tin w) 0 b j = None -> nth_error (shot_row (tout w) b) j = None.
Proof. intros Hn. destruct (nth_error (shot_row (tout w) b) j) as [i|] eqn:Ei; [|reflexivity]. destruct (loc_of _ _ _ _ Ei) as [p Hp]. rewrite Hn in Hp. discriminate. Qed.
Lemma near_in w b j p : loc3 (tin w) 0 b j = Some p -> active_pt nd p -> nearest E p = p.
Proof.
  intros Hl Ha. destruct (loc3_In _ _ _ _ _ Hl) as (L & ps & G1 & G2 & G3).
  destruct (active_index 0%R _ _ _ _ _ _ _ _ _ _ _ _ _ _ _ (su_Lfd c nd) (su_Lpw c nd s H) (su_nd c nd s H) (su_fd0 c nd s H) (su_pw0 c nd s H) (su_survey c nd s H) w 0 b j p Hl Ha)
    as (_ & _ & G & U).
  destruct (su_parts c nd s H) as (_ & LE & _). apply (pt_ext nd); [unfold nearest; rewrite map_length, seq_length; exact LE|apply Ha|]. intros d Hd.
  specialize (G d Hd). unfold nearest. rewrite coord_map_seq by lia. rewrite <- (su_shape_eq c nd s H A), (su_dim c nd s H d A Hd) in G. unfold rel in G. rewrite coord_map_seq in G by lia.
  rewrite !(nth_pad c nd s H) in G by lia. unfold pw_of in G. cbn [fst snd] in G. unfold clampZ. lia.
Qed.
End LocAt.

Section Crop.
Variables (c : call) (nd : nat) (sp' : survey_pad) (s1 s2 : setup).
Notation c' := (set_sp c sp').
Hypothesis H1 : scalar_setup c nd = Some s1.
Hypothesis H2 : scalar_setup c' nd = Some s2.
Hypothesis A1 : area_ok c nd.
Hypothesis A2 : area_ok c' nd.
Hypothesis Hsrc : locs_whole nd [c_src c].
Hypothesis Hrec : locs_whole nd [c_rec c].
Hypothesis Hfreq : c_freq c <> Some 0%R.
Notation E1 := (su_ext s1).
Notation E2 := (su_ext s2).
Notation fd := (fd_pad (su_acc s1)).
Notation pad1 := (sum_pad (repeat (c_accuracy c / 2) (2 * nd)) (su_pw s1)).

Lemma same_setup : su_nb s1 = su_nb s2 /\ su_gs s1 = su_gs s2 /\ su_vel s1 = su_vel s2 /\ su_dt s1 = su_dt s2 /\ su_ratio s1 = su_ratio s2 /\ su_acc s1 = su_acc s2 /\
  su_pw s1 = su_pw s2 /\ su_freq s1 = su_freq s2 /\ su_nt s1 = su_nt s2 /\ su_interval s1 = su_interval s2 /\ su_amps s1 = su_amps s2 /\ su_ft s1 = su_ft s2 /\ su_tp s1 = su_tp s2.
Proof.
  destruct (setup_parts c nd s1 H1) as (B1 & B2 & B3 & B4 & B5 & B6 & B7 & B8 & B9 & B10 & (mv & B11 & B12) & _ & B14 & _).
  destruct (setup_parts c' nd s2 H2) as (D1 & D2 & D3 & D4 & D5 & D6 & D7 & D8 & D9 & D10 & (mv' & D11 & D12) & _ & D14 & _).
  cbn [c_src c_gs c_dt c_accuracy c_pw c_freq c_nt c_amps c_interval c_ft c_tp c_v c_max_vel c_taper set_sp] in *.
  assert (Q1 : su_nb s1 = su_nb s2) by congruence. assert (Q2 : su_gs s1 = su_gs s2) by congruence. assert (Qm : mv = mv') by congruence. subst mv'.
  assert (Q3 : su_vel s1 = su_vel s2) by congruence. rewrite <- Q2, <- Q3 in D3. assert (Q4 : (su_dt s1, su_ratio s1) = (su_dt s2, su_ratio s2)) by congruence.
  injection Q4 as Q4 Q5. rewrite <- Q4 in D6. rewrite <- Q5 in D7. assert (Q6 : su_nt s1 = su_nt s2) by congruence.
  assert (Q7 : su_ft s1 = su_ft s2) by congruence. assert (Q8 : su_tp s1 = su_tp s2) by congruence. rewrite <- Q1, <- Q5, <- Q6, <- Q7, <- Q8 in D14.
  repeat split; congruence.
Qed.
Lemma pad_same : sum_pad (repeat (c_accuracy c' / 2) (2 * nd)) (su_pw s2) = pad1.
Proof. destruct same_setup as (_ & _ & _ & _ & _ & _ & Q & _). rewrite Q. reflexivity. Qed.

(** The offset between the two padded grids. *)
Definition crop_off : pt := map (fun d => fst (nth d E1 (0, 0)) - fst (nth d E2 (0, 0))) (seq 0 nd).
Lemma off_length : length crop_off = nd. Proof. unfold crop_off. rewrite map_length, seq_length. reflexivity. Qed.
Lemma coord_off d : (d < nd)%nat -> coord d crop_off = fst (nth d E1 (0, 0)) - fst (nth d E2 (0, 0)).
Proof. intros Hd. unfold crop_off. rewrite coord_map_seq by exact Hd. reflexivity. Qed.
Lemma LE1 : length E1 = nd. Proof. apply (su_parts c nd s1 H1). Qed.
Lemma LE2 : length E2 = nd. Proof. apply (su_parts c' nd s2 H2). Qed.
Lemma under_length pd q E : length E = nd -> length (under E pd q) = nd.
Proof. intros L. unfold under. rewrite map_length, seq_length. exact L. Qed.
Lemma coord_under1 q d : (d < nd)%nat -> coord d (under E1 pad1 q) = coord d q - (fd + fst (pw_of (su_pw s1) d)) + fst (nth d E1 (0, 0)).
Proof.
  intros Hd. unfold under. rewrite coord_map_seq by (rewrite LE1; exact Hd). rewrite (nth_pad c nd s1 H1) by lia. reflexivity.
Qed.
Lemma under_same q : length q = nd -> under E2 pad1 (translate crop_off q) = under E1 pad1 q.
Proof.
  intros L. apply (pt_ext nd); [apply under_length, LE2|apply under_length, LE1|]. intros d Hd. unfold under.
  rewrite !coord_map_seq by (rewrite ?LE1, ?LE2; exact Hd). rewrite coord_translate by (rewrite ?off_length; lia). rewrite coord_off by exact Hd. lia.
Qed.
Lemma rel_same p : length p = nd -> rel E2 pad1 p = translate crop_off (rel E1 pad1 p).
Proof.
  intros L. assert (Lr : length (rel E1 pad1 p) = nd) by (unfold rel; rewrite map_length, seq_length; apply LE1).
  apply (pt_ext nd); [unfold rel; rewrite map_length, seq_length; apply LE2|rewrite translate_length; rewrite ?off_length; lia|]. intros d Hd.
  rewrite coord_translate by (rewrite ?off_length; lia). rewrite coord_off by exact Hd. unfold rel. rewrite !coord_map_seq by (rewrite ?LE1, ?LE2; exact Hd). lia.
Qed.
Definition to_user : pt := map (fun d => fst (nth d E1 (0, 0)) - nth (2 * d) pad1 0) (seq 0 nd).
Lemma under_translate q : length q = nd -> under E1 pad1 q = translate to_user q.
Proof.
  intros L. assert (Lt : length to_user = nd) by (unfold to_user; rewrite map_length, seq_length; reflexivity).
  apply (pt_ext nd); [apply under_length, LE1|rewrite translate_length; lia|]. intros d Hd. rewrite coord_translate by lia.
  unfold under, to_user. rewrite !coord_map_seq by (rewrite ?LE1; exact Hd). lia.
Qed.
Lemma dist_user p q : length p = nd -> length q = nd -> dist (under E1 pad1 p) (under E1 pad1 q) = dist p q.
Proof.
  intros Lp Lq. assert (Lt : length to_user = nd) by (unfold to_user; rewrite map_length, seq_length; reflexivity).
  rewrite !under_translate by assumption. apply dist_translate; lia.
Qed.

(** *** Locations *)
Notation tin w := (if w : bool then [c_src c] else [c_rec c]).
Lemma whole w : locs_whole nd (tin w). Proof. destruct w; assumption. Qed.
Lemma sh1_len : length (su_shape s1) = nd. Proof. apply (su_rank c nd s1 H1 A1). Qed.
Lemma sh2_len : length (su_shape s2) = nd. Proof. apply (su_rank c' nd s2 H2 A2). Qed.
Lemma rel1_length p : length (rel E1 pad1 p) = nd. Proof. unfold rel. rewrite map_length, seq_length. apply LE1. Qed.
Lemma locs_same (w : bool) b : Forall2 (same_loc (su_shape s1) (su_shape s2) crop_off) (shot_row (if w then su_src s1 else su_rec s1) b) (shot_row (if w then su_src s2 else su_rec s2) b).
Proof.
  apply Forall2_nth_error. intros j. destruct (loc3 (tin w) 0 b j) as [p|] eqn:Ep.
  - destruct (whole w O b j p Ep) as [Ha|Hi].
    + destruct (loc_at c nd s1 H1 A1 w b j p Ep Ha) as (-> & I1 & _). destruct (loc_at c' nd s2 H2 A2 w b j p Ep Ha) as (-> & I2 & _).
      rewrite pad_same in I2 |- *. right. pose proof (idx_bound _ _ I1). pose proof (idx_bound _ _ I2). rewrite !unidx_idx by assumption.
      split; [lia|]. split; [lia|]. apply rel_same. apply Ha.
    + rewrite (loc_ign c nd s1 H1 w b j p Ep Hi), (loc_ign c' nd s2 H2 w b j p Ep Hi). left. unfold IGNORE. lia.
  - rewrite (loc_none c nd s1 H1 w b j Ep), (loc_none c' nd s2 H2 w b j Ep). exact I.
Qed.

(** *** The coefficients *)
(** The two survey areas agree up to [m] cells around the cell [p] of the user's model. *)
Definition crop_near (m : Z) (p : pt) : Prop := forall d, (d < nd)%nat -> near_ok (nth d E1 (0, 0)) (nth d E2 (0, 0)) m (coord d p).
Lemma pw_nonneg d : 0 <= fst (pw_of (su_pw s1) d) /\ 0 <= snd (pw_of (su_pw s1) d).
Proof. split; apply (nth_pw c nd s1 H1). Qed.
Lemma fd_nonneg : 0 <= fd. Proof. destruct (su_acc s1); cbn; lia. Qed.
Section At.
Variables (b : nat) (q : pt).
Hypothesis Lq : length q = nd.
Hypothesis Hnear : crop_near fd (under E1 pad1 q).
Notation P1 := (shot_par s1 b).
Notation P2 := (shot_par s2 b).
Notation tq := (translate crop_off q).
Lemma near_q d k : (d < nd)%nat -> - fd <= k <= fd -> near_ok (nth d E1 (0, 0)) (nth d E2 (0, 0)) 0 (coord d q - (fd + fst (pw_of (su_pw s1) d)) + fst (nth d E1 (0, 0)) + k).
Proof. intros Hd Hk. rewrite <- coord_under1 by exact Hd. apply (near_ok_sub _ _ fd); [apply Hnear, Hd|exact Hk]. Qed.
Lemma coord_tq d : (d < nd)%nat -> coord d tq + fst (nth d E2 (0, 0)) = coord d q + fst (nth d E1 (0, 0)).
Proof. intros Hd. rewrite coord_translate by (rewrite ?off_length; lia). rewrite coord_off by exact Hd. lia. Qed.
Lemma dim1 d : (d < nd)%nat -> nth d (su_shape s1) 0 = snd (nth d E1 (0, 0)) - fst (nth d E1 (0, 0)) + fst (pw_of (su_pw s1) d) + snd (pw_of (su_pw s1) d) + 2 * fd.
Proof. intros Hd. apply (su_dim c nd s1 H1 d A1 Hd). Qed.
Lemma dim2 d : (d < nd)%nat -> nth d (su_shape s2) 0 = snd (nth d E2 (0, 0)) - fst (nth d E2 (0, 0)) + fst (pw_of (su_pw s1) d) + snd (pw_of (su_pw s1) d) + 2 * fd.
Proof. intros Hd. rewrite (su_dim c' nd s2 H2 d A2 Hd). destruct same_setup as (_ & _ & _ & _ & _ & Q1 & Q2 & _). rewrite Q1, Q2. reflexivity. Qed.
Lemma prof_same d k : (d < nd)%nat -> - fd <= k <= fd ->
  pml_profile (pw_of (su_pw s1)) fd fd (su_dt s1) (su_gs s1) (su_vel s1) (su_freq s1) (su_shape s1) 0 d (coord d q + k) =
  pml_profile (pw_of (su_pw s2)) (fd_pad (su_acc s2)) (fd_pad (su_acc s2)) (su_dt s2) (su_gs s2) (su_vel s2) (su_freq s2) (su_shape s2) 0 d (coord d tq + k).
Proof.
  intros Hd Hk. destruct same_setup as (_ & -> & -> & -> & _ & <- & <- & -> & _).
  apply (profile_eq _ _ _ _ _ _ _ _ (nth d E1 (0, 0)) (nth d E2 (0, 0))); [apply pw_nonneg|apply pw_nonneg|apply dim1, Hd|apply dim2, Hd|pose proof (coord_tq d Hd); lia|].
  replace (coord d q + k - (fd + fst (pw_of (su_pw s1) d)) + fst (nth d E1 (0, 0))) with (coord d q - (fd + fst (pw_of (su_pw s1) d)) + fst (nth d E1 (0, 0)) + k) by lia.
  apply near_q; assumption.
Qed.
Lemma in_range d : (d < nd)%nat -> (fd <= coord d q <-> fd_pad (su_acc s2) <= coord d tq) /\ (coord d q < nth d (su_shape s1) 0 - fd <-> coord d tq < nth d (su_shape s2) 0 - fd_pad (su_acc s2)).
Proof.
  intros Hd. destruct same_setup as (_ & _ & _ & _ & _ & <- & _). rewrite (dim1 d Hd), (dim2 d Hd). pose proof (coord_tq d Hd) as T. pose proof (pw_nonneg d) as W. pose proof fd_nonneg as F.
  destruct (near_q d 0 Hd ltac:(lia)) as [[N1|N1] [N2|N2]]; lia.
Qed.
Lemma interior_same : interior R_ops P1 q = interior R_ops P2 tq.
Proof.
  apply eq_true_iff_eq. unfold interior. cbn [p_shape p_acc shot_par scalar_par]. rewrite !inb_ibox, sh1_len, sh2_len, translate_length by (rewrite off_length; lia).
  split; intros [L G]; (split; [lia|]); intros d Hd; specialize (G d Hd); pose proof (in_range d Hd); tauto.
Qed.
Lemma v_same : Z.of_nat b < su_nb s1 -> interior R_ops P1 q = true -> shot_model s1 b (idx (su_shape s1) q) = shot_model s2 b (idx (su_shape s2) tq).
Proof.
  intros Hb Hi. assert (Hi2 := Hi). rewrite interior_same in Hi2. destruct same_setup as (Qn & _).
  apply (interior_in_array _ _ _ fd_nonneg) in Hi. apply (interior_in_array (fd_pad (su_acc s2))) in Hi2; [|destruct (su_acc s2); cbn; lia].
  rewrite (shot_model_eq c nd s1 H1 b q A1 Hb Hi), (shot_model_eq c' nd s2 H2 b tq A2 ltac:(lia) Hi2). unfold user_shot. cbn [c_v set_sp]. f_equal. rewrite pad_same, (under_same q Lq).
  unfold nearest. rewrite LE1, LE2. apply map_ext_in. intros d Hd. apply in_seq in Hd. rewrite (coord_under1 q d) by lia.
  pose proof (near_q d 0 ltac:(lia) ltac:(pose proof fd_nonneg; lia)) as [N1 N2]. rewrite Z.add_0_r in N1, N2. pose proof (su_ext_ok c nd s1 H1 A1 d ltac:(lia)). pose proof (su_ext_ok c' nd s2 H2 A2 d ltac:(lia)). unfold clampZ. lia.
Qed.
Lemma coef_same d : (d < nd)%nat -> p_a P1 d (coord d q) = p_a P2 d (coord d tq) /\ p_b P1 d (coord d q) = p_b P2 d (coord d tq) /\ p_db P1 d (coord d q) = p_db P2 d (coord d tq).
Proof.
  intros Hd. pose proof fd_nonneg as F. assert (Q := prof_same d 0 Hd ltac:(lia)). rewrite !Z.add_0_r in Q. cbn [p_a p_b p_db shot_par scalar_par]. split; [rewrite Q; reflexivity|]. split; [rewrite Q; reflexivity|].
  pose proof (in_range d Hd) as [I1 I2].
  replace ((fd_pad (su_acc s2) <=? coord d tq) && (coord d tq <? nth d (su_shape s2) 0 - fd_pad (su_acc s2)))%bool
    with ((fd <=? coord d q) && (coord d q <? nth d (su_shape s1) 0 - fd))%bool
    by (apply eq_true_iff_eq; rewrite !andb_true_iff, !Z.leb_le, !Z.ltb_lt; tauto).
  destruct (_ && _)%bool; [|reflexivity]. destruct same_setup as (_ & Qg & _ & _ & _ & Qa & _).
  match goal with |- _ = DIFF1 _ _ ?g => transitivity (DIFF1 (K := R_ops) (su_acc s1) (1 / nth d (su_gs s1) 1)%R g) end; [|rewrite Qa, Qg; reflexivity].
  apply DIFF1_ext. intros k Hk _. rewrite (prof_same d k Hd Hk). reflexivity.
Qed.
End At.

(** *** The runs *)
Lemma amps_same b t k l : nth_error (shot_row (su_src s2) b) k = Some l -> 0 <= l -> Z.of_nat b < su_nb s1 -> nth_error (shot_amps s2 b t) k = nth_error (shot_amps s1 b t) k.
Proof.
  intros Hk Hl Hb. destruct (loc_of c' nd s2 H2 true b k l Hk) as [p Hp].
  destruct (whole true O b k p Hp) as [Ha|Hi]; [|pose proof (loc_ign c' nd s2 H2 true b k p Hp Hi) as G; cbv iota in G; rewrite Hk in G; injection G as ->; unfold IGNORE in Hl; lia].
  destruct (loc_at c nd s1 H1 A1 true b k p Hp Ha) as (N1 & I1 & U1). destruct (loc_at c' nd s2 H2 A2 true b k p Hp Ha) as (N2 & I2 & U2). cbv iota in N1, N2.
  destruct same_setup as (Qn & _ & _ & Qdt & _ & _ & _ & _ & _ & _ & Qa & _).
  unfold shot_amps. cbv zeta. rewrite <- Qa, <- Qdt. unfold scale_sources. rewrite !nth_error_map, !nth_error_combine, !nth_error_map.
  rewrite !nth_error_seq_lt by (apply nth_error_Some; congruence). rewrite N1, N2. cbn [option_map fst snd].
  pose proof (idx_bound _ _ I1) as B1. pose proof (idx_bound _ _ I2) as B2. unfold py_masked.
  rewrite !(proj2 (Z.eqb_neq _ IGNORE)) by (unfold IGNORE; lia).
  rewrite (shot_model_eq c nd s1 H1 b _ A1 Hb I1), (shot_model_eq c' nd s2 H2 b _ A2 ltac:(lia) I2). rewrite U1, U2. unfold user_shot. cbn [c_v set_sp].
  assert (X1 := near_in c nd s1 H1 A1 true b k p Hp Ha). assert (X2 := near_in c' nd s2 H2 A2 true b k p Hp Ha). rewrite X1, X2. reflexivity.
Qed.
Lemma run_cb s b vis vrg store U R S : shot_run s b vis vrg store = Some (U, R, S) -> 0 <= su_ratio s -> 0 <= su_interval s -> 0 <= su_nt s ->
  0 < su_ratio s * su_interval s /\ cb_ok (su_nt s) (su_ratio s * su_interval s) None /\
  scalar_forward R_ops (shot_par s b) (pw_of (su_pw s)) (shot_model s b) vis vrg (su_ratio s * su_interval s) (shot_amps s b) (su_nt s) None store (zero_st R_ops) = Some (U, R, S).
Proof.
  unfold shot_run. destruct (Z.eqb_spec (su_ratio s * su_interval s) 0) as [|N]; [discriminate|]. intros Hr R0 I0 N0. assert (Hp : 0 < su_ratio s * su_interval s) by nia.
  split; [exact Hp|]. split; [|exact Hr]. cbn. unfold scalar_forward in Hr. 
  destruct (Z.eq_dec (su_nt s) 0) as [|Nz]; [left; assumption|right].
  destruct (Z.le_gt_cases (su_ratio s * su_interval s) (su_nt s)) as [|Hlt]; [assumption|exfalso].
  match type of Hr with context [fwd_driver ?K ?P ?v ?vis ?vrg ?sr ?f ?nt ?cb ?m] => assert (X : fwd_driver K P v vis vrg sr f nt cb m = None) end.
  { unfold fwd_driver. destruct (Z.leb_spec (su_nt s) 0); [lia|]. rewrite Z.div_small by lia. reflexivity. }
  rewrite X in Hr. discriminate.
Qed.
(** The data at receiver [j] and time [t] agree if the survey areas agree around every cell that a wave can have crossed. *)
Lemma crop_data b vis1 vis2 vrg1 vrg2 store1 store2 U1 R1 S1 U2 R2 S2 : Z.of_nat b < su_nb s1 -> 0 <= su_nt s1 ->
  fvis R_ops (shot_par s1 b) (pw_of (su_pw s1)) vis1 -> fvis R_ops (shot_par s2 b) (pw_of (su_pw s2)) vis2 ->
  shot_run s1 b vis1 vrg1 store1 = Some (U1, R1, S1) -> shot_run s2 b vis2 vrg2 store2 = Some (U2, R2, S2) ->
  forall t j,
  (forall ks ps pr p, loc3 [c_src c] 0 b ks = Some ps -> active_pt nd ps -> loc3 [c_rec c] 0 b j = Some pr -> active_pt nd pr ->
     length p = nd -> dist ps p + dist p pr <= (t - 1) * fd -> crop_near fd p) ->
  nth j (R1 t) 0%R = nth j (R2 t) 0%R.
Proof.
  intros Hb Hnt V1 V2 Run1 Run2 t j Hpath. destruct same_setup as (Qn & Qg & Qv & Qdt & Qr & Qa & Qw & Qf & Qt & Qi & _).
  destruct (su_cfl c nd s1 H1) as (_ & _ & _ & _ & Hr1 & _).
  assert (Hi : 0 <= su_interval s1). { destruct (setup_parts c nd s1 H1) as (_ & _ & _ & _ & _ & _ & _ & Hint & _). unfold set_sampling_interval in Hint. destruct (Z.ltb_spec (c_interval c) 0); [discriminate|]. injection Hint as <-. lia. }
  destruct (run_cb _ _ _ _ _ _ _ _ Run1 ltac:(lia) Hi Hnt) as (Hsr & C1 & F1). destruct (run_cb _ _ _ _ _ _ _ _ Run2 ltac:(lia) ltac:(lia) ltac:(lia)) as (_ & C2 & F2).
  rewrite <- Qr, <- Qi, <- Qt in F2, C2.
  pose proof (su_geom c nd s1 H1 b A1 Hfreq) as G1. pose proof (su_geom c' nd s2 H2 b A2 Hfreq) as G2.
  pose proof (su_src_ok c nd s1 H1 b Hsrc A1) as SO1. pose proof (su_src_ok c' nd s2 H2 b Hsrc A2) as SO2.
  pose proof (su_rec_ok c nd s1 H1 b Hrec A1) as RO1. pose proof (su_rec_ok c' nd s2 H2 b Hrec A2) as RO2.
  destruct (scalar_forward_spec R_ops R_is_ring (shot_par s2 b) (pw_of (su_pw s2)) G2 SO2 RO2 (shot_model s2 b) vis2 vrg2 (su_ratio s1 * su_interval s1) (shot_amps s1 b) (su_nt s1) None store2
    (zero_st R_ops) V2 Hsr C2) as (U3 & R3 & S3 & F3 & _).
  destruct (forward_ignored_source R_ops R_is_ring (shot_par s2 b) (pw_of (su_pw s2)) G2 SO2 RO2 (shot_model s2 b) (shot_amps s2 b) (shot_amps s1 b) (zero_st R_ops) (su_nt s1)
    (su_ratio s1 * su_interval s1) vis2 vis2 vrg2 vrg2 None None store2 store2 U2 R2 S2 U3 R3 S3 V2 V2 Hsr Hnt C2 C2) as (_ & Heq).
  { intros t' _. split; [apply shot_amps_length|]. split.
    - rewrite shot_amps_length. cbn [p_src shot_par scalar_par]. apply (Forall2_len _ _ _ (locs_same true b)).
    - intros k l Hk Hl. apply (amps_same b t' k l Hk Hl Hb). }
  { exact F2. } { exact F3. }
  rewrite (Heq t).
  destruct (loc3 [c_rec c] 0 b j) as [pr|] eqn:Epr.
  2:{ pose proof (loc_none c nd s1 H1 false b j Epr) as N1. pose proof (loc_none c' nd s2 H2 false b j Epr) as N2. cbv iota in N1, N2. apply nth_error_None in N1, N2.
      rewrite !nth_overflow; [reflexivity| |].
      - rewrite (run_length _ _ _ _ _ _ _ _ _ _ _ _ _ _ _ G2 SO2 RO2 V2 Hsr C2 F3). exact N2.
      - rewrite (run_length _ _ _ _ _ _ _ _ _ _ _ _ _ _ _ G1 SO1 RO1 V1 Hsr C1 F1). exact N1. }
  destruct (whole false O b j pr Epr) as [Har|Hir].
  2:{ pose proof (loc_ign c nd s1 H1 false b j pr Epr Hir) as N1. pose proof (loc_ign c' nd s2 H2 false b j pr Epr Hir) as N2. cbv iota in N1, N2.
      rewrite (nth_error_nth _ _ _ (forward_ignored_receiver R_ops R_is_ring _ _ G1 SO1 RO1 _ _ _ _ _ _ _ _ _ _ _ _ V1 Hsr C1 F1 j IGNORE N1 ltac:(unfold IGNORE; lia) t)).
      rewrite (nth_error_nth _ _ _ (forward_ignored_receiver R_ops R_is_ring _ _ G2 SO2 RO2 _ _ _ _ _ _ _ _ _ _ _ _ V2 Hsr C2 F3 j IGNORE N2 ltac:(unfold IGNORE; lia) t)). reflexivity. }
  destruct (loc_at c nd s1 H1 A1 false b j pr Epr Har) as (N1 & I1 & U1'). cbv iota in N1.
  apply (finite_speed R_ops R_is_ring (shot_par s1 b) (pw_of (su_pw s1)) (shot_par s2 b) (pw_of (su_pw s2)) crop_off G1 G2 SO1 RO1 SO2 RO2) with
    (v1 := shot_model s1 b) (v2 := shot_model s2 b) (f := shot_amps s1 b) (nt := su_nt s1) (sr := su_ratio s1 * su_interval s1) (vis1 := vis1) (vis2 := vis2) (vrg1 := vrg1) (vrg2 := vrg2)
    (cb1 := None) (cb2 := None) (st1 := store1) (st2 := store2) (U1 := U1) (S1 := S1) (U2 := U3) (S2 := S3); try assumption.
  - cbn [p_shape shot_par scalar_par]. rewrite off_length, sh1_len. reflexivity.
  - cbn [p_shape shot_par scalar_par]. rewrite sh1_len, sh2_len. reflexivity.
  - cbn. congruence.
  - intros d. cbn. rewrite Qg. reflexivity.
  - intros d. cbn. rewrite Qg. reflexivity.
  - cbn. rewrite Qdt. reflexivity.
  - exact (locs_same true b).
  - exact (locs_same false b).
  - intros q [Lq (l & Hl & Hl0 & Hd)]. cbn [p_shape p_src p_rec p_acc shot_par scalar_par] in Lq, Hl, Hd. rewrite sh1_len in Lq.
    apply In_nth_error in Hl. destruct Hl as [ks Hks]. destruct (loc_of c nd s1 H1 true b ks l Hks) as [ps Hps].
    destruct (whole true O b ks ps Hps) as [Has|His]; [|pose proof (loc_ign c nd s1 H1 true b ks ps Hps His) as G; cbv iota in G; rewrite Hks in G; injection G as ->; unfold IGNORE in Hl0; lia].
    destruct (loc_at c nd s1 H1 A1 true b ks ps Hps Has) as (M1 & J1 & W1). cbv iota in M1. rewrite Hks in M1. injection M1 as ->.
    rewrite (nth_error_nth _ _ _ N1), !unidx_idx in Hd by assumption.
    assert (Hn : crop_near fd (under E1 pad1 q)).
    { apply (Hpath ks ps pr); try assumption; try reflexivity; [apply under_length, LE1|]. rewrite <- W1, <- U1'. rewrite !dist_user by (try apply rel1_length; exact Lq). exact Hd. }
    cbn [p_shape shot_par scalar_par]. split; [apply interior_same; assumption|]. split; [apply v_same; assumption|]. intros d Hd'. rewrite sh1_len in Hd'. apply coef_same; assumption.
Qed.

(** *** Margins *)
Lemma side_area s (c0 : call) (Hs : scalar_setup c0 nd = Some s) d K x y : (d < nd)%nat -> (forall k n, (k < 2 * nd)%nat -> sp_side (c_sp c0) k = Some n -> K <= n) ->
  is_active [c_src c0; c_rec c0] d x -> is_active [c_src c0; c_rec c0] d y ->
  0 <= fst (nth d (su_ext s) (0, 0)) <= Z.max 0 (Z.min x y - K) /\
  Z.min (nth d (last_n nd (t_shape (c_v c0))) 0) (Z.max x y + K + 1) <= snd (nth d (su_ext s) (0, 0)) <= nth d (last_n nd (t_shape (c_v c0))) 0.
Proof.
  intros Hd HK Hx Hy. destruct (su_parts c0 nd s Hs) as (Ls & _ & _ & He & _).
  destruct (survey_area _ _ _ _ He (fun d x H => su_active c0 nd s Hs d x ltac:(lia))) as [_ G].
  specialize (G d ltac:(lia)). cbv zeta in G. destruct G as (G1 & _ & G3 & G4 & _ & G6 & G7). split.
  - destruct (sp_side (c_sp c0) (2 * d)) as [p|] eqn:Ep; [|rewrite G3 by reflexivity; lia]. destruct (G6 p eq_refl) as [G _]. pose proof (G x Hx). pose proof (G y Hy).
    pose proof (HK (2 * d)%nat p ltac:(lia) Ep). lia.
  - destruct (sp_side (c_sp c0) (2 * d + 1)) as [p|] eqn:Ep; [|rewrite G4 by reflexivity; lia]. destruct (G7 p eq_refl) as [G _]. pose proof (G x Hx). pose proof (G y Hy).
    pose proof (HK (2 * d + 1)%nat p ltac:(lia) Ep). lia.
Qed.
Lemma dist_coord p q d : length p = length q -> (d < length p)%nat -> Z.abs (coord d p - coord d q) <= dist p q.
Proof.
  revert q d; induction p as [|x p IH]; intros [|y q] d L Hd; cbn in *; try lia. assert (0 <= dist p q) by (clear; revert q; induction p as [|a p IHp]; intros [|b q]; cbn; try lia; specialize (IHp q); lia).
  destruct d; [unfold coord; cbn; lia|]. specialize (IH q d ltac:(lia) ltac:(lia)). unfold coord in *. cbn. lia.
Qed.
Lemma margin_near K n b j ks ps pr p : (forall k n, (k < 2 * nd)%nat -> sp_side (c_sp c) k = Some n -> K <= n) -> (forall k n, (k < 2 * nd)%nat -> sp_side sp' k = Some n -> K <= n) ->
  (n + 2) * fd <= 2 * K ->
  loc3 [c_src c] 0 b ks = Some ps -> active_pt nd ps -> loc3 [c_rec c] 0 b j = Some pr -> active_pt nd pr -> length p = nd -> dist ps p + dist p pr <= n * fd -> crop_near fd p.
Proof.
  intros K1 K2 HK Hs Has Hr Har Lp Hd d Hlt.
  assert (X : is_active [c_src c; c_rec c] d (coord d ps)). { apply (loc_active c nd O b ks); assumption. }
  assert (Y : is_active [c_src c; c_rec c] d (coord d pr)). { apply (loc_active c nd 1%nat b j); assumption. }
  pose proof (side_area s1 c H1 d K _ _ Hlt K1 X Y) as [B1 B2]. pose proof (side_area s2 c' H2 d K _ _ Hlt K2 X Y) as [B3 B4]. cbn [c_v set_sp] in B4.
  assert (D1 := dist_coord ps p d ltac:(destruct Has; lia) ltac:(destruct Has; lia)). assert (D2 := dist_coord p pr d ltac:(destruct Har; lia) ltac:(lia)).
  set (x := coord d ps) in *. set (y := coord d pr) in *. set (z := coord d p) in *. split; lia.
Qed.
Lemma survey_pad_data K b vis1 vis2 vrg1 vrg2 store1 store2 U1 R1 S1 U2 R2 S2 : Z.of_nat b < su_nb s1 -> 0 <= su_nt s1 ->
  (forall k n, (k < 2 * nd)%nat -> sp_side (c_sp c) k = Some n -> K <= n) -> (forall k n, (k < 2 * nd)%nat -> sp_side sp' k = Some n -> K <= n) -> su_nt s1 * (c_accuracy c / 2) <= 2 * K ->
  fvis R_ops (shot_par s1 b) (pw_of (su_pw s1)) vis1 -> fvis R_ops (shot_par s2 b) (pw_of (su_pw s2)) vis2 ->
  shot_run s1 b vis1 vrg1 store1 = Some (U1, R1, S1) -> shot_run s2 b vis2 vrg2 store2 = Some (U2, R2, S2) ->
  shot_data c s1 b R1 = shot_data c' s2 b R2.
Proof.
  intros Hb Hnt K1 K2 HK V1 V2 Run1 Run2. destruct same_setup as (_ & _ & _ & _ & Qr & _ & _ & _ & Qt & _ & _ & Qf & Qp). unfold shot_data. cbn [c_taper set_sp]. rewrite <- Qr, <- Qt, <- Qf, <- Qp.
  pose proof (Forall2_len _ _ _ (locs_same false b)) as HL. cbv iota in HL. rewrite <- HL. apply map_ext. intros j. f_equal. apply map_ext_in. intros t Ht. apply in_seq in Ht.
  apply (crop_data b vis1 vis2 vrg1 vrg2 store1 store2 U1 R1 S1 U2 R2 S2 Hb Hnt V1 V2 Run1 Run2). intros ks ps pr p Hps Has Hpr Har Lp Hd.
  apply (margin_near K (Z.of_nat t - 1) b j ks ps pr p K1 K2); try assumption. rewrite (su_fd c nd s1 H1) in HK. pose proof fd_nonneg. nia.
Qed.
End Crop.
