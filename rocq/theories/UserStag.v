(** * Accepted calls of [acoustic] and [elastic]: what both have in common. *)
From Coq Require Import List ZArith QArith Reals Lra Lia Bool Permutation.
From Verif Require Import Ops Sums Grid Stencil StencilOrder ScalarModel ScalarRefine ScalarFunc ScalarApi ScalarPhys GeomModel Geom Geom2 GeomLocs SetupModel RealModel RealThm Resample ResampleThm
  Stag StagKernel StagRefine StagEqs StagSetup UserModel UserThm UserCrop UserEqs UserStagModel.
Import ListNotations.
Local Open Scope Z_scope.

(** ** Specification: grid, convolutional PML and sources, in the user's coordinates. *)
Record grid := mkgrid { gr_nd : nat; gr_acc : acc; gr_h : nat -> R; gr_dt : R; gr_vel : R; gr_freq : R; gr_pw : nat -> Z * Z; gr_ext : nat -> Z * Z }.
(** How deep position [x] is in the PML: 0 from the first to the last cell of the box, 1 at the outer end. *)
Definition gdepth (pw e : Z * Z) (x : R) : R :=
  (if Rlt_dec x (IZR (fst e)) then (if (fst pw =? 0)%Z then 0 else Rmin 1 ((IZR (fst e) - x) / IZR (fst pw)))
   else if Rlt_dec (IZR (snd e - 1)) x then (if (snd pw =? 0)%Z then 0 else Rmin 1 ((x - IZR (snd e - 1)) / IZR (snd pw)))
   else 0)%R.
Definition gthickest (g : grid) : R :=
  fold_right Rmax 0%R (flat_map (fun d => [IZR (fst (gr_pw g d)) * gr_h g d; IZR (snd (gr_pw g d)) * gr_h g d])%R (seq 0 (gr_nd g))).
Definition gdamping (g : grid) (d : nat) (x : R) : R := (3 * gr_vel g * ln 1000 / (2 * gthickest g) * gdepth (gr_pw g d) (gr_ext g d) x ^ 2)%R.
Definition gshift (g : grid) (d : nat) (x : R) : R := (PI * gr_freq g * (1 - gdepth (gr_pw g d) (gr_ext g d) x))%R.
Definition gdecay (g : grid) (d : nat) (x : R) : R := exp (- (gdamping g d x + gshift g d x) * Rabs (gr_dt g)).
Definition gpml_a (g : grid) (d : nat) (x : R) : R := if Req_EM_T (gdepth (gr_pw g d) (gr_ext g d) x) 0 then 0%R else gdecay g d x.
Definition gpml_b (g : grid) (d : nat) (x : R) : R := (gdamping g d x / (gdamping g d x + gshift g d x) * (gdecay g d x - 1))%R.
(** The cells of a quantity that lies at half positions in the dimensions [h]: those between two cells of the box with its PML. *)
Definition gcells (g : grid) (h : nat -> bool) (x : pt) : Prop :=
  length x = gr_nd g /\ forall d, (d < gr_nd g)%nat -> fst (gr_ext g d) - fst (gr_pw g d) <= coord d x < snd (gr_ext g d) + snd (gr_pw g d) - (if h d then 1 else 0).
(** The position along [d]. *)
Definition gpos (half : bool) (d : nat) (x : pt) : R := (IZR (coord d x) + (if half then 1 / 2 else 0))%R.
(** The derivative along [d] at half or at whole positions. *)
Definition gdx (g : grid) (half : bool) (d : nat) (f : pt -> R) : pt -> R :=
  if half then SDH1 (K := R_ops) (gr_acc g) (1 / gr_h g d)%R d f else SD1 (K := R_ops) (gr_acc g) (1 / gr_h g d)%R d f.

Definition opts_grid (o : opts) (nd : nat) (ratio : Z) (a : acc) (vel : R) (ext : list (Z * Z)) : grid :=
  mkgrid nd a (fun d => nth d (per_list (o_gs o) nd) 1%R) (o_dt o / IZR ratio) vel (match o_freq o with Some f => f | None => 25 end)%R
    (fun d => (nth (2 * d) (per_list (o_pw o) (2 * nd)) 0, nth (2 * d + 1) (per_list (o_pw o) (2 * nd)) 0)) (fun d => nth d ext (0, 0)).
(** The user's model at [x], or beyond the survey area at its nearest cell. *)
Definition model_at (nd : nat) (ext : list (Z * Z)) (m : tens R) (b : nat) (x : pt) : R :=
  let y := map (fun d => Z.min (Z.max (coord d x) (fst (nth d ext (0, 0)))) (snd (nth d ext (0, 0)) - 1)) (seq 0 nd) in
  if (length (t_shape m) =? nd)%nat then t_at m y else t_at m ((if hd 0 (t_shape m) =? 1 then 0 else Z.of_nat b) :: y).
(** The amplitudes of the sources at [x] in internal step [t]. *)
Definition source_at (o : opts) (ratio : Z) (src : option loct) (amps : option (tens R)) (b t : nat) (x : pt) : R :=
  match src, amps with
  | Some l, Some a =>
      let ps := nth b (lt_data l) [] in
      sumf (K := R_ops) (seq 0 (length ps)) (fun j => if (negb (coord 0 x =? IGNORE) && if pt_eq_dec (nth j ps []) x then true else false)%bool
        then nth t (upsample (Z.to_nat ratio) (o_ft o) (o_tp o) (o_taper o)
                      (map (fun i => t_at a [Z.of_nat b; Z.of_nat j; Z.of_nat i]) (seq 0 (Z.to_nat (nth 2 (t_shape a) 0))))) 0%R
        else 0%R)
  | _, _ => 0%R
  end.
(** The trace of a receiver at [q]; [w]: the wavefield in each internal step, [n]: the number of steps made, of [nt]. *)
Definition trace_at (o : opts) (ratio nt : Z) (n : nat) (w : nat -> pt -> R) (q : pt) : list R :=
  downsample (Z.to_nat ratio) (o_ft o) (o_tp o) (o_taper o) 0%R
    (map (fun t => if (negb (coord 0 q =? IGNORE) && (t <? n)%nat)%bool then w t q else 0%R) (seq 0 (Z.to_nat nt))).
Definition ksteps (o : opts) (s : setup) : nat := Z.to_nat (su_nt s / (o_interval o * su_ratio s) * (o_interval o * su_ratio s)).

(** ** Lemmas *)
Lemma stag_fdp_length a nd : length (stag_fdp a nd) = (2 * nd)%nat.
Proof. unfold stag_fdp. induction nd as [|nd IH]; [reflexivity|]. cbn [repeat concat]. rewrite app_length, IH. cbn [length]. lia. Qed.
Lemma stag_fdp_nth a nd d : (d < nd)%nat -> nth (2 * d) (stag_fdp a nd) 0 = a / 2 /\ nth (2 * d + 1) (stag_fdp a nd) 0 = a / 2 - 1.
Proof.
  unfold stag_fdp. revert nd. induction d as [|d IH]; intros [|nd] H; try lia; [split; reflexivity|].
  cbn [repeat concat]. replace (2 * Datatypes.S d)%nat with (2 + 2 * d)%nat by lia. cbn [app plus nth]. apply IH. lia.
Qed.
Lemma clamp_pos x : (0 <= x)%R -> clamp01 x = Rmin 1 x.
Proof. intros H. unfold clamp01. rewrite Rmax_left by lra. apply Rmin_comm. Qed.
Lemma clamp_neg x : (x <= 0)%R -> clamp01 x = 0%R.
Proof. intros H. unfold clamp01. rewrite Rmax_right by lra. apply Rmin_left. lra. Qed.
Lemma quot_sign (x : R) w : 0 <= w -> ((0 <= x -> 0 <= if (w =? 0)%Z then 0 else x / IZR w) /\ (x <= 0 -> (if (w =? 0)%Z then 0 else x / IZR w) <= 0))%R.
Proof.
  intros Hw. destruct (Z.eqb_spec w 0) as [|N]; [lra|]. assert (0 < / IZR w)%R by (apply Rinv_0_lt_compat, IZR_lt; lia). unfold Rdiv.
  split; intros H0; [apply Rmult_le_pos; lra|]. rewrite <- (Rmult_0_l (/ IZR w)). apply Rmult_le_compat_r; lra.
Qed.
(** The fraction that the code computes, [y] = the index of the cell, [half] = 0 or 1/2. *)
Lemma frac_gdepth fd pw0 pw1 lo hi n y (half : R) : n = hi - lo + pw0 + pw1 + 2 * fd - 1 -> 0 <= pw0 -> 0 <= pw1 -> lo < hi ->
  pml_frac pw0 pw1 (IZR (fd + pw0)) (IZR (n - 1 - (fd - 1) - pw1)) (half + IZR y) = gdepth (pw0, pw1) (lo, hi) (IZR (y - (fd + pw0) + lo) + half).
Proof.
  intros Hn H0 H1 He. unfold pml_frac, gdepth. cbn [fst snd].
  set (x := (IZR (y - (fd + pw0) + lo) + half)%R).
  replace (IZR (fd + pw0) - (half + IZR y))%R with (IZR lo - x)%R by (unfold x; rewrite !plus_IZR, minus_IZR, !plus_IZR; lra).
  replace (half + IZR y - IZR (n - 1 - (fd - 1) - pw1))%R with (x - IZR (hi - 1))%R.
  2:{ unfold x. replace (n - 1 - (fd - 1) - pw1) with (hi - 1 - lo + (fd + pw0)) by lia. rewrite !plus_IZR, !minus_IZR, !plus_IZR. lra. }
  assert (L : (IZR lo <= IZR (hi - 1))%R) by (apply IZR_le; lia).
  destruct (quot_sign (IZR lo - x) pw0 H0) as [A1 A2]. destruct (quot_sign (x - IZR (hi - 1)) pw1 H1) as [B1 B2].
  destruct (Rlt_dec x (IZR lo)) as [C|C].
  - rewrite Rmax_left by (apply Rle_trans with 0%R; [apply B2; lra|apply A1; lra]). rewrite clamp_pos by (apply A1; lra). destruct (pw0 =? 0); [apply Rmin_right; lra|reflexivity].
  - destruct (Rlt_dec (IZR (hi - 1)) x) as [D|D].
    + rewrite Rmax_right by (apply Rle_trans with 0%R; [apply A2; lra|apply B1; lra]). rewrite clamp_pos by (apply B1; lra). destruct (pw1 =? 0); [apply Rmin_right; lra|reflexivity].
    + apply clamp_neg, Rmax_lub; [apply A2; lra|apply B2; lra].
Qed.
Lemma gdepth_range pw e x : 0 <= fst pw -> 0 <= snd pw -> (0 <= gdepth pw e x <= 1)%R.
Proof.
  intros Hp Hq. unfold gdepth. assert (G : forall y w, (0 <= y)%R -> 0 <= w -> (0 <= (if (w =? 0)%Z then 0 else Rmin 1 (y / IZR w)) <= 1)%R).
  { intros y w Hy Hw. destruct (quot_sign y w Hw) as [Q _]. destruct (Z.eqb_spec w 0); [lra|]. split; [apply Rmin_glb; [lra|apply Q, Hy]|apply Rmin_l]. }
  destruct (Rlt_dec _ _); [apply G; [lra|exact Hp]|]. destruct (Rlt_dec _ _); [apply G; [lra|exact Hq]|lra].
Qed.
(** No PML in the box. *)
Lemma gpml_inside g d x : gdepth (gr_pw g d) (gr_ext g d) x = 0%R -> gpml_a g d x = 0%R /\ gpml_b g d x = 0%R.
Proof.
  intros H. unfold gpml_a, gpml_b, gdamping. rewrite H. destruct (Req_EM_T 0 0); [|lra]. split; [reflexivity|].
  replace (3 * gr_vel g * ln 1000 / (2 * gthickest g) * 0 ^ 2)%R with 0%R by ring. unfold Rdiv. rewrite Rmult_0_l, Rmult_0_l. reflexivity.
Qed.
Lemma gdepth_box g d (half : bool) x : fst (gr_ext g d) <= coord d x < snd (gr_ext g d) - (if half then 1 else 0) -> gdepth (gr_pw g d) (gr_ext g d) (gpos half d x) = 0%R.
Proof.
  intros H. unfold gdepth, gpos. assert (IZR (fst (gr_ext g d)) <= IZR (coord d x))%R by (apply IZR_le; lia).
  assert (IZR (coord d x) + (if half then 1 else 0) <= IZR (snd (gr_ext g d) - 1))%R by (destruct half; [rewrite <- plus_IZR|rewrite Rplus_0_r]; apply IZR_le; lia).
  destruct (Rlt_dec _ _); [destruct half; lra|]. destruct (Rlt_dec _ _); [destruct half; lra|reflexivity].
Qed.

Section Accepted.
Variables (models : list (tens R)) (o : opts) (amps : list (option (tens R))) (src rec : list (option loct)) (vmin vmax : R) (nw nd : nat) (s : setup).
Hypothesis Hs : stag_setup models o amps src rec vmin vmax nw nd = Some s.
Notation E := (su_ext s).
Notation fdp := (stag_fdp (o_accuracy o) nd).
Notation pad := (sum_pad fdp (su_pw s)).
Notation locs := (src ++ rec).
Notation ushape := (last_n nd (t_shape (hd (mktens [] (fun _ => 0%R)) models))).
Notation wfs0 := (repeat None nw).
Notation modes := (repeat Replicate (length models)).
Notation fd := (fd_pad (su_acc s)).
Notation PW := (pw_of (su_pw s)).
Notation lo d := (fst (nth d E (0, 0))).
Notation hi d := (snd (nth d E (0, 0))).

Lemma gs_parts :
  get_n_batch src wfs0 = Some (su_nb s) /\
  set_grid_spacing (o_gs o) nd = Some (su_gs s) /\
  cfl_condition_n (su_gs s) (o_dt o) (su_vel s) cfl_eps cfl_c_max = Some (su_dt s, su_ratio s) /\
  set_accuracy (o_accuracy o) = Some (su_acc s) /\
  set_pml_width (o_pw o) nd = Some (su_pw s) /\
  set_pml_freq (o_freq o) (su_dt s) = Some (su_freq s) /\
  set_nt (o_nt o) (map oshape amps) (su_ratio s) = Some (su_nt s) /\
  set_sampling_interval (o_interval o) = Some (su_interval s) /\
  set_frac (o_ft o) = Some (su_ft s) /\ set_frac (o_tp o) = Some (su_tp s) /\
  set_max_vel (o_max_vel o) vmax = Some (su_vel s) /\
  check_amplitudes_locations (map oshape amps) src = true /\
  source_amplitudes amps (su_nb s) (su_nt s) (su_ratio s) (su_ft s) (su_tp s) (o_taper o) = Some (su_amps s) /\
  extract_survey 0%R models src rec wfs0 (o_sp o) None fdp (su_pw s) modes (su_nb s) nd = Some (E, su_models s, su_src s, su_rec s).
Proof.
  pose proof Hs as H. unfold stag_setup, setup_propagator in H.
  repeat match type of H with
  | match ?e with Some _ => _ | None => None end = _ => let E := fresh "E" in destruct e as [?|] eqn:E; [|discriminate]
  | (if negb ?e then None else _) = _ => let E := fresh "E" in destruct e eqn:E; cbn [negb] in H; [|discriminate]
  | (let (_, _) := ?e in _) = _ => let E := fresh "D" in destruct e eqn:E
  end.
  injection H as <-. cbn. subst. repeat split; assumption.
Qed.
Lemma gs_survey : extract_survey 0%R models src rec wfs0 (o_sp o) None fdp (su_pw s) modes (su_nb s) nd = Some (E, su_models s, su_src s, su_rec s).
Proof. apply gs_parts. Qed.
Lemma gs_fd : o_accuracy o / 2 = fd. Proof. apply (set_accuracy_spec (o_accuracy o)), gs_parts. Qed.
Lemma gs_fd1 : 1 <= fd. Proof. destruct (su_acc s); cbn; lia. Qed.
Lemma gs_Lfd : length fdp = (2 * nd)%nat. Proof. apply stag_fdp_length. Qed.
Lemma gs_Lpw : length (su_pw s) = (2 * nd)%nat.
Proof. destruct gs_parts as (_ & _ & _ & _ & H & _). apply set_pml_width_spec in H. tauto. Qed.
Lemma gs_pw0 : Forall (fun x => 0 <= x) (su_pw s).
Proof. destruct gs_parts as (_ & _ & _ & _ & H & _). apply set_pml_width_spec in H. tauto. Qed.
Lemma gs_fd0 : Forall (fun x => 0 <= x) fdp.
Proof.
  apply Forall_forall. intros x Hx. unfold stag_fdp in Hx. apply in_concat in Hx. destruct Hx as (l & Hl & Hx). apply repeat_spec in Hl. subst l.
  rewrite gs_fd in Hx. pose proof gs_fd1. cbn in Hx. lia.
Qed.
Lemma gs_models : models <> [].
Proof. pose proof gs_survey as H. unfold extract_survey in H. destruct models; [discriminate|]. congruence. Qed.
Lemma gs_ushape : match models with m0 :: _ => last_n nd (t_shape m0) = ushape | [] => True end.
Proof. destruct models; reflexivity || exact I. Qed.
Lemma gs_nd : (0 < nd)%nat.
Proof.
  destruct (Nat.eq_dec nd 0) as [E0|]; [|lia]. exfalso. pose proof gs_survey as H. pose proof gs_models as N. unfold extract_survey in H. destruct models as [|m0 ml]; [congruence|].
  destruct (negb _ && _); [discriminate|]. cbv zeta in H. rewrite E0 in H.
  assert (Z0 : @last_n Z 0 (t_shape m0) = []) by (unfold last_n; rewrite Nat.sub_0_r; apply skipn_all). rewrite Z0 in H. discriminate.
Qed.
Lemma gs_run : length ushape = nd /\ length E = nd /\ check_locations_are_within_model ushape locs = true /\
  get_survey_extents_from_locations ushape locs (o_sp o) = Some E /\ extract_models 0%R models E pad modes (su_nb s) = Some (su_models s).
Proof.
  destruct (run_parts 0%R _ _ _ _ _ _ _ _ _ _ _ _ _ _ _ gs_Lfd gs_Lpw gs_nd gs_survey) as (Hm & H1 & H2 & H3 & H4 & H5 & _).
  destruct models as [|m0 ml]; [congruence|]. cbn [hd].
  split; [exact H1|]. split; [exact H2|]. split; [exact H3|]. split; [|exact H5].
  destruct H4 as [(H & _)|H]; [|exact H]. exfalso. unfold get_survey_extents_from_wavefields in H. cbv zeta in H.
  destruct (negb _ || negb _); [discriminate|]. rewrite present_none in H. discriminate.
Qed.
Lemma gs_active d x : (d < nd)%nat -> is_active locs d x -> 0 <= x < nth d ushape 0.
Proof.
  intros Hd Hx. destruct gs_run as (Ls & _ & Hc & _). apply is_active_In in Hx. unfold active in Hx. apply in_flat_map in Hx.
  destruct Hx as (L & HL & Hx). unfold check_locations_are_within_model in Hc. rewrite !andb_true_iff in Hc. destruct Hc as [_ Hc].
  rewrite forallb_forall in Hc. specialize (Hc L HL). rewrite forallb_forall in Hc. specialize (Hc d). rewrite in_seq, Ls in Hc. specialize (Hc ltac:(lia)).
  apply andb_true_iff in Hc. destruct Hc as [_ Hc].
  destruct (lmin (dim_locs d L)) as [a|] eqn:Ea; [|destruct (dim_locs d L); [contradiction|discriminate]].
  destruct (lmax (dim_locs d L)) as [b|] eqn:Eb; [|destruct (dim_locs d L); [contradiction|discriminate]].
  apply lmin_spec in Ea. apply lmax_spec in Eb. destruct Ea as [_ Ea]. destruct Eb as [_ Eb].
  specialize (Ea _ Hx). specialize (Eb _ Hx). apply andb_true_iff in Hc. rewrite Z.leb_le, Z.ltb_lt in Hc. lia.
Qed.
Notation tin w := (if w : bool then src else rec).
Notation tout w := (if w : bool then su_src s else su_rec s).
Lemma tin_In w k sh j p : loc3 (tin w) k sh j = Some p -> exists L ps, In (Some L) locs /\ In ps (lt_data L) /\ In p ps.
Proof. intros H. destruct (loc3_In _ _ _ _ _ H) as (L & ps & A & B). exists L, ps. split; [apply in_app_iff; destruct w; auto|exact B]. Qed.
Lemma gs_loc_active w k sh j p d : loc3 (tin w) k sh j = Some p -> active_pt nd p -> (d < nd)%nat -> is_active locs d (coord d p).
Proof. intros Hl [_ Ha] Hd. destruct (tin_In _ _ _ _ _ Hl) as (L & ps & A & B & C). exists L, ps, p. repeat split; try assumption. apply Ha, Hd. Qed.

(** The survey area is not empty. *)
Hypothesis Ha : o_sp o = SPnone \/ some_active nd src \/ some_active nd rec.
Lemma gs_ext_ok d : (d < nd)%nat -> 0 <= lo d < hi d /\ hi d <= nth d ushape 0.
Proof.
  intros Hd. destruct gs_run as (Ls & LE & Hc & HE & _).
  destruct (survey_area _ _ _ _ HE) as [_ H]; [intros; apply gs_active; [lia|assumption]|].
  destruct (H d ltac:(lia)) as (H1 & _ & H3 & H4 & H5 & _). cbv zeta in *.
  assert (G : forall w, some_active nd (tin w) -> 0 <= lo d < hi d /\ hi d <= nth d ushape 0).
  { intros w (k & sh & j & p & Hl & Hp). specialize (H5 _ (gs_loc_active w k sh j p d Hl Hp Hd)). lia. }
  destruct Ha as [Ha'|[Ha'|Ha']]; [|exact (G true Ha')|exact (G false Ha')].
  rewrite Ha' in H3, H4. rewrite H3, H4 by reflexivity.
  unfold check_locations_are_within_model in Hc. rewrite !andb_true_iff in Hc. destruct Hc as [[_ Hc] _]. rewrite forallb_forall in Hc.
  specialize (Hc (nth d ushape 0) ltac:(apply nth_In; lia)). apply Z.ltb_lt in Hc. lia.
Qed.
Lemma gs_whole d : (d < nd)%nat -> o_sp o = SPnone -> hi d = nth d ushape 0.
Proof.
  intros Hd H0. destruct gs_run as (Ls & LE & Hc & HE & _).
  destruct (survey_area _ _ _ _ HE) as [_ H]; [intros; apply gs_active; [lia|assumption]|].
  destruct (H d ltac:(lia)) as (_ & _ & _ & H4 & _). cbv zeta in *. apply H4. rewrite H0. reflexivity.
Qed.
Lemma gs_ext_in : ext_in E ushape.
Proof. destruct gs_run as (Ls & LE & _). split; [lia|]. intros d Hd. pose proof (gs_ext_ok d ltac:(lia)). lia. Qed.
Lemma gs_LE : length E = nd. Proof. apply gs_run. Qed.
Lemma gs_pad d : (d < nd)%nat -> nth (2 * d) pad 0 = fd + fst (PW d) /\ nth (2 * d + 1) pad 0 = fd - 1 + snd (PW d).
Proof.
  intros Hd. rewrite !sum_pad_nth by (rewrite ?gs_Lfd, ?gs_Lpw; lia). destruct (stag_fdp_nth (o_accuracy o) nd d Hd) as [-> ->]. rewrite gs_fd. split; reflexivity.
Qed.
Lemma gs_pw d : 0 <= fst (PW d) /\ 0 <= snd (PW d).
Proof.
  assert (G : forall k, 0 <= nth k (su_pw s) 0).
  { intros k. destruct (Nat.lt_ge_cases k (length (su_pw s))) as [H|H]; [|rewrite nth_overflow by exact H; lia]. pose proof gs_pw0 as F. rewrite Forall_forall in F. apply F, nth_In, H. }
  split; apply G.
Qed.
Lemma gs_model k m : nth_error models k = Some m -> exists m', nth_error (su_models s) k = Some m' /\ (mbatch nd m = 1 \/ mbatch nd m = su_nb s) /\
  t_shape m' = mbatch nd m :: padded_shape E pad /\
  forall b q, 0 <= b < mbatch nd m -> length q = nd -> t_at m' (b :: q) = mval nd m b (nearest E (under E pad q)).
Proof.
  intros Hk. destruct gs_run as (Ls & LE & _ & _ & Hm).
  destruct (extract_models_spec 0%R models E pad modes (su_nb s) nd (su_models s) ushape (pad_length _ _ _ gs_Lfd gs_Lpw gs_nd) gs_nd gs_ushape gs_ext_in Hm) as (H1 & _ & H3).
  assert (Hl : (k < length models)%nat) by (apply nth_error_Some; congruence).
  destruct (nth_error (su_models s) k) as [m'|] eqn:Em; [|apply nth_error_None in Em; lia]. exists m'. split; [reflexivity|].
  apply (H3 k m Replicate m' Hk); [|exact Em]. rewrite (nth_error_nth' _ Replicate) by (rewrite repeat_length; exact Hl). rewrite nth_repeat. reflexivity.
Qed.
Lemma gs_shape : su_shape s = padded_shape E pad.
Proof.
  pose proof gs_models as N. destruct (nth_error models 0) as [m0|] eqn:Em; [|destruct models; [congruence|discriminate]]. destruct (gs_model O m0 Em) as (m' & Hm & _ & Hsh & _).
  unfold su_shape. rewrite (nth_error_nth _ _ _ Hm), Hsh. reflexivity.
Qed.
Lemma gs_rank : length (su_shape s) = nd. Proof. rewrite gs_shape, padded_shape_length. apply gs_LE. Qed.
Lemma gs_dim d : (d < nd)%nat -> nth d (su_shape s) 0 = hi d - lo d + fst (PW d) + snd (PW d) + 2 * fd - 1.
Proof.
  intros Hd. rewrite gs_shape. unfold padded_shape. rewrite nth_map_seq by (rewrite gs_LE; lia). destruct (gs_pad d Hd) as [-> ->]. lia.
Qed.
Lemma gs_cfl : (su_gs s <> [] /\ Forall (fun g => 0 < g) (su_gs s) /\ 0 < su_vel s /\ o_dt o <> 0 /\ (1 <= su_ratio s)%Z /\ su_dt s * IZR (su_ratio s) = o_dt o)%R.
Proof.
  destruct gs_parts as (_ & _ & H & _). apply cfl_thm in H; [|unfold cfl_eps; lra|unfold cfl_c_max; lra]. tauto.
Qed.
Lemma gs_dt0 : (su_dt s <> 0)%R.
Proof. destruct gs_cfl as (_ & _ & _ & H & _ & G). intros E0. rewrite E0 in G. lra. Qed.
Lemma gs_interval : su_interval s = o_interval o.
Proof. destruct gs_parts as (_ & _ & _ & _ & _ & _ & _ & H & _). unfold set_sampling_interval in H. destruct (_ <? 0); [discriminate|]. congruence. Qed.
Lemma gs_fracs : su_ft s = o_ft o /\ su_tp s = o_tp o.
Proof.
  destruct gs_parts as (_ & _ & _ & _ & _ & _ & _ & _ & H1 & H2 & _). unfold set_frac in H1, H2.
  destruct (_ && _)%bool in H1; [|discriminate]. destruct (_ && _)%bool in H2; [|discriminate]. split; congruence.
Qed.
Hypothesis Hf : o_freq o <> Some 0%R.
Lemma gs_freq : (su_freq s = match o_freq o with Some f => f | None => 25 end /\ 0 < su_freq s)%R.
Proof.
  destruct gs_parts as (_ & _ & _ & _ & _ & H & _). apply set_pml_freq_spec in H. destruct H as (_ & H0 & H1). split; [exact H1|].
  destruct (Req_dec (su_freq s) 0) as [H2|]; [|lra]. exfalso. destruct (o_freq o) as [f|]; [apply Hf; congruence|lra].
Qed.
Lemma gs_gs : su_gs s = per_list (o_gs o) nd /\ length (su_gs s) = nd /\ Forall (fun g => 0 < g)%R (su_gs s).
Proof. destruct gs_parts as (_ & H & _). apply set_grid_spacing_spec in H. tauto. Qed.

(** *** The grid *)
Notation G := (opts_grid o nd (su_ratio s) (su_acc s) (su_vel s) E).
Lemma g_pw d : gr_pw G d = PW d.
Proof. destruct gs_parts as (_ & _ & _ & _ & H & _). apply set_pml_width_spec in H. destruct H as (_ & _ & ->). reflexivity. Qed.
Lemma g_h d : gr_h G d = nth d (su_gs s) 1%R. Proof. destruct gs_gs as (E1 & _). rewrite E1. reflexivity. Qed.
Lemma g_dt : gr_dt G = su_dt s.
Proof. cbn. destruct gs_cfl as (_ & _ & _ & _ & Hr & Hd). rewrite <- Hd. field. apply not_0_IZR. lia. Qed.
Lemma g_thick : gthickest G = max_pml PW (su_gs s).
Proof.
  destruct gs_gs as (E1 & L & F). rewrite max_pml_thickest; [|rewrite L; apply gs_nd|intros d; apply gs_pw|exact F].
  unfold gthickest. change (gr_nd G) with nd. rewrite L. f_equal. rewrite !flat_map_concat_map. f_equal. apply map_ext_in. intros d Hd. apply in_seq in Hd.
  rewrite g_pw, g_h. rewrite (nth_indep _ 1%R 0%R) by (rewrite L; lia). reflexivity.
Qed.
Lemma g_thick0 d : (d < nd)%nat -> max_pml PW (su_gs s) = 0%R -> PW d = (0, 0).
Proof.
  intros Hd H0. rewrite <- g_thick in H0. unfold gthickest in H0. destruct gs_gs as (E1 & L & F).
  assert (Hh : (0 < gr_h G d)%R). { rewrite g_h. rewrite Forall_forall in F. apply F, nth_In. rewrite L. exact Hd. }
  destruct (fold_right_Rmax_ge (flat_map (fun d => [IZR (fst (gr_pw G d)) * gr_h G d; IZR (snd (gr_pw G d)) * gr_h G d])%R (seq 0 nd)) 0%R) as [_ Q].
  change (gr_nd G) with nd in H0. rewrite H0 in Q.
  assert (Q1 := Q (IZR (fst (gr_pw G d)) * gr_h G d)%R ltac:(apply in_flat_map; exists d; split; [apply in_seq; lia|left; reflexivity])).
  assert (Q2 := Q (IZR (snd (gr_pw G d)) * gr_h G d)%R ltac:(apply in_flat_map; exists d; split; [apply in_seq; lia|right; left; reflexivity])).
  rewrite g_pw in Q1, Q2. destruct (gs_pw d) as [P1 P2].
  assert (Z1 : forall z, 0 <= z -> (IZR z * gr_h G d <= 0)%R -> z = 0).
  { intros z Hz Q0. destruct (Z.eq_dec z 0) as [|N]; [assumption|]. exfalso. assert (0 < IZR z)%R by (apply IZR_lt; lia). assert (0 < IZR z * gr_h G d)%R by (apply Rmult_lt_0_compat; assumption). lra. }
  apply Z1 in Q1, Q2; try assumption. destruct (PW d). cbn in *. congruence.
Qed.
(** The user's coordinate of index [y] of dimension [d]. *)
Definition kcoord (d : nat) (y : Z) : Z := y - (fd + fst (PW d)) + lo d.
Variable S : sys.
Variable pos : sC S -> nat.
Variable b : nat.
Notation P := (kind_par S pos s b).
Lemma g_prof h d y : (d < nd)%nat ->
  sp_a P h d y = gpml_a G d (IZR (kcoord d y) + (if h then 1 / 2 else 0))%R /\ sp_b P h d y = gpml_b G d (IZR (kcoord d y) + (if h then 1 / 2 else 0))%R.
Proof.
  intros Hd. cbn [sp_a sp_b kind_par stag_par]. unfold pml_profile, setup_pml. cbv zeta.
  set (half := (if h then (1 / 2)%R else 0%R)).
  destruct (gs_pw d) as [P0 P1]. pose proof (gs_ext_ok d Hd) as HE.
  rewrite (frac_gdepth fd (fst (PW d)) (snd (PW d)) (lo d) (hi d) (nth d (su_shape s) 0) y half (gs_dim d Hd) P0 P1 ltac:(lia)).
  set (x := (IZR (kcoord d y) + half)%R). fold (kcoord d y). fold x. rewrite <- !surjective_pairing.
  assert (ED : gdepth (PW d) (nth d E (0, 0)) x = gdepth (gr_pw G d) (gr_ext G d) x) by (rewrite g_pw; reflexivity). rewrite ED.
  set (e := gdepth (gr_pw G d) (gr_ext G d) x).
  assert (He : (0 <= e <= 1)%R) by (apply gdepth_range; rewrite g_pw; apply gs_pw).
  pose proof gs_freq as [F1 F2]. destruct gs_cfl as (_ & _ & V & _). pose proof ln_1000 as LN. pose proof PI_RGT_0 as HPI.
  destruct (Req_EM_T (max_pml PW (su_gs s)) 0) as [T0|T0].
  - assert (E0 : e = 0%R). { unfold e, gdepth. rewrite g_pw, (g_thick0 d Hd T0). cbn [fst snd]. rewrite Z.eqb_refl. destruct (Rlt_dec _ _); [reflexivity|]. destruct (Rlt_dec _ _); reflexivity. }
    cbn [prof_a prof_b]. destruct (gpml_inside G d x E0) as [-> ->]. split; reflexivity.
  - assert (TP : (0 < max_pml PW (su_gs s))%R).
    { rewrite <- g_thick in *. unfold gthickest in *. destruct (fold_right_Rmax_ge (flat_map (fun d => [IZR (fst (gr_pw G d)) * gr_h G d; IZR (snd (gr_pw G d)) * gr_h G d])%R (seq 0 (gr_nd G))) 0%R) as [Q _]. lra. }
    assert (SG : (- (1 + 2) * su_vel s * ln (1 / 1000) / (2 * max_pml PW (su_gs s)) * e ^ 2 = gdamping G d x)%R).
    { unfold gdamping. fold e. rewrite g_thick, ln_thousandth. change (gr_vel G) with (su_vel s). field. exact T0. }
    assert (AL : (PI * su_freq s * (1 - e) = gshift G d x)%R) by (unfold gshift; fold e; rewrite F1; reflexivity).
    rewrite SG, AL.
    assert (SA : (gdamping G d x + gshift G d x <> 0)%R).
    { rewrite <- SG, <- AL, ln_thousandth.
      assert (S0 : (0 < 3 * su_vel s * ln 1000 / (2 * max_pml PW (su_gs s)))%R).
      { apply Rmult_lt_0_compat; [repeat apply Rmult_lt_0_compat; lra|]. apply Rinv_0_lt_compat. lra. }
      replace (- (1 + 2) * su_vel s * - ln 1000 / (2 * max_pml PW (su_gs s)) * e ^ 2)%R with (3 * su_vel s * ln 1000 / (2 * max_pml PW (su_gs s)) * e ^ 2)%R by (field; exact T0).
      set (s0 := (3 * su_vel s * ln 1000 / (2 * max_pml PW (su_gs s)))%R) in *.
      assert (A0 : (0 < PI * su_freq s)%R) by (apply Rmult_lt_0_compat; lra).
      destruct (Req_dec e 0) as [->|N0].
      - replace (s0 * 0 ^ 2 + PI * su_freq s * (1 - 0))%R with (PI * su_freq s)%R by ring. lra.
      - assert (0 < s0 * e ^ 2)%R by (apply Rmult_lt_0_compat; [assumption|apply pow_lt; lra]).
        assert (0 <= PI * su_freq s * (1 - e))%R by (apply Rmult_le_pos; lra). lra. }
    unfold rdiv. destruct (Req_EM_T _ 0) as [|_]; [contradiction|]. cbn [prof_a prof_b]. unfold gpml_a, gpml_b, gdecay. fold e. rewrite g_dt. split; reflexivity.
Qed.
Lemma g_geom : sgeom S R_ops P PW.
Proof.
  destruct gs_gs as (_ & L & F). apply stag_par_geom.
  - rewrite L. symmetry. apply gs_rank.
  - exact F.
  - rewrite gs_rank. intros d Hd. destruct (gs_pw d). rewrite (gs_dim d Hd). pose proof (gs_ext_ok d Hd). lia.
  - apply gs_dt0.
  - apply gs_cfl.
  - apply gs_freq.
Qed.

(** *** Coordinates *)
Notation rl := (rel E pad).
Lemma krl_length x : length (rl x) = nd. Proof. rewrite rel_length. apply gs_LE. Qed.
Lemma coord_krl d x : (d < nd)%nat -> coord d (rl x) = coord d x - lo d + (fd + fst (PW d)).
Proof. intros Hd. unfold rel. rewrite coord_map_seq by (rewrite gs_LE; exact Hd). destruct (gs_pad d Hd) as [-> _]. reflexivity. Qed.
Lemma kcoord_krl d x : (d < nd)%nat -> kcoord d (coord d (rl x)) = coord d x.
Proof. intros Hd. rewrite coord_krl by exact Hd. unfold kcoord. lia. Qed.
Lemma krl_shift d k x : length x = nd -> (d < nd)%nat -> rl (shift d k x) = shift d k (rl x).
Proof.
  intros L Hd. apply (pt_ext nd); [apply krl_length|rewrite shift_length; apply krl_length|]. intros e He. rewrite coord_krl by exact He.
  destruct (Nat.eq_dec d e) as [->|N].
  - rewrite !coord_shift_same by (rewrite ?krl_length; lia). rewrite coord_krl by exact He. lia.
  - rewrite !coord_shift_other by (exact N). rewrite coord_krl by exact He. lia.
Qed.
Lemma krl_inj x y : length x = nd -> length y = nd -> rl x = rl y -> x = y.
Proof.
  intros Lx Ly H. apply (pt_ext nd); [assumption..|]. intros d Hd. apply (f_equal (coord d)) in H. rewrite !coord_krl in H by exact Hd. lia.
Qed.
Lemma g_cells h x : length x = nd -> (gcells G h x <-> updated P h (rl x)).
Proof.
  intros L. unfold gcells, updated. change (sp_shape P) with (su_shape s). change (sp_acc P) with (su_acc s). change (gr_nd G) with nd. rewrite krl_length, gs_rank.
  split; intros [H1 H2]; (split; [first [reflexivity|exact L]|]); intros d Hd; specialize (H2 d Hd); rewrite ?g_pw in *; change (gr_ext G d) with (nth d E (0, 0)) in *;
    rewrite (gs_dim d Hd), coord_krl in * by exact Hd; destruct (h d); lia.
Qed.
Lemma g_arr h x : gcells G h x -> inb (abox (su_shape s)) (rl x) = true.
Proof.
  intros [L Hx]. change (gr_nd G) with nd in *. apply inb_abox. rewrite krl_length, gs_rank. split; [reflexivity|]. intros d Hd. specialize (Hx d Hd). rewrite g_pw in Hx. change (gr_ext G d) with (nth d E (0, 0)) in Hx.
  rewrite coord_krl, (gs_dim d Hd) by exact Hd. pose proof gs_fd1. destruct (h d); lia.
Qed.
Lemma g_deriv half d (f g : pt -> R) x : length x = nd -> (d < nd)%nat -> (forall k, f (shift d k x) = g (rl (shift d k x))) -> gdx G half d f x = deriv P half d g (rl x).
Proof.
  intros L Hd H. unfold gdx, deriv. change (sp_acc P) with (su_acc s). change (gr_acc G) with (su_acc s).
  assert (E1 : (1 / gr_h G d)%R = sp_rd P d). { rewrite g_h. cbn. destruct gs_gs as (_ & Lg & _). rewrite (nth_indep _ 1%R 0%R) by (rewrite Lg; exact Hd). reflexivity. }
  rewrite E1. destruct half; [unfold SDH1; apply (SDIFFH1_ext R_ops)|unfold SD1; apply (SDIFF1_ext R_ops)]; intros k; intros; rewrite H, krl_shift by assumption; reflexivity.
Qed.
Lemma k_model k m x : Z.of_nat b < su_nb s -> nth_error models k = Some m -> length x = nd -> inb (abox (su_shape s)) (rl x) = true ->
  kind_model s k b (idx (su_shape s) (rl x)) = model_at nd E m b x.
Proof.
  intros Hb Hk L Hin. destruct (gs_model k m Hk) as (m' & Hm & Hbt & Hsh & Hv). unfold kind_model. cbv zeta. rewrite (nth_error_nth _ _ _ Hm), Hsh. cbn [hd].
  rewrite unidx_idx by exact Hin. rewrite Hv; [|destruct (Z.eqb_spec (mbatch nd m) 1); lia|apply krl_length].
  assert (Y : nearest E (under E pad (rl x)) = map (fun d => Z.min (Z.max (coord d x) (lo d)) (hi d - 1)) (seq 0 nd)).
  { unfold nearest. rewrite gs_LE. apply map_ext_in. intros d Hd. apply in_seq in Hd. unfold clampZ. f_equal. f_equal.
    unfold under. rewrite coord_map_seq by (rewrite gs_LE; lia). rewrite coord_krl by lia. destruct (gs_pad d ltac:(lia)) as [-> _]. lia. }
  rewrite Y. unfold mval, mbatch, model_at. cbv zeta. destruct (_ =? nd)%nat; reflexivity.
Qed.

(** *** Locations *)
Hypothesis W1 : locs_whole nd src.
Hypothesis W2 : locs_whole nd rec.
Lemma tin_whole w : locs_whole nd (tin w). Proof. destruct w; assumption. Qed.
Lemma kind_row_at3 l k bb j : nth_error (kind_row l k bb) j = at3 l k bb j.
Proof.
  unfold kind_row, at3. destruct (nth_error l k) as [a|] eqn:Ek; [rewrite (nth_error_nth _ _ _ Ek)|apply nth_error_None in Ek; rewrite (nth_overflow l) by exact Ek; destruct bb, j; reflexivity].
  destruct (nth_error a bb) as [r|] eqn:Eb; [rewrite (nth_error_nth _ _ _ Eb); reflexivity|]. apply nth_error_None in Eb. rewrite nth_overflow by exact Eb. destruct j; reflexivity.
Qed.
Lemma kloc_at w k j p : loc3 (tin w) k b j = Some p -> active_pt nd p ->
  nth_error (kind_row (tout w) k b) j = Some (idx (su_shape s) (rl p)) /\ inb (abox (su_shape s)) (rl p) = true /\ forall d, (d < nd)%nat -> lo d <= coord d p < hi d.
Proof.
  intros Hl Hp. rewrite gs_shape, kind_row_at3.
  destruct (active_index 0%R _ _ _ _ _ _ _ _ _ _ _ _ _ _ _ gs_Lfd gs_Lpw gs_nd gs_fd0 gs_pw0 gs_survey w k b j p Hl Hp) as (_ & G1 & G2 & G3).
  split; [destruct w; exact G1|]. split.
  - exact (rel_inb 0%R _ _ _ _ _ _ _ _ _ _ _ _ _ _ _ gs_Lfd gs_Lpw gs_nd gs_fd0 gs_pw0 gs_survey p G2).
  - intros d Hd. specialize (G2 d Hd). rewrite <- gs_shape, (gs_dim d Hd), coord_krl in G2 by exact Hd. destruct (gs_pad d Hd) as [E1 E2]. rewrite E1, E2 in G2. lia.
Qed.
Lemma kloc_ign w k j p : loc3 (tin w) k b j = Some p -> ignored_pt nd p -> nth_error (kind_row (tout w) k b) j = Some IGNORE.
Proof.
  intros Hl Hg. rewrite kind_row_at3.
  pose proof (location_ignored 0%R _ _ _ _ _ _ _ _ _ _ _ _ _ _ _ gs_Lfd gs_Lpw gs_nd gs_survey w k b j p Hl Hg) as Q. destruct w; exact Q.
Qed.
Lemma kloc_of w k j i : nth_error (kind_row (tout w) k b) j = Some i -> exists p, loc3 (tin w) k b j = Some p.
Proof.
  rewrite kind_row_at3. intros Q. apply (at3_loc3 0%R _ _ _ _ _ _ _ _ _ _ _ _ _ _ _ gs_Lfd gs_Lpw gs_nd gs_survey w k b j i). destruct w; exact Q.
Qed.
Lemma kind_row_length w k : length (kind_row (tout w) k b) = length (match nth_error (tin w) k with Some (Some l) => nth b (lt_data l) [] | _ => [] end).
Proof.
  set (ps := match nth_error (tin w) k with Some (Some l) => nth b (lt_data l) [] | _ => [] end).
  assert (X : forall j, (nth_error (kind_row (tout w) k b) j = None) <-> (nth_error ps j = None)).
  { intros j. assert (L : loc3 (tin w) k b j = nth_error ps j).
    { unfold loc3, ps. destruct (nth_error (tin w) k) as [[l|]|]; try (destruct j; reflexivity). destruct (nth_error (lt_data l) b) as [q|] eqn:En; [rewrite (nth_error_nth _ _ _ En); reflexivity|].
      apply nth_error_None in En. rewrite nth_overflow by exact En. destruct j; reflexivity. }
    destruct (nth_error ps j) as [p|] eqn:Ej.
    - destruct (tin_whole w k b j p L) as [Hp|Hp]; [destruct (kloc_at w k j p L Hp) as (-> & _)|rewrite (kloc_ign w k j p L Hp)]; split; discriminate.
    - split; [reflexivity|]. intros _. destruct (nth_error (kind_row (tout w) k b) j) as [i|] eqn:Ei; [|reflexivity]. destruct (kloc_of _ _ _ _ Ei) as [p Hp]. rewrite L in Hp. discriminate. }
  destruct (Nat.lt_trichotomy (length (kind_row (tout w) k b)) (length ps)) as [Q|[Q|Q]]; [exfalso|exact Q|exfalso].
  - pose proof (proj2 (nth_error_None _ _) (le_n (length (kind_row (tout w) k b)))) as Y. apply X, nth_error_None in Y. lia.
  - pose proof (proj2 (nth_error_None _ _) (le_n (length ps))) as Y. apply X, nth_error_None in Y. lia.
Qed.
(** The locations of kind [k] lie in the cells of the quantities at half positions in the dimensions [h]. *)
Definition kind_inside (h : nat -> bool) (k : nat) : Prop :=
  forall w j p, loc3 (tin w) k b j = Some p -> active_pt nd p -> forall d, (d < nd)%nat -> h d = true -> coord d p + 1 < hi d + snd (PW d).
Lemma k_sloc (w : bool) c : (forall x, In x (allX S) -> cin S c x = true -> kind_inside (xh S x) (pos c)) -> Forall (sloc_ok S R_ops P c) (kind_row (tout w) (pos c) b).
Proof.
  intros HX. apply Forall_forall. intros l Hl. apply In_nth_error in Hl. destruct Hl as [j Hj]. destruct (kloc_of w _ j l Hj) as [p Hp]. destruct (tin_whole w _ _ _ _ Hp) as [Hac|Hig].
  - destruct (kloc_at w _ j p Hp Hac) as (Q1 & Q2 & Q3). rewrite Hj in Q1. injection Q1 as ->. right. exists (rl p). split; [reflexivity|]. split; [exact Q2|].
    intros x Hx Hc. apply updated_dom. apply g_cells; [apply Hac|]. split; [apply Hac|]. intros d Hd. change (gr_nd G) with nd in Hd. specialize (Q3 d Hd). rewrite g_pw. change (gr_ext G d) with (nth d E (0, 0)).
    destruct (gs_pw d). destruct (xh S x d) eqn:Eh; [specialize (HX x Hx Hc w j p Hp Hac d Hd Eh)|]; lia.
  - rewrite (kloc_ign w _ j p Hp Hig) in Hj. injection Hj as <-. left. unfold IGNORE. lia.
Qed.

(** *** Sources and receivers *)
Lemma nth_combine_map {A B C} (l : list A) (m : list B) (f : A * B -> C) k x y z : nth_error l k = Some x -> nth_error m k = Some y -> nth k (map f (combine l m)) z = f (x, y).
Proof. intros H1 H2. apply nth_error_nth. rewrite nth_error_map, nth_error_combine, H1, H2. reflexivity. Qed.
Lemma kamp_at k a t j : nth_error amps k = Some (Some a) -> t_at (nth k (su_amps s) (mktens [] (fun _ => 0%R))) [Z.of_nat t; Z.of_nat b; Z.of_nat j] =
  nth t (upsample (Z.to_nat (su_ratio s)) (o_ft o) (o_tp o) (o_taper o) (map (fun i => t_at a [Z.of_nat b; Z.of_nat j; Z.of_nat i]) (seq 0 (Z.to_nat (nth 2 (t_shape a) 0))))) 0%R.
Proof.
  intros Hk. destruct gs_parts as (_ & _ & _ & _ & _ & _ & _ & _ & _ & _ & _ & _ & HA & _). destruct gs_fracs as [Ef Et].
  unfold source_amplitudes in HA. destruct (set_source_amplitudes _ _ _ _ _) as [shapes|] eqn:ES; [|discriminate]. injection HA as HA. rewrite <- HA.
  assert (L : length shapes = length amps) by (apply sequence_length in ES; rewrite !map_length in ES; exact ES).
  destruct (nth_error shapes k) as [sh|] eqn:Esh; [|apply nth_error_None in Esh; assert (k < length amps)%nat by (apply nth_error_Some; congruence); lia].
  rewrite (nth_combine_map _ _ _ _ _ _ _ Esh Hk). cbn [t_at fst snd coord nth]. rewrite Nat2Z.id, Ef, Et. reflexivity.
Qed.
Lemma amps_src k l a : nth_error src k = Some l -> nth_error amps k = Some a -> match l, a with None, None => True | Some l, Some a => nth 1 (t_shape a) 0 = lt_count l | _, _ => False end.
Proof.
  intros Hl Hk. destruct gs_parts as (_ & _ & _ & _ & _ & _ & _ & _ & _ & _ & _ & HC & _). unfold check_amplitudes_locations in HC. apply andb_prop in HC. destruct HC as [_ HC]. rewrite forallb_forall in HC.
  specialize (HC (oshape a, l)). assert (Hin : In (oshape a, l) (combine (map oshape amps) src)).
  { apply (nth_error_In _ k). rewrite nth_error_combine, nth_error_map, Hk, Hl. reflexivity. }
  specialize (HC Hin). destruct a as [a|], l as [l|]; cbn in HC; try discriminate; [|exact I]. apply andb_prop in HC. destruct HC as [_ HC]. apply Z.eqb_eq in HC. exact HC.
Qed.
(** The amplitudes of the sources of kind [k] in the cell [x]. *)
Lemma k_amp k l a t x : nth_error src k = Some l -> nth_error amps k = Some a -> length x = nd -> inb (abox (su_shape s)) (rl x) = true ->
  StagEqs.amp_at P (kind_row (su_src s) k b) (kind_amps s k b (Z.of_nat t)) (rl x) = source_at o (su_ratio s) l a b t x.
Proof.
  intros Hl Hk Lx Hin. unfold StagEqs.amp_at. change (sp_shape P) with (su_shape s). unfold kind_amps. rewrite (combine_map_seq _ _ 0).
  pose proof (kind_row_length true k) as LR. cbv iota in LR. rewrite Hl in LR. rewrite LR. rewrite sumf_map. unfold source_at.
  pose proof (amps_src k l a Hl Hk) as HM. destruct l as [l|]; [|destruct a; [contradiction|reflexivity]]. destruct a as [a|]; [|contradiction]. cbv zeta.
  apply sumf_ext. intros j Hj. apply in_seq in Hj. cbn [fst snd].
  set (ps := nth b (lt_data l) []) in *.
  assert (L3 : loc3 (tin true) k b j = Some (nth j ps [])).
  { unfold loc3. rewrite Hl. destruct (nth_error (lt_data l) b) as [q|] eqn:En; [unfold ps in *; rewrite (nth_error_nth _ _ _ En) in *; apply nth_error_nth'; lia|].
    apply nth_error_None in En. unfold ps in Hj. rewrite (nth_overflow (lt_data l)) in Hj by exact En. cbn in Hj. lia. }
  pose proof (idx_bound _ _ Hin) as B0.
  destruct (W1 k b j _ L3) as [Hp|Hp].
  - destruct (kloc_at true k j _ L3 Hp) as (G1 & G2 & _). cbv iota in G1. rewrite (nth_error_nth _ _ _ G1).
    destruct (Z.eqb_spec (idx (su_shape s) (rl (nth j ps []))) (idx (su_shape s) (rl x))) as [He|He].
    + apply UserEqs.idx_inj in He; [|assumption..]. apply krl_inj in He; [|apply Hp|exact Lx]. rewrite He. destruct (pt_eq_dec x x); [|congruence].
      destruct (Z.eqb_spec (coord 0 x) IGNORE) as [E0|_]; [exfalso; rewrite <- He in E0; apply (proj2 Hp O); [apply gs_nd|exact E0]|]. cbn [negb andb].
      apply kamp_at, Hk.
    + destruct (pt_eq_dec (nth j ps []) x) as [E0|_]; [exfalso; apply He; rewrite E0; reflexivity|]. rewrite andb_false_r. reflexivity.
  - pose proof (kloc_ign true k j _ L3 Hp) as G1. cbv iota in G1. rewrite (nth_error_nth _ _ _ G1).
    rewrite (proj2 (Z.eqb_neq IGNORE _)) by (unfold IGNORE; lia).
    destruct (pt_eq_dec (nth j ps []) x) as [E0|_]; [|rewrite andb_false_r; reflexivity]. rewrite <- E0, (proj2 Hp O) by apply gs_nd. rewrite Z.eqb_refl. reflexivity.
Qed.
(** The data of receiver [j] of kind [k], if the kernel records [w]. *)
Lemma k_data k lr qs j q (r : Z -> list R) (w : nat -> field R_ops) n :
  nth_error rec k = Some (Some lr) -> nth_error (lt_data lr) b = Some qs -> nth_error qs j = Some q ->
  (forall t, (t < n)%nat -> r (Z.of_nat t) = read_at P (kind_row (su_rec s) k b) (w t)) -> (forall t, (n <= t)%nat -> forall i, nth i (r (Z.of_nat t)) 0%R = 0%R) ->
  nth_error (kind_data o s k b r) j = Some (trace_at o (su_ratio s) (su_nt s) n (fun t x => w t (rl x)) q).
Proof.
  intros Hlr Hqs Hq Hr H0. assert (L3 : loc3 (tin false) k b j = Some q) by (unfold loc3; rewrite Hlr, Hqs; exact Hq).
  assert (Hj : exists i, nth_error (kind_row (su_rec s) k b) j = Some i /\
    forall f : field R_ops, (if 0 <=? i then f (unidx (su_shape s) i) else 0%R) = if negb (coord 0 q =? IGNORE) then f (rl q) else 0%R).
  { pose proof gs_nd as N0. destruct (W2 k b j q L3) as [Hp|Hp].
    - destruct (kloc_at false k j q L3 Hp) as (G1 & G2 & _). eexists. split; [exact G1|]. intros f. pose proof (idx_bound _ _ G2) as B0. destruct (Z.leb_spec 0 (idx (su_shape s) (rl q))); [|lia].
      rewrite unidx_idx by exact G2. destruct (Z.eqb_spec (coord 0 q) IGNORE) as [E0|_]; [exfalso; apply (proj2 Hp O N0 E0)|reflexivity].
    - pose proof (kloc_ign false k j q L3 Hp) as G1. cbv iota in G1. eexists. split; [exact G1|]. intros f. rewrite (proj2 Hp O N0), Z.eqb_refl. reflexivity. }
  destruct Hj as (i & Hj & Hval). unfold kind_data, trace_at. rewrite nth_error_map, nth_error_seq_lt by (apply nth_error_Some; congruence). cbn [option_map].
  destruct gs_fracs as [-> ->]. f_equal. f_equal. apply map_ext_in. intros t Ht. apply in_seq in Ht. destruct (Nat.ltb_spec t n) as [Hlt|Hge].
  - rewrite Hr by exact Hlt. unfold read_at. rewrite andb_true_r.
    match goal with |- nth j (map ?f ?l) 0%R = _ => transitivity (f i); [apply nth_error_nth; apply (map_nth_error f j l); exact Hj|] end.
    exact (Hval (w t)).
  - rewrite H0 by lia. rewrite andb_false_r. reflexivity.
Qed.
Lemma k_data_length k r : length (kind_data o s k b r) = length (match nth_error rec k with Some (Some l) => nth b (lt_data l) [] | _ => [] end).
Proof. unfold kind_data. rewrite map_length, seq_length. exact (kind_row_length false k). Qed.
End Accepted.
Arguments gs_parts {models o amps src rec vmin vmax nw nd s} Hs.
Arguments gs_nd {models o amps src rec vmin vmax nw nd s} Hs.
Arguments gs_run {models o amps src rec vmin vmax nw nd s} Hs.
Arguments gs_pw {models o amps src rec vmin vmax nw nd s} Hs d.
Arguments gs_rank {models o amps src rec vmin vmax nw nd s} Hs Ha.
Arguments gs_dim {models o amps src rec vmin vmax nw nd s} Hs Ha d.
Arguments gs_ext_ok {models o amps src rec vmin vmax nw nd s} Hs Ha d.
Arguments gs_whole {models o amps src rec vmin vmax nw nd s} Hs d.
Arguments gs_cfl {models o amps src rec vmin vmax nw nd s} Hs Ha.
Arguments gs_interval {models o amps src rec vmin vmax nw nd s} Hs.
Arguments g_pw {models o amps src rec vmin vmax nw nd s} Hs d.
Arguments g_dt {models o amps src rec vmin vmax nw nd s} Hs Ha.
Arguments g_prof {models o amps src rec vmin vmax nw nd s} Hs Ha Hf S pos b.
Arguments g_geom {models o amps src rec vmin vmax nw nd s} Hs Ha Hf S pos b.
Arguments krl_length {models o amps src rec vmin vmax nw nd s} Hs x.
Arguments coord_krl {models o amps src rec vmin vmax nw nd s} Hs d x.
Arguments krl_shift {models o amps src rec vmin vmax nw nd s} Hs d k x.
Arguments kcoord_krl {models o amps src rec vmin vmax nw nd s} Hs d x.
Arguments g_cells {models o amps src rec vmin vmax nw nd s} Hs Ha S pos b.
Arguments g_arr {models o amps src rec vmin vmax nw nd s} Hs Ha h x.
Arguments g_deriv {models o amps src rec vmin vmax nw nd s} Hs Ha S pos b.
Arguments k_model {models o amps src rec vmin vmax nw nd s} Hs Ha b.
Arguments kloc_at {models o amps src rec vmin vmax nw nd s} Hs Ha b w k j p.
Arguments k_sloc {models o amps src rec vmin vmax nw nd s} Hs Ha S pos b.
Arguments k_amp {models o amps src rec vmin vmax nw nd s} Hs Ha S pos b.
Arguments k_data {models o amps src rec vmin vmax nw nd s} Hs Ha S pos b.
Arguments k_data_length {models o amps src rec vmin vmax nw nd s} Hs Ha b.
