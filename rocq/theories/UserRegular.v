(** * Accepted calls on the regular grid with several models, and kinds of sources and receivers (proofs). *)
From Coq Require Import List ZArith QArith Reals Lra Lia Bool Permutation.
From Verif Require Import Ops Sums Grid Stencil StencilOrder ScalarModel ScalarRefine ScalarForward ScalarFunc ScalarApi ScalarAdjoint ScalarMore ScalarPhys ScalarReach ScalarEqs GeomModel Geom Geom2 GeomLocs SetupModel RealModel RealThm
  Resample ResampleThm EqsUser UserModel UserThm UserCrop UserMain UserEqs UserStagModel UserStag UserBornModel.
Import ListNotations.
Local Open Scope Z_scope.

(** The medium of a call: [mv] is the wavespeed. *)
Definition opts_medium (o : opts) (nd : nat) (ratio : Z) (a : acc) (vel : R) (ext : list (Z * Z)) (mv : pt -> R) : medium :=
  mkmedium nd a (fun d => nth d (per_list (o_gs o) nd) 1%R) (o_dt o / IZR ratio) vel (match o_freq o with Some f => f | None => 25 end)%R
    (fun d => (nth (2 * d) (per_list (o_pw o) (2 * nd)) 0, nth (2 * d + 1) (per_list (o_pw o) (2 * nd)) 0)) (fun d => nth d ext (0, 0)) mv.
(** The user's scattering potential at [x]: zero beyond the survey area. *)
Definition scatter_at (nd : nat) (ext : list (Z * Z)) (m : tens R) (b : nat) (x : pt) : R :=
  if inb ext x then (if (length (t_shape m) =? nd)%nat then t_at m x else t_at m ((if hd 0 (t_shape m) =? 1 then 0 else Z.of_nat b) :: x)) else 0%R.

Lemma nth_repeat_lt {A} (x y : A) n k : (k < n)%nat -> nth k (repeat x n) y = x.
Proof. intros H. rewrite (nth_indep _ y x) by (rewrite repeat_length; exact H). apply nth_repeat. Qed.

Lemma nth_error_ext' {A} (l m : list A) : (forall j, nth_error l j = nth_error m j) -> l = m.
Proof.
  revert m. induction l as [|x l IH]; intros [|y m] H; [reflexivity|discriminate (H O)|discriminate (H O)|]. injection (H O) as <-. f_equal. apply IH. intros j. exact (H (S j)).
Qed.
Section Accepted.
Variables (models : list (tens R)) (modes : list pad_mode) (o : opts) (amps : list (option (tens R))) (src rec : list (option loct)) (vmin vmax : R) (nw nd : nat) (s : setup).
Hypothesis Hs : reg_setup models modes o amps src rec vmin vmax nw nd = Some s.
Notation E := (su_ext s).
Notation fdp := (repeat (o_accuracy o / 2) (2 * nd)).
Notation pad := (sum_pad fdp (su_pw s)).
Notation locs := (src ++ rec).
Notation ushape := (last_n nd (t_shape (hd (mktens [] (fun _ => 0%R)) models))).
Notation wfs0 := (repeat None nw).
Notation fd := (fd_pad (su_acc s)).
Notation PW := (pw_of (su_pw s)).
Notation lo d := (fst (nth d E (0, 0))).
Notation hi d := (snd (nth d E (0, 0))).

Lemma gs_parts :
  get_n_batch src wfs0 = Some (su_nb s) /\
  set_grid_spacing (o_gs o) nd = Some (su_gs s) /\
  cfl_condition_n (su_gs s) (o_dt o) (su_vel s) cfl_eps cfl_c_max = Some (su_dt s, su_ratio s) /\
  set_accuracy (o_accuracy o) = Some (su_acc s) /\
  set_pml_width (o_pw o) nd = Some (su_pw s) /\
  set_pml_freq (o_freq o) (su_dt s) = Some (su_freq s) /\
  set_nt (o_nt o) (map oshape amps) (su_ratio s) = Some (su_nt s) /\
  set_sampling_interval (o_interval o) = Some (su_interval s) /\
  set_frac (o_ft o) = Some (su_ft s) /\ set_frac (o_tp o) = Some (su_tp s) /\
  set_max_vel (o_max_vel o) vmax = Some (su_vel s) /\
  check_amplitudes_locations (map oshape amps) src = true /\
  source_amplitudes amps (su_nb s) (su_nt s) (su_ratio s) (su_ft s) (su_tp s) (o_taper o) = Some (su_amps s) /\
  extract_survey 0%R models src rec wfs0 (o_sp o) None fdp (su_pw s) modes (su_nb s) nd = Some (E, su_models s, su_src s, su_rec s).
Proof.
  pose proof Hs as H. unfold reg_setup, setup_propagator in H.
  repeat match type of H with
  | match ?e with Some _ => _ | None => None end = _ => let E := fresh "E" in destruct e as [?|] eqn:E; [|discriminate]
  | (if negb ?e then None else _) = _ => let E := fresh "E" in destruct e eqn:E; cbn [negb] in H; [|discriminate]
  | (let (_, _) := ?e in _) = _ => let E := fresh "D" in destruct e eqn:E
  end.
  injection H as <-. cbn. subst. repeat split; assumption.
Qed.
Lemma gs_survey : extract_survey 0%R models src rec wfs0 (o_sp o) None fdp (su_pw s) modes (su_nb s) nd = Some (E, su_models s, su_src s, su_rec s).
Proof. apply gs_parts. Qed.
Lemma gs_fd : o_accuracy o / 2 = fd. Proof. apply (set_accuracy_spec (o_accuracy o)), gs_parts. Qed.
Lemma gs_fd1 : 1 <= fd. Proof. destruct (su_acc s); cbn; lia. Qed.
Lemma gs_Lfd : length fdp = (2 * nd)%nat. Proof. apply repeat_length. Qed.
Lemma gs_Lpw : length (su_pw s) = (2 * nd)%nat.
Proof. destruct gs_parts as (_ & _ & _ & _ & H & _). apply set_pml_width_spec in H. tauto. Qed.
Lemma gs_pw0 : Forall (fun x => 0 <= x) (su_pw s).
Proof. destruct gs_parts as (_ & _ & _ & _ & H & _). apply set_pml_width_spec in H. tauto. Qed.
Lemma gs_fd0 : Forall (fun x => 0 <= x) fdp.
Proof. apply Forall_forall. intros x Hx. apply repeat_spec in Hx. subst x. rewrite gs_fd. pose proof gs_fd1. lia. Qed.
Lemma gs_models : models <> [].
Proof. pose proof gs_survey as H. unfold extract_survey in H. destruct models; [discriminate|]. congruence. Qed.
Lemma gs_ushape : match models with m0 :: _ => last_n nd (t_shape m0) = ushape | [] => True end.
Proof. destruct models; reflexivity || exact I. Qed.
Lemma gs_nd : (0 < nd)%nat.
Proof.
  destruct (Nat.eq_dec nd 0) as [E0|]; [|lia]. exfalso. pose proof gs_survey as H. pose proof gs_models as N. unfold extract_survey in H. destruct models as [|m0 ml]; [congruence|].
  destruct (negb _ && _); [discriminate|]. cbv zeta in H. rewrite E0 in H.
  assert (Z0 : @last_n Z 0 (t_shape m0) = []) by (unfold last_n; rewrite Nat.sub_0_r; apply skipn_all). rewrite Z0 in H. discriminate.
Qed.
Lemma gs_run : length ushape = nd /\ length E = nd /\ check_locations_are_within_model ushape locs = true /\
  get_survey_extents_from_locations ushape locs (o_sp o) = Some E /\ extract_models 0%R models E pad modes (su_nb s) = Some (su_models s).
Proof.
  destruct (run_parts 0%R _ _ _ _ _ _ _ _ _ _ _ _ _ _ _ gs_Lfd gs_Lpw gs_nd gs_survey) as (Hm & H1 & H2 & H3 & H4 & H5 & _).
  destruct models as [|m0 ml]; [congruence|]. cbn [hd].
  split; [exact H1|]. split; [exact H2|]. split; [exact H3|]. split; [|exact H5].
  destruct H4 as [(H & _)|H]; [|exact H]. exfalso. unfold get_survey_extents_from_wavefields in H. cbv zeta in H.
  destruct (negb _ || negb _); [discriminate|]. rewrite present_none in H. discriminate.
Qed.
Lemma gs_active d x : (d < nd)%nat -> is_active locs d x -> 0 <= x < nth d ushape 0.
Proof.
  intros Hd Hx. destruct gs_run as (Ls & _ & Hc & _). apply is_active_In in Hx. unfold active in Hx. apply in_flat_map in Hx.
  destruct Hx as (L & HL & Hx). unfold check_locations_are_within_model in Hc. rewrite !andb_true_iff in Hc. destruct Hc as [_ Hc].
  rewrite forallb_forall in Hc. specialize (Hc L HL). rewrite forallb_forall in Hc. specialize (Hc d). rewrite in_seq, Ls in Hc. specialize (Hc ltac:(lia)).
  apply andb_true_iff in Hc. destruct Hc as [_ Hc].
  destruct (lmin (dim_locs d L)) as [a|] eqn:Ea; [|destruct (dim_locs d L); [contradiction|discriminate]].
  destruct (lmax (dim_locs d L)) as [b|] eqn:Eb; [|destruct (dim_locs d L); [contradiction|discriminate]].
  apply lmin_spec in Ea. apply lmax_spec in Eb. destruct Ea as [_ Ea]. destruct Eb as [_ Eb].
  specialize (Ea _ Hx). specialize (Eb _ Hx). apply andb_true_iff in Hc. rewrite Z.leb_le, Z.ltb_lt in Hc. lia.
Qed.
Notation tin w := (if w : bool then src else rec).
Notation tout w := (if w : bool then su_src s else su_rec s).
Lemma tin_In w k sh j p : loc3 (tin w) k sh j = Some p -> exists L ps, In (Some L) locs /\ In ps (lt_data L) /\ In p ps.
Proof. intros H. destruct (loc3_In _ _ _ _ _ H) as (L & ps & A & B). exists L, ps. split; [apply in_app_iff; destruct w; auto|exact B]. Qed.
Lemma gs_loc_active w k sh j p d : loc3 (tin w) k sh j = Some p -> active_pt nd p -> (d < nd)%nat -> is_active locs d (coord d p).
Proof. intros Hl [_ Ha] Hd. destruct (tin_In _ _ _ _ _ Hl) as (L & ps & A & B & C). exists L, ps, p. repeat split; try assumption. apply Ha, Hd. Qed.

(** The survey area is not empty. *)
Hypothesis Ha : o_sp o = SPnone \/ some_active nd src \/ some_active nd rec.
Lemma gs_ext_ok d : (d < nd)%nat -> 0 <= lo d < hi d /\ hi d <= nth d ushape 0.
Proof.
  intros Hd. destruct gs_run as (Ls & LE & Hc & HE & _).
  destruct (survey_area _ _ _ _ HE) as [_ H]; [intros; apply gs_active; [lia|assumption]|].
  destruct (H d ltac:(lia)) as (H1 & _ & H3 & H4 & H5 & _). cbv zeta in *.
  assert (G : forall w, some_active nd (tin w) -> 0 <= lo d < hi d /\ hi d <= nth d ushape 0).
  { intros w (k & sh & j & p & Hl & Hp). specialize (H5 _ (gs_loc_active w k sh j p d Hl Hp Hd)). lia. }
  destruct Ha as [Ha'|[Ha'|Ha']]; [|exact (G true Ha')|exact (G false Ha')].
  rewrite Ha' in H3, H4. rewrite H3, H4 by reflexivity.
  unfold check_locations_are_within_model in Hc. rewrite !andb_true_iff in Hc. destruct Hc as [[_ Hc] _]. rewrite forallb_forall in Hc.
  specialize (Hc (nth d ushape 0) ltac:(apply nth_In; lia)). apply Z.ltb_lt in Hc. lia.
Qed.
Lemma gs_whole d : (d < nd)%nat -> o_sp o = SPnone -> hi d = nth d ushape 0.
Proof.
  intros Hd H0. destruct gs_run as (Ls & LE & Hc & HE & _).
  destruct (survey_area _ _ _ _ HE) as [_ H]; [intros; apply gs_active; [lia|assumption]|].
  destruct (H d ltac:(lia)) as (_ & _ & _ & H4 & _). cbv zeta in *. apply H4. rewrite H0. reflexivity.
Qed.
Lemma gs_ext_in : ext_in E ushape.
Proof. destruct gs_run as (Ls & LE & _). split; [lia|]. intros d Hd. pose proof (gs_ext_ok d ltac:(lia)). lia. Qed.
Lemma gs_LE : length E = nd. Proof. apply gs_run. Qed.
Lemma gs_pad d : (d < nd)%nat -> nth (2 * d) pad 0 = fd + fst (PW d) /\ nth (2 * d + 1) pad 0 = fd + snd (PW d).
Proof.
  intros Hd. rewrite !sum_pad_nth by (rewrite ?gs_Lfd, ?gs_Lpw; lia). rewrite !nth_repeat_lt by lia. rewrite gs_fd. split; reflexivity.
Qed.
Lemma gs_pw d : 0 <= fst (PW d) /\ 0 <= snd (PW d).
Proof.
  assert (G : forall k, 0 <= nth k (su_pw s) 0).
  { intros k. destruct (Nat.lt_ge_cases k (length (su_pw s))) as [H|H]; [|rewrite nth_overflow by exact H; lia]. pose proof gs_pw0 as F. rewrite Forall_forall in F. apply F, nth_In, H. }
  split; apply G.
Qed.
Lemma gs_model k m mode : nth_error models k = Some m -> nth_error modes k = Some mode -> exists m', nth_error (su_models s) k = Some m' /\ (mbatch nd m = 1 \/ mbatch nd m = su_nb s) /\
  t_shape m' = mbatch nd m :: padded_shape E pad /\
  forall b q, 0 <= b < mbatch nd m -> length q = nd -> t_at m' (b :: q) =
    match mode with Replicate => mval nd m b (nearest E (under E pad q)) | Constant => if inb E (under E pad q) then mval nd m b (under E pad q) else 0%R end.
Proof.
  intros Hk Hmode. destruct gs_run as (Ls & LE & _ & _ & Hm).
  destruct (extract_models_spec 0%R models E pad modes (su_nb s) nd (su_models s) ushape (pad_length _ _ _ gs_Lfd gs_Lpw gs_nd) gs_nd gs_ushape gs_ext_in Hm) as (H1 & _ & H3).
  assert (Hl : (k < length models)%nat) by (apply nth_error_Some; congruence).
  destruct (nth_error (su_models s) k) as [m'|] eqn:Em; [|apply nth_error_None in Em; lia]. exists m'. split; [reflexivity|].
  exact (H3 k m mode m' Hk Hmode Em).
Qed.
Lemma gs_modes : length modes = length models.
Proof.
  destruct gs_run as (Ls & LE & _ & _ & Hm).
  destruct (extract_models_spec 0%R models E pad modes (su_nb s) nd (su_models s) ushape (pad_length _ _ _ gs_Lfd gs_Lpw gs_nd) gs_nd gs_ushape gs_ext_in Hm) as (_ & H2 & _). exact H2.
Qed.
Lemma gs_shape : su_shape s = padded_shape E pad.
Proof.
  pose proof gs_models as N. pose proof gs_modes as N2. destruct (nth_error models 0) as [m0|] eqn:Em; [|destruct models; [congruence|discriminate]].
  destruct (nth_error modes 0) as [md0|] eqn:Emd; [|destruct modes, models; try discriminate; congruence]. destruct (gs_model O m0 md0 Em Emd) as (m' & Hm & _ & Hsh & _).
  unfold su_shape. rewrite (nth_error_nth _ _ _ Hm), Hsh. reflexivity.
Qed.
Lemma gs_rank : length (su_shape s) = nd. Proof. rewrite gs_shape, padded_shape_length. apply gs_LE. Qed.
Lemma gs_dim d : (d < nd)%nat -> nth d (su_shape s) 0 = hi d - lo d + fst (PW d) + snd (PW d) + 2 * fd.
Proof.
  intros Hd. rewrite gs_shape. unfold padded_shape. rewrite nth_map_seq by (rewrite gs_LE; lia). destruct (gs_pad d Hd) as [-> ->]. lia.
Qed.
Lemma gs_cfl : (su_gs s <> [] /\ Forall (fun g => 0 < g) (su_gs s) /\ 0 < su_vel s /\ o_dt o <> 0 /\ (1 <= su_ratio s)%Z /\ su_dt s * IZR (su_ratio s) = o_dt o)%R.
Proof.
  destruct gs_parts as (_ & _ & H & _). apply cfl_thm in H; [|unfold cfl_eps; lra|unfold cfl_c_max; lra]. tauto.
Qed.
Lemma gs_dt0 : (su_dt s <> 0)%R.
Proof. destruct gs_cfl as (_ & _ & _ & H & _ & G). intros E0. rewrite E0 in G. lra. Qed.
Lemma gs_interval : su_interval s = o_interval o.
Proof. destruct gs_parts as (_ & _ & _ & _ & _ & _ & _ & H & _). unfold set_sampling_interval in H. destruct (_ <? 0); [discriminate|]. congruence. Qed.
Lemma gs_fracs : su_ft s = o_ft o /\ su_tp s = o_tp o.
Proof.
  destruct gs_parts as (_ & _ & _ & _ & _ & _ & _ & _ & H1 & H2 & _). unfold set_frac in H1, H2.
  destruct (_ && _)%bool in H1; [|discriminate]. destruct (_ && _)%bool in H2; [|discriminate]. split; congruence.
Qed.
Hypothesis Hf : o_freq o <> Some 0%R.
Lemma gs_freq : (su_freq s = match o_freq o with Some f => f | None => 25 end /\ 0 < su_freq s)%R.
Proof.
  destruct gs_parts as (_ & _ & _ & _ & _ & H & _). apply set_pml_freq_spec in H. destruct H as (_ & H0 & H1). split; [exact H1|].
  destruct (Req_dec (su_freq s) 0) as [H2|]; [|lra]. exfalso. destruct (o_freq o) as [f|]; [apply Hf; congruence|lra].
Qed.
Lemma gs_gs : su_gs s = per_list (o_gs o) nd /\ length (su_gs s) = nd /\ Forall (fun g => 0 < g)%R (su_gs s).
Proof. destruct gs_parts as (_ & H & _). apply set_grid_spacing_spec in H. tauto. Qed.

(** *** The medium *)
Variable b : nat.
Variable mv : pt -> R.
Notation M := (opts_medium o nd (su_ratio s) (su_acc s) (su_vel s) E mv).
Variables (srcl recl : list Z).
Notation P := (scalar_par (su_acc s) (su_shape s) PW (su_dt s) (su_gs s) (su_vel s) (su_freq s) srcl recl).
Lemma m_pw d : (d < nd)%nat -> md_pw M d = PW d.
Proof. intros _. destruct gs_parts as (_ & _ & _ & _ & H & _). apply set_pml_width_spec in H. destruct H as (_ & _ & ->). reflexivity. Qed.
Lemma m_h d : md_h M d = nth d (su_gs s) 1%R.
Proof. destruct gs_gs as (E1 & _). rewrite E1. reflexivity. Qed.
Lemma m_dt : md_dt M = su_dt s.
Proof.
  cbn. destruct gs_cfl as (_ & _ & _ & _ & Hr & Hd). rewrite <- Hd. field. apply not_0_IZR. lia.
Qed.
Lemma m_freq : md_freq M = su_freq s /\ (0 < su_freq s)%R.
Proof. destruct gs_freq as [F0 F1]. split; [symmetry; exact F0|exact F1]. Qed.
Lemma m_vel : (0 < su_vel s)%R. Proof. apply gs_cfl. Qed.
Lemma m_thick : thickest M = max_pml PW (su_gs s).
Proof.
  destruct gs_gs as (E1 & L & G). rewrite max_pml_thickest; [|rewrite L; apply gs_nd|intros d; apply gs_pw|exact G].
  unfold thickest. change (md_nd M) with nd. rewrite L. f_equal. rewrite !flat_map_concat_map. f_equal. apply map_ext_in. intros d Hd. apply in_seq in Hd.
  rewrite m_pw, m_h by lia. rewrite (nth_indep _ 1%R 0%R) by (rewrite L; lia). reflexivity.
Qed.
Lemma thick_zero d : (d < nd)%nat -> max_pml PW (su_gs s) = 0%R -> PW d = (0, 0).
Proof.
  intros Hd H0. rewrite <- m_thick in H0. unfold thickest in H0. destruct gs_gs as (E1 & L & G).
  assert (Hh : (0 < md_h M d)%R). { rewrite m_h. rewrite Forall_forall in G. apply G, nth_In. rewrite L. exact Hd. }
  destruct (fold_right_Rmax_ge (flat_map (fun d => [IZR (fst (md_pw M d)) * md_h M d; IZR (snd (md_pw M d)) * md_h M d])%R (seq 0 nd)) 0%R) as [_ Q].
  change (md_nd M) with nd in H0. rewrite H0 in Q.
  assert (Q1 := Q (IZR (fst (md_pw M d)) * md_h M d)%R ltac:(apply in_flat_map; exists d; split; [apply in_seq; lia|left; reflexivity])).
  assert (Q2 := Q (IZR (snd (md_pw M d)) * md_h M d)%R ltac:(apply in_flat_map; exists d; split; [apply in_seq; lia|right; left; reflexivity])).
  rewrite m_pw in Q1, Q2 by exact Hd. destruct (gs_pw d) as [P1 P2].
  assert (Z1 : forall z, 0 <= z -> (IZR z * md_h M d <= 0)%R -> z = 0).
  { intros z Hz Q0. destruct (Z.eq_dec z 0) as [|N]; [assumption|]. exfalso. assert (0 < IZR z)%R by (apply IZR_lt; lia). assert (0 < IZR z * md_h M d)%R by (apply Rmult_lt_0_compat; assumption). lra. }
  apply Z1 in Q1, Q2; try assumption. destruct (PW d). cbn in *. congruence.
Qed.

(** The profile at element [y] of dimension [d]. *)
Definition ucoord (d : nat) (y : Z) : Z := y - (fd + fst (PW d)) + lo d.
Lemma ext_lt d : (d < nd)%nat -> lo d < hi d.
Proof. intros Hd. pose proof (gs_ext_ok d Hd). lia. Qed.
Lemma depth_user d y : (d < nd)%nat ->
  pml_frac (fst (PW d)) (snd (PW d)) (IZR (fd + fst (PW d))) (IZR (nth d (su_shape s) 0 - 1 - fd - snd (PW d))) (0 + IZR y) = depth (md_pw M d) (md_ext M d) (ucoord d y).
Proof.
  intros Hd. destruct (gs_pw d). change (md_ext M d) with (nth d E (0, 0)). rewrite m_pw by exact Hd. rewrite depth_frac by (try assumption; apply ext_lt, Hd). apply frac_user. rewrite (gs_dim d Hd). lia.
Qed.
Lemma prof_user d y : (d < nd)%nat -> p_a P d y = cpml_a M d (ucoord d y) /\ p_b P d y = cpml_b M d (ucoord d y).
Proof.
  intros Hd. cbn [p_a p_b scalar_par]. unfold pml_profile, setup_pml. cbv zeta. rewrite depth_user by exact Hd.
  set (e := depth (md_pw M d) (md_ext M d) (ucoord d y)).
  assert (He : (0 <= e <= 1)%R) by (apply depth_range; rewrite m_pw by exact Hd; apply gs_pw).
  pose proof m_freq as [F1 F2]. pose proof m_vel as V. pose proof ln_1000 as LN. pose proof PI_RGT_0 as HPI.
  destruct (Req_EM_T (max_pml PW (su_gs s)) 0) as [T0|T0].
  - assert (E0 : e = 0%R). { unfold e, depth. rewrite m_pw, (thick_zero d Hd T0) by exact Hd. cbn [fst snd]. rewrite Z.eqb_refl. destruct (_ <? _); [reflexivity|]. destruct (_ <=? _); reflexivity. }
    cbn [prof_a prof_b]. unfold cpml_a, cpml_b, damping. fold e. rewrite E0. destruct (Req_EM_T 0 0); [|lra]. split; [reflexivity|].
    replace (3 * md_vel M * ln 1000 / (2 * thickest M) * 0 ^ 2)%R with 0%R by ring. unfold Rdiv. rewrite Rmult_0_l, Rmult_0_l. reflexivity.
  - assert (TP : (0 < max_pml PW (su_gs s))%R).
    { rewrite <- m_thick in *. unfold thickest in *. destruct (fold_right_Rmax_ge (flat_map (fun d => [IZR (fst (md_pw M d)) * md_h M d; IZR (snd (md_pw M d)) * md_h M d])%R (seq 0 (md_nd M))) 0%R) as [Q _]. lra. }
    assert (SG : (- (1 + 2) * su_vel s * ln (1 / 1000) / (2 * max_pml PW (su_gs s)) * e ^ 2 = damping M d (ucoord d y))%R).
    { unfold damping. fold e. rewrite m_thick, ln_thousandth. change (md_vel M) with (su_vel s). field. exact T0. }
    assert (AL : (PI * su_freq s * (1 - e) = freq_shift M d (ucoord d y))%R) by (unfold freq_shift; fold e; rewrite F1; reflexivity).
    rewrite SG, AL.
    assert (SA : (damping M d (ucoord d y) + freq_shift M d (ucoord d y) <> 0)%R).
    { rewrite <- SG, <- AL, ln_thousandth. 
      assert (S0 : (0 < 3 * su_vel s * ln 1000 / (2 * max_pml PW (su_gs s)))%R).
      { apply Rmult_lt_0_compat; [repeat apply Rmult_lt_0_compat; lra|]. apply Rinv_0_lt_compat. lra. }
      replace (- (1 + 2) * su_vel s * - ln 1000 / (2 * max_pml PW (su_gs s)) * e ^ 2)%R with (3 * su_vel s * ln 1000 / (2 * max_pml PW (su_gs s)) * e ^ 2)%R by (field; exact T0).
      set (s0 := (3 * su_vel s * ln 1000 / (2 * max_pml PW (su_gs s)))%R) in *.
      assert (A0 : (0 < PI * su_freq s)%R) by (apply Rmult_lt_0_compat; lra).
      destruct (Req_dec e 0) as [->|N0].
      - replace (s0 * 0 ^ 2 + PI * su_freq s * (1 - 0))%R with (PI * su_freq s)%R by ring. lra.
      - assert (0 < s0 * e ^ 2)%R by (apply Rmult_lt_0_compat; [assumption|apply pow_lt; lra]).
        assert (0 <= PI * su_freq s * (1 - e))%R by (apply Rmult_le_pos; lra). lra. }
    unfold rdiv. destruct (Req_EM_T _ 0) as [|_]; [contradiction|]. cbn [prof_a prof_b]. unfold cpml_a, cpml_b, decay. fold e. rewrite m_dt. split; reflexivity.
Qed.
Lemma ucoord_plus d y k : ucoord d (y + k) = ucoord d y + k. Proof. unfold ucoord. lia. Qed.
Lemma db_user d y : (d < nd)%nat -> fd <= y < nth d (su_shape s) 0 - fd -> p_db P d y = cpml_db M d (ucoord d y).
Proof.
  intros Hd Hy. assert (L : length (su_shape s) = nd) by apply gs_rank.
  change (p_db P d y) with (if ((fd <=? y) && (y <? nth d (su_shape s) 0 - fd))%bool then DIFF1 (K := R_ops) (su_acc s) (1 / nth d (su_gs s) 1)%R (fun k => p_b P d (y + k)) else 0%R).
  destruct (Z.leb_spec fd y); [|lia]. destruct (Z.ltb_spec y (nth d (su_shape s) 0 - fd)); [|lia]. cbn [andb]. unfold cpml_db. rewrite m_h. change (md_acc M) with (su_acc s).
  apply DIFF1_ext. intros k _ _. rewrite (proj2 (prof_user d (y + k) Hd)), ucoord_plus. reflexivity.
Qed.

(** *** Coordinates *)
Notation rl := (rel E pad).
Lemma rl_length x : length (rl x) = nd. Proof. unfold rel. rewrite map_length, seq_length. apply gs_LE. Qed.
Lemma coord_rl d x : (d < nd)%nat -> coord d (rl x) = coord d x - lo d + (fd + fst (PW d)).
Proof. intros Hd. unfold rel. rewrite coord_map_seq by (rewrite gs_LE; exact Hd). rewrite (proj1 (gs_pad d Hd)). reflexivity. Qed.
Lemma ucoord_rl d x : (d < nd)%nat -> ucoord d (coord d (rl x)) = coord d x.
Proof. intros Hd. rewrite coord_rl by exact Hd. unfold ucoord. lia. Qed.
Lemma rl_shift d k x : length x = nd -> (d < nd)%nat -> rl (shift d k x) = shift d k (rl x).
Proof.
  intros L Hd. apply (pt_ext nd); [apply rl_length|rewrite shift_length; apply rl_length|]. intros e He. rewrite coord_rl by exact He.
  destruct (Nat.eq_dec d e) as [->|N].
  - rewrite !coord_shift_same by (rewrite ?rl_length; lia). rewrite coord_rl by exact He. lia.
  - rewrite !coord_shift_other by (exact N). rewrite coord_rl by exact He. lia.
Qed.
Lemma domain_int x : length x = nd -> (domain M x <-> interior R_ops P (rl x) = true).
Proof.
  intros L. unfold interior. rewrite inb_ibox. change (p_shape P) with (su_shape s). change (p_acc P) with (su_acc s). rewrite rl_length, gs_rank.
  unfold domain. change (md_nd M) with nd. split; intros [H1 H2]; (split; [first [reflexivity|exact L]|]); intros d Hd; specialize (H2 d Hd);
    rewrite ?m_pw in * by exact Hd; change (md_ext M d) with (nth d E (0, 0)) in *; rewrite (gs_dim d Hd), coord_rl in * by exact Hd; lia.
Qed.
Lemma dx1_user d (f : pt -> R) (g : pt -> R) x : length x = nd -> (d < nd)%nat -> (forall k, f (shift d k x) = g (rl (shift d k x))) ->
  dx1 M d f x = ScalarModel.d1 R_ops P d g (rl x).
Proof.
  intros L Hd H. unfold dx1, ScalarModel.d1, D1. change (p_acc P) with (su_acc s). change (md_acc M) with (su_acc s). change (p_rd P d) with (1 / nth d (su_gs s) 1)%R. rewrite m_h.
  apply (DIFF1_ext R_ops). intros k _ _. rewrite H, rl_shift by assumption. reflexivity.
Qed.
Lemma dx2_user d (g : pt -> R) x : length x = nd -> (d < nd)%nat -> dx2 M d (fun y => g (rl y)) x = ScalarModel.d2 R_ops P d g (rl x).
Proof.
  intros L Hd. unfold dx2, ScalarModel.d2, D2. change (p_acc P) with (su_acc s). change (md_acc M) with (su_acc s). change (p_rd2 P d) with (1 / nth d (su_gs s) 1 ^ 2)%R. rewrite m_h.
  apply (DIFF2_ext R_ops). intros k _. rewrite rl_shift by assumption. reflexivity.
Qed.
Definition ust (t : st R_ops) : st R_ops :=
  mkst R_ops (fun x => s_wfc R_ops t (rl x)) (fun x => s_wfp R_ops t (rl x)) (fun d x => s_psi R_ops t d (rl x)) (fun d x => s_zeta R_ops t d (rl x)).
Lemma tmp_user t d x : (d < nd)%nat -> domain M x -> stretched M (ust t) d x = tmpf R_ops P (s_wfc R_ops t) (s_psi R_ops t d) d (rl x).
Proof.
  intros Hd [L Hx]. change (md_nd M) with nd in *. unfold stretched, tmpf, pb, pdb.
  assert (A1 : dx2 M d (s_wfc R_ops (ust t)) x = ScalarModel.d2 R_ops P d (s_wfc R_ops t) (rl x)) by (apply (dx2_user d (s_wfc R_ops t)); assumption).
  assert (A2 : dx1 M d (s_wfc R_ops (ust t)) x = ScalarModel.d1 R_ops P d (s_wfc R_ops t) (rl x)) by (apply dx1_user; [assumption..|reflexivity]).
  assert (A3 : dx1 M d (fun y => cpml_a M d (coord d y) * s_psi R_ops (ust t) d y)%R x = ScalarModel.d1 R_ops P d (fun q => omul R_ops (pa R_ops P d q) (s_psi R_ops t d q)) (rl x)).
  { apply dx1_user; [assumption..|]. intros k. cbn [ust s_psi]. unfold pa. rewrite (proj1 (prof_user d (coord d (rl (shift d k x))) Hd)), ucoord_rl by exact Hd. reflexivity. }
  rewrite A1, A2, A3. rewrite (proj2 (prof_user d (coord d (rl x)) Hd)), (db_user d (coord d (rl x)) Hd), !ucoord_rl by
   (first [exact Hd|specialize (Hx d Hd); rewrite m_pw in Hx by exact Hd; change (md_ext M d) with (nth d E (0, 0)) in Hx; rewrite coord_rl by exact Hd; rewrite (gs_dim d Hd); lia]).
  reflexivity.
Qed.

(** *** Models *)
Lemma rl_inj x y : length x = nd -> length y = nd -> rl x = rl y -> x = y.
Proof.
  intros Lx Ly H. apply (pt_ext nd); [assumption..|]. intros d Hd. apply (f_equal (coord d)) in H. rewrite !coord_rl in H by exact Hd. lia.
Qed.
Lemma under_rl x : length x = nd -> under E pad (rl x) = x.
Proof.
  intros L. apply (pt_ext nd); [unfold under; rewrite map_length, seq_length; apply gs_LE|exact L|]. intros d Hd.
  unfold under. rewrite coord_map_seq by (rewrite gs_LE; lia). rewrite coord_rl by lia. destruct (gs_pad d Hd) as [-> _]. lia.
Qed.
Lemma k_model k m mode x : Z.of_nat b < su_nb s -> nth_error models k = Some m -> nth_error modes k = Some mode -> length x = nd -> inb (abox (su_shape s)) (rl x) = true ->
  kind_model s k b (idx (su_shape s) (rl x)) = match mode with Replicate => model_at nd E m b x | Constant => scatter_at nd E m b x end.
Proof.
  intros Hb Hk Hmode L Hin. destruct (gs_model k m mode Hk Hmode) as (m' & Hm & Hbt & Hsh & Hv). unfold kind_model. cbv zeta. rewrite (nth_error_nth _ _ _ Hm), Hsh. cbn [hd].
  rewrite unidx_idx by exact Hin. rewrite Hv; [|destruct (Z.eqb_spec (mbatch nd m) 1); lia|apply rl_length]. rewrite under_rl by exact L. destruct mode.
  - assert (Y : nearest E x = map (fun d => Z.min (Z.max (coord d x) (lo d)) (hi d - 1)) (seq 0 nd)).
    { unfold nearest. rewrite gs_LE. reflexivity. }
    rewrite Y. unfold mval, mbatch, model_at. cbv zeta. destruct (_ =? nd)%nat; reflexivity.
  - unfold scatter_at. destruct (inb E x); [|reflexivity]. unfold mval, mbatch. destruct (_ =? nd)%nat; reflexivity.
Qed.

(** *** Locations *)
Hypothesis W1 : locs_whole nd src.
Hypothesis W2 : locs_whole nd rec.
Lemma tin_whole w : locs_whole nd (tin w). Proof. destruct w; assumption. Qed.
Lemma kind_row_at3 l k bb j : nth_error (kind_row l k bb) j = at3 l k bb j.
Proof.
  unfold kind_row, at3. destruct (nth_error l k) as [a|] eqn:Ek; [rewrite (nth_error_nth _ _ _ Ek)|apply nth_error_None in Ek; rewrite (nth_overflow l) by exact Ek; destruct bb, j; reflexivity].
  destruct (nth_error a bb) as [r|] eqn:Eb; [rewrite (nth_error_nth _ _ _ Eb); reflexivity|]. apply nth_error_None in Eb. rewrite nth_overflow by exact Eb. destruct j; reflexivity.
Qed.
Lemma kloc_at w k j p : loc3 (tin w) k b j = Some p -> active_pt nd p ->
  nth_error (kind_row (tout w) k b) j = Some (idx (su_shape s) (rl p)) /\ inb (abox (su_shape s)) (rl p) = true /\ forall d, (d < nd)%nat -> lo d <= coord d p < hi d.
Proof.
  intros Hl Hp. rewrite gs_shape, kind_row_at3.
  destruct (active_index 0%R _ _ _ _ _ _ _ _ _ _ _ _ _ _ _ gs_Lfd gs_Lpw gs_nd gs_fd0 gs_pw0 gs_survey w k b j p Hl Hp) as (_ & G1 & G2 & G3).
  split; [destruct w; exact G1|]. split.
  - exact (rel_inb 0%R _ _ _ _ _ _ _ _ _ _ _ _ _ _ _ gs_Lfd gs_Lpw gs_nd gs_fd0 gs_pw0 gs_survey p G2).
  - intros d Hd. specialize (G2 d Hd). rewrite <- gs_shape, (gs_dim d Hd), coord_rl in G2 by exact Hd. destruct (gs_pad d Hd) as [E1 E2]. rewrite E1, E2 in G2. lia.
Qed.
Lemma kloc_ign w k j p : loc3 (tin w) k b j = Some p -> ignored_pt nd p -> nth_error (kind_row (tout w) k b) j = Some IGNORE.
Proof.
  intros Hl Hg. rewrite kind_row_at3.
  pose proof (location_ignored 0%R _ _ _ _ _ _ _ _ _ _ _ _ _ _ _ gs_Lfd gs_Lpw gs_nd gs_survey w k b j p Hl Hg) as Q. destruct w; exact Q.
Qed.
Lemma kloc_of w k j i : nth_error (kind_row (tout w) k b) j = Some i -> exists p, loc3 (tin w) k b j = Some p.
Proof.
  rewrite kind_row_at3. intros Q. apply (at3_loc3 0%R _ _ _ _ _ _ _ _ _ _ _ _ _ _ _ gs_Lfd gs_Lpw gs_nd gs_survey w k b j i). destruct w; exact Q.
Qed.
Lemma kind_row_length w k : length (kind_row (tout w) k b) = length (match nth_error (tin w) k with Some (Some l) => nth b (lt_data l) [] | _ => [] end).
Proof.
  set (ps := match nth_error (tin w) k with Some (Some l) => nth b (lt_data l) [] | _ => [] end).
  assert (X : forall j, (nth_error (kind_row (tout w) k b) j = None) <-> (nth_error ps j = None)).
  { intros j. assert (L : loc3 (tin w) k b j = nth_error ps j).
    { unfold loc3, ps. destruct (nth_error (tin w) k) as [[l|]|]; try (destruct j; reflexivity). destruct (nth_error (lt_data l) b) as [q|] eqn:En; [rewrite (nth_error_nth _ _ _ En); reflexivity|].
      apply nth_error_None in En. rewrite nth_overflow by exact En. destruct j; reflexivity. }
    destruct (nth_error ps j) as [p|] eqn:Ej.
    - destruct (tin_whole w k b j p L) as [Hp|Hp]; [destruct (kloc_at w k j p L Hp) as (-> & _)|rewrite (kloc_ign w k j p L Hp)]; split; discriminate.
    - split; [reflexivity|]. intros _. destruct (nth_error (kind_row (tout w) k b) j) as [i|] eqn:Ei; [|reflexivity]. destruct (kloc_of _ _ _ _ Ei) as [p Hp]. rewrite L in Hp. discriminate. }
  destruct (Nat.lt_trichotomy (length (kind_row (tout w) k b)) (length ps)) as [Q|[Q|Q]]; [exfalso|exact Q|exfalso].
  - pose proof (proj2 (nth_error_None _ _) (le_n (length (kind_row (tout w) k b)))) as Y. apply X, nth_error_None in Y. lia.
  - pose proof (proj2 (nth_error_None _ _) (le_n (length ps))) as Y. apply X, nth_error_None in Y. lia.
Qed.
(** The locations of kind [k] lie in the cells of the quantities at half positions in the dimensions [h]. *)
Lemma kamp_at k a t j : nth_error amps k = Some (Some a) -> t_at (nth k (su_amps s) (mktens [] (fun _ => 0%R))) [Z.of_nat t; Z.of_nat b; Z.of_nat j] =
  nth t (upsample (Z.to_nat (su_ratio s)) (o_ft o) (o_tp o) (o_taper o) (map (fun i => t_at a [Z.of_nat b; Z.of_nat j; Z.of_nat i]) (seq 0 (Z.to_nat (nth 2 (t_shape a) 0))))) 0%R.
Proof.
  intros Hk. destruct gs_parts as (_ & _ & _ & _ & _ & _ & _ & _ & _ & _ & _ & _ & HA & _). destruct gs_fracs as [Ef Et].
  unfold source_amplitudes in HA. destruct (set_source_amplitudes _ _ _ _ _) as [shapes|] eqn:ES; [|discriminate]. injection HA as HA. rewrite <- HA.
  assert (L : length shapes = length amps) by (apply sequence_length in ES; rewrite !map_length in ES; exact ES).
  destruct (nth_error shapes k) as [sh|] eqn:Esh; [|apply nth_error_None in Esh; assert (k < length amps)%nat by (apply nth_error_Some; congruence); lia].
  rewrite (nth_combine_map _ _ _ _ _ _ _ Esh Hk). cbn [t_at fst snd coord nth]. rewrite Nat2Z.id, Ef, Et. reflexivity.
Qed.
Lemma amps_src k l a : nth_error src k = Some l -> nth_error amps k = Some a -> match l, a with None, None => True | Some l, Some a => nth 1 (t_shape a) 0 = lt_count l | _, _ => False end.
Proof.
  intros Hl Hk. destruct gs_parts as (_ & _ & _ & _ & _ & _ & _ & _ & _ & _ & _ & HC & _). unfold check_amplitudes_locations in HC. apply andb_prop in HC. destruct HC as [_ HC]. rewrite forallb_forall in HC.
  specialize (HC (oshape a, l)). assert (Hin : In (oshape a, l) (combine (map oshape amps) src)).
  { apply (nth_error_In _ k). rewrite nth_error_combine, nth_error_map, Hk, Hl. reflexivity. }
  specialize (HC Hin). destruct a as [a|], l as [l|]; cbn in HC; try discriminate; [|exact I]. apply andb_prop in HC. destruct HC as [_ HC]. apply Z.eqb_eq in HC. exact HC.
Qed.
(** The amplitudes of the sources of kind [k] in the cell [x]. *)
Lemma k_amp (h : arr R_ops) k l a t x : nth_error src k = Some l -> nth_error amps k = Some a -> length x = nd -> inb (abox (su_shape s)) (rl x) = true ->
  amp_in P (kind_row (su_src s) k b) (map (fun la => snd la * h (py_masked (fst la)))%R (combine (kind_row (su_src s) k b) (kind_amps s k b (Z.of_nat t)))) (rl x)
  = (h (idx (su_shape s) (rl x)) * source_at o (su_ratio s) l a b t x)%R.
Proof.
  intros Hl Hk Lx Hin. unfold amp_in. change (p_shape P) with (su_shape s). unfold kind_amps. rewrite (combine_map_seq _ _ 0), map_map, (combine_map_seq _ _ 0).
  pose proof (kind_row_length true k) as LR. cbv iota in LR. rewrite Hl in LR. rewrite LR. rewrite sumf_map. unfold source_at.
  pose proof (amps_src k l a Hl Hk) as HM. destruct l as [l|]; [|destruct a; [contradiction|cbn; rring]]. destruct a as [a|]; [|contradiction]. cbv zeta.
  rewrite <- sumf_mul_l_R. apply sumf_ext. intros j Hj. apply in_seq in Hj. cbn [fst snd].
  set (ps := nth b (lt_data l) []) in *.
  assert (L3 : loc3 (tin true) k b j = Some (nth j ps [])).
  { unfold loc3. rewrite Hl. destruct (nth_error (lt_data l) b) as [q|] eqn:En; [unfold ps in *; rewrite (nth_error_nth _ _ _ En) in *; apply nth_error_nth'; lia|].
    apply nth_error_None in En. unfold ps in Hj. rewrite (nth_overflow (lt_data l)) in Hj by exact En. cbn in Hj. lia. }
  pose proof (idx_bound _ _ Hin) as B0.
  destruct (W1 k b j _ L3) as [Hp|Hp].
  - destruct (kloc_at true k j _ L3 Hp) as (G1 & G2 & _). cbv iota in G1. rewrite (nth_error_nth _ _ _ G1).
    destruct (Z.eqb_spec (idx (su_shape s) (rl (nth j ps []))) (idx (su_shape s) (rl x))) as [He|He].
    + apply UserEqs.idx_inj in He; [|assumption..]. apply rl_inj in He; [|apply Hp|exact Lx]. rewrite He. destruct (pt_eq_dec x x); [|congruence].
      destruct (Z.eqb_spec (coord 0 x) IGNORE) as [E0|_]; [exfalso; rewrite <- He in E0; apply (proj2 Hp O); [apply gs_nd|exact E0]|]. cbn [negb andb].
      rewrite (kamp_at k a t j Hk). unfold py_masked. rewrite (proj2 (Z.eqb_neq _ IGNORE)) by (unfold IGNORE; lia). rring.
    + destruct (pt_eq_dec (nth j ps []) x) as [E0|_]; [exfalso; apply He; rewrite E0; reflexivity|]. rewrite andb_false_r. rring.
  - pose proof (kloc_ign true k j _ L3 Hp) as G1. cbv iota in G1. rewrite (nth_error_nth _ _ _ G1).
    rewrite (proj2 (Z.eqb_neq IGNORE _)) by (unfold IGNORE; lia).
    destruct (pt_eq_dec (nth j ps []) x) as [E0|_]; [|rewrite andb_false_r; rring]. rewrite <- E0, (proj2 Hp O) by apply gs_nd. rewrite Z.eqb_refl. cbn [negb andb]. rring.
Qed.
(** *** What the kernel needs *)
Lemma r_geom : geom_ok R_ops P PW.
Proof.
  apply scalar_par_geom.
  - rewrite gs_rank. apply gs_gs.
  - apply gs_gs.
  - intros d Hd. rewrite gs_rank in Hd. rewrite (gs_dim d Hd). pose proof (gs_ext_ok d Hd). destruct (gs_pw d). lia.
  - apply gs_dt0.
  - apply gs_cfl.
  - pose proof gs_freq. lra.
Qed.
Lemma r_loc (w : bool) k : Forall (loc_ok R_ops P) (kind_row (tout w) k b).
Proof.
  apply Forall_forall. intros l Hl. apply In_nth_error in Hl. destruct Hl as [j Hj]. rewrite kind_row_at3 in Hj.
  apply (extracted_loc_ok 0%R _ _ _ _ _ _ _ _ _ _ _ _ _ _ _ gs_Lfd gs_Lpw gs_nd gs_fd0 gs_pw0 gs_survey R_ops P w) with (k := k) (sh := b) (j := j).
  - cbn. rewrite gs_fd. reflexivity.
  - cbn [p_shape scalar_par]. apply gs_shape.
  - destruct w; assumption.
  - destruct w; exact Hj.
Qed.
(** Locations given twice have the same indices. *)
Lemma rows_same (w : bool) k k' : nth_error (tin w) k = nth_error (tin w) k' -> kind_row (tout w) k b = kind_row (tout w) k' b.
Proof.
  intros H. apply nth_error_ext'. intros j. assert (L : loc3 (tin w) k b j = loc3 (tin w) k' b j) by (unfold loc3; rewrite H; reflexivity).
  destruct (loc3 (tin w) k' b j) as [p|] eqn:E2.
  - destruct (tin_whole w k b j p L) as [Hp|Hp].
    + destruct (kloc_at w k j p L Hp) as (-> & _). destruct (kloc_at w k' j p E2 Hp) as (-> & _). reflexivity.
    + rewrite (kloc_ign w k j p L Hp), (kloc_ign w k' j p E2 Hp). reflexivity.
  - destruct (nth_error (kind_row (tout w) k b) j) as [i|] eqn:Ei; [destruct (kloc_of _ _ _ _ Ei); congruence|].
    destruct (nth_error (kind_row (tout w) k' b) j) as [i|] eqn:Ei'; [destruct (kloc_of _ _ _ _ Ei'); congruence|]. reflexivity.
Qed.
Lemma r_inject_out k amps' g p : srcl = kind_row (su_src s) k b -> interior R_ops P p = false -> inject R_ops P (p_src P) amps' g p = g p.
Proof.
  intros Hk Hp. unfold inject. rewrite (sumf_zero R_ops R_is_ring); [rring|]. intros [l x] Hin. apply in_combine_l in Hin. cbn [fst snd].
  cbn [p_src scalar_par] in Hin. rewrite Hk in Hin. pose proof (r_loc true k) as SO. cbv iota in SO. rewrite Forall_forall in SO. destruct (SO l Hin) as [Hl|[Hl Hi]].
  - destruct (Z.leb_spec 0 l); [lia|reflexivity].
  - destruct (pt_eq_dec (unidx (p_shape P) l) p) as [He|]; [rewrite He in Hi; congruence|]. rewrite andb_false_r. reflexivity.
Qed.
Lemma r_inner_domain x : inner M x -> domain M x.
Proof.
  intros [L H]. split; [exact L|]. intros d Hd. specialize (H d Hd). rewrite m_pw by exact Hd. destruct (gs_pw d). pose proof (fd_pad_pos (md_acc M)). lia.
Qed.
(** The data of receiver [j] of kind [k], if the kernel records [w]. *)
Lemma k_data k lr qs j q (r : Z -> list R) (w : nat -> field R_ops) n :
  nth_error rec k = Some (Some lr) -> nth_error (lt_data lr) b = Some qs -> nth_error qs j = Some q ->
  (forall t, (t < n)%nat -> r (Z.of_nat t) = gather R_ops P (kind_row (su_rec s) k b) (w t)) -> (forall t, (n <= t)%nat -> forall i, nth i (r (Z.of_nat t)) 0%R = 0%R) ->
  nth_error (kind_data o s k b r) j = Some (trace_at o (su_ratio s) (su_nt s) n (fun t x => w t (rl x)) q).
Proof.
  intros Hlr Hqs Hq Hr H0. assert (L3 : loc3 (tin false) k b j = Some q) by (unfold loc3; rewrite Hlr, Hqs; exact Hq).
  assert (Hj : exists i, nth_error (kind_row (su_rec s) k b) j = Some i /\
    forall f : field R_ops, (if 0 <=? i then f (unidx (su_shape s) i) else 0%R) = if negb (coord 0 q =? IGNORE) then f (rl q) else 0%R).
  { pose proof gs_nd as N0. destruct (W2 k b j q L3) as [Hp|Hp].
    - destruct (kloc_at false k j q L3 Hp) as (G1 & G2 & _). eexists. split; [exact G1|]. intros f. pose proof (idx_bound _ _ G2) as B0. destruct (Z.leb_spec 0 (idx (su_shape s) (rl q))); [|lia].
      rewrite unidx_idx by exact G2. destruct (Z.eqb_spec (coord 0 q) IGNORE) as [E0|_]; [exfalso; apply (proj2 Hp O N0 E0)|reflexivity].
    - pose proof (kloc_ign false k j q L3 Hp) as G1. cbv iota in G1. eexists. split; [exact G1|]. intros f. rewrite (proj2 Hp O N0), Z.eqb_refl. reflexivity. }
  destruct Hj as (i & Hj & Hval). unfold kind_data, trace_at. rewrite nth_error_map, nth_error_seq_lt by (apply nth_error_Some; congruence). cbn [option_map].
  destruct gs_fracs as [-> ->]. f_equal. f_equal. apply map_ext_in. intros t Ht. apply in_seq in Ht. destruct (Nat.ltb_spec t n) as [Hlt|Hge].
  - rewrite Hr by exact Hlt. unfold gather. rewrite andb_true_r.
    match goal with |- nth j (map ?f ?l) 0%R = _ => transitivity (f i); [apply nth_error_nth; apply (map_nth_error f j l); exact Hj|] end.
    exact (Hval (w t)).
  - rewrite H0 by lia. rewrite andb_false_r. reflexivity.
Qed.
Lemma k_data_length k r : length (kind_data o s k b r) = length (match nth_error rec k with Some (Some l) => nth b (lt_data l) [] | _ => [] end).
Proof. unfold kind_data. rewrite map_length, seq_length. exact (kind_row_length false k). Qed.
End Accepted.
