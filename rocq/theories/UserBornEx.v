(** * A concrete call of [scalar_born]: two shots on a line of forty cells. *)
From Coq Require Import List ZArith QArith Reals Lra Lia Bool Permutation.
From Verif Require Import Ops Sums Grid Stencil StencilOrder ScalarModel ScalarApi GeomModel Geom Geom2 GeomLocs SetupModel RealModel RealThm Resample PropReal BornModel
  UserModel UserThm UserCrop UserEx UserEqs UserStagModel UserStag UserAcoustic UserStagEx UserBornModel UserRegular UserBorn UserUnique.
Import ListNotations.
Local Open Scope Z_scope.

Lemma exr_setup models modes amps src rec vmin vmax nw sp pw sh E ms si ri : (0 <= vmin)%R -> get_n_batch src (repeat None nw) = Some 2 -> set_pml_width (One pw) 1 = Some [pw; pw] ->
  set_nt None (map oshape amps) 3 = Some 12 -> check_amplitudes_locations (map oshape amps) src = true -> set_source_amplitudes (map oshape amps) 2 12 3 0 = Some sh ->
  extract_survey 0%R models src rec (repeat None nw) sp None [1; 1] [pw; pw] modes 2 1 = Some (E, ms, si, ri) ->
  exists u, reg_setup models modes (exo sp pw) amps src rec vmin vmax nw 1 = Some u /\ su_nt u = 12 /\ su_nb u = 2 /\ su_ratio u = 3 /\ su_ext u = E /\ su_acc u = A2.
Proof.
  intros H0 HB HP HN HC HA HE. unfold reg_setup, setup_propagator. cbn [o_gs o_dt o_accuracy o_pw o_freq o_max_vel o_sp o_nt o_interval o_ft o_tp o_taper exo]. rewrite HB. cbv beta iota.
  assert (Hg : set_grid_spacing (One 5%R) 1 = Some [5%R]). { unfold set_grid_spacing. cbn. rewrite rle_no by lra. reflexivity. }
  rewrite Hg. unfold set_max_vel. rewrite Rabs_right by lra. rewrite rle_no by lra. rewrite C25_example.
  change (set_accuracy 2) with (Some A2). cbv beta iota. rewrite HP.
  assert (Hf : set_pml_freq None (4 / 1000 / 3) = Some 25%R).
  { unfold set_pml_freq, req. destruct (Req_EM_T _ _); [lra|]. destruct (Rlt_dec _ _); [lra|]. reflexivity. }
  rewrite Hf.
  assert (Hw : check_points_per_wavelength vmin 25 [5%R] = true).
  { unfold check_points_per_wavelength. rewrite (rle_yes 0 vmin) by exact H0. rewrite (rle_yes 0 25) by lra. cbn [existsb]. rewrite rle_no by lra. rewrite orb_true_iff. right. reflexivity. }
  rewrite Hw. cbn [negb]. rewrite HN. change (set_sampling_interval 1) with (Some 1). change (set_frac 0) with (Some 0%Q). cbv beta iota. rewrite HC. cbn [negb].
  unfold source_amplitudes. rewrite HA. change (repeat (2 / 2) (2 * 1)) with [1; 1]. rewrite HE.
  eexists. split; [reflexivity|]. cbn. auto.
Qed.

(** Background receivers next to the source; two receivers of the scattered wavefield, the second of the first shot is ignored. *)
Definition exbs (sp : survey_pad) (f : pt -> R) : ncall :=
  mkncall (mktens [40] (fun p => 1500 + 10 * IZR (coord 0 p))%R) (mktens [40] f) (Some (mktens [2; 1; 4] (fun p => IZR (1 + coord 0 p + coord 2 p))))
    (Some (mkloct 1 [[[20]]; [[18]]])) (Some (mkloct 1 [[[21]]; [[19]]])) (Some (mkloct 1 [[[22]; [IGNORE]]; [[19]; [25]]])) (exo sp 3).
Definition exb (sp : survey_pad) : ncall := exbs sp (fun p => 100 + IZR (coord 0 p))%R.
Lemma exb_setup sp f E :
  match extract_survey 0%R [n_v (exbs sp f); n_scatter (exbs sp f)] [n_src (exbs sp f); n_src (exbs sp f)] [n_bgrec (exbs sp f); n_rec (exbs sp f)] (repeat None 8) sp None [1; 1] [3; 3] [Replicate; Constant] 2 1
  with Some (E', _, _, _) => Some E' | None => None end = Some E ->
  exists u, born_setup (exbs sp f) 1 = Some u /\ su_nt u = 12 /\ su_nb u = 2 /\ su_ratio u = 3 /\ su_ext u = E /\ su_acc u = A2.
Proof.
  intros HE. unfold born_setup.
  assert (M : exists mv, max_abs (n_v (exbs sp f)) = Some mv).
  { unfold max_abs. destruct (map Rabs (elems (n_v (exbs sp f)))) as [|x l] eqn:El; [|eexists; reflexivity].
    apply (f_equal (@length _)) in El. rewrite map_length in El. unfold elems in El. rewrite map_length in El. discriminate El. }
  destruct M as [mv ->].
  match type of HE with match ?e with _ => _ end = _ => destruct e as [[[[E' ms] si] ri]|] eqn:X; [|discriminate] end. injection HE as ->.
  apply (exr_setup _ _ _ _ _ (min_nonzero (n_v (exbs sp f))) mv 8 sp 3 [[12; 2; 1]; [12; 2; 1]] E ms si ri); [apply min_nonzero_nonneg|reflexivity..|exact X].
Qed.
Lemma exb_cut : exists u, born_setup (exb (SPint 8)) 1 = Some u /\ su_nt u = 12 /\ su_nb u = 2 /\ su_ratio u = 3 /\ su_ext u = [(10, 34)] /\ su_acc u = A2.
Proof. apply exb_setup; vm_compute; reflexivity. Qed.
Lemma exb_cuts f : exists u, born_setup (exbs (SPint 8) f) 1 = Some u /\ su_nt u = 12 /\ su_nb u = 2 /\ su_ratio u = 3 /\ su_ext u = [(10, 34)] /\ su_acc u = A2.
Proof. apply exb_setup; vm_compute; reflexivity. Qed.
Lemma exb_all : exists u, born_setup (exb SPnone) 1 = Some u /\ su_nt u = 12 /\ su_nb u = 2 /\ su_ratio u = 3 /\ su_ext u = [(0, 40)] /\ su_acc u = A2.
Proof. apply exb_setup; vm_compute; reflexivity. Qed.
Lemma exb_bg : exists u, scalar_setup (background (exb SPnone)) 1 = Some u /\ su_nt u = 12 /\ su_nb u = 2 /\ su_ratio u = 3 /\ su_ext u = [(0, 40)] /\ su_acc u = A2.
Proof.
  unfold scalar_setup. change (c_v (background (exb SPnone))) with (n_v (exb SPnone)).
  assert (M : exists mv, max_abs (n_v (exb SPnone)) = Some mv).
  { unfold max_abs. destruct (map Rabs (elems (n_v (exb SPnone)))) as [|x l] eqn:El; [|eexists; reflexivity].
    apply (f_equal (@length _)) in El. rewrite map_length in El. unfold elems in El. rewrite map_length in El. discriminate El. }
  destruct M as [mv ->].
  destruct (extract_survey 0%R [n_v (exb SPnone)] [n_src (exb SPnone)] [n_bgrec (exb SPnone)] (repeat None 4) SPnone None [1; 1] [3; 3] [Replicate] 2 1) as [[[[E ms] si] ri]|] eqn:X.
  - pose proof X as Y. apply (f_equal (fun o => match o with Some (E, _, _, _) => E | None => [] end)) in Y. vm_compute in Y. subst E.
    apply (exr_setup [n_v (exb SPnone)] [Replicate] [n_amps (exb SPnone)] [n_src (exb SPnone)] [n_bgrec (exb SPnone)] (min_nonzero (n_v (exb SPnone))) mv 4 SPnone 3 [[12; 2; 1]] _ ms si ri); [apply min_nonzero_nonneg|reflexivity..|exact X].
  - exfalso. apply (f_equal (fun o => match o with Some _ => true | None => false end)) in X. vm_compute in X. discriminate X.
Qed.
Lemma exb_whole sp : locs_whole 1 [n_src (exb sp); n_src (exb sp)] /\ locs_whole 1 [n_bgrec (exb sp); n_rec (exb sp)].
Proof.
  split; intros k sh j p H; unfold loc3 in H; destruct k as [|[|[|k]]]; cbn in H; try discriminate;
  destruct sh as [|[|[|sh]]]; cbn in H; try discriminate; destruct j as [|[|[|j]]]; cbn in H; try discriminate; injection H as <-;
      first [left; (split; [reflexivity|]); intros [|d] Hd; cbn; unfold IGNORE; lia|right; (split; [reflexivity|]); intros [|d] Hd; cbn; unfold IGNORE; lia].
Qed.
Lemma exb_area sp : area_ok (background (exb sp)) 1.
Proof. right. exists O, O, O, [20]. split; [reflexivity|]. split; [reflexivity|]. intros [|d] Hd; cbn; unfold IGNORE; lia. Qed.
