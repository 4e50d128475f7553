(** * Concrete calls of [acoustic]: two shots on a line of forty cells. *)
From Coq Require Import List ZArith QArith Reals Lra Lia Bool Permutation.
From Verif Require Import Ops Sums Grid Stencil StencilOrder ScalarModel GeomModel Geom Geom2 GeomLocs SetupModel RealModel RealThm Resample PropReal
  Stag StagKernel StagRefine StagEqs AcousticModel StagSetup UserModel UserThm UserCrop UserEx UserStagModel UserStag UserAcoustic.
Import ListNotations.
Local Open Scope Z_scope.

Definition exo (sp : survey_pad) (pw : Z) : opts := mkopts (One 5%R) (4 / 1000)%R 2 (One pw) None (Some 2000%R) sp None 1 0 0 false.
Lemma exo_setup models amps src rec vmin vmax nw sp pw sh E ms si ri : (0 <= vmin)%R -> get_n_batch src (repeat None nw) = Some 2 -> set_pml_width (One pw) 1 = Some [pw; pw] ->
  set_nt None (map oshape amps) 3 = Some 12 -> check_amplitudes_locations (map oshape amps) src = true -> set_source_amplitudes (map oshape amps) 2 12 3 0 = Some sh ->
  extract_survey 0%R models src rec (repeat None nw) sp None [1; 0] [pw; pw] (repeat Replicate (length models)) 2 1 = Some (E, ms, si, ri) ->
  exists u, stag_setup models (exo sp pw) amps src rec vmin vmax nw 1 = Some u /\ su_nt u = 12 /\ su_nb u = 2 /\ su_ratio u = 3 /\ su_ext u = E /\ su_acc u = A2.
Proof.
  intros H0 HB HP HN HC HA HE. unfold stag_setup, setup_propagator. cbn [o_gs o_dt o_accuracy o_pw o_freq o_max_vel o_sp o_nt o_interval o_ft o_tp o_taper exo]. rewrite HB. cbv beta iota.
  assert (Hg : set_grid_spacing (One 5%R) 1 = Some [5%R]). { unfold set_grid_spacing. cbn. rewrite rle_no by lra. reflexivity. }
  rewrite Hg. unfold set_max_vel. rewrite Rabs_right by lra. rewrite rle_no by lra. rewrite C25_example.
  change (set_accuracy 2) with (Some A2). cbv beta iota. rewrite HP.
  assert (Hf : set_pml_freq None (4 / 1000 / 3) = Some 25%R).
  { unfold set_pml_freq, req. destruct (Req_EM_T _ _); [lra|]. destruct (Rlt_dec _ _); [lra|]. reflexivity. }
  rewrite Hf.
  assert (Hw : check_points_per_wavelength vmin 25 [5%R] = true).
  { unfold check_points_per_wavelength. rewrite (rle_yes 0 vmin) by exact H0. rewrite (rle_yes 0 25) by lra. cbn [existsb]. rewrite rle_no by lra. rewrite orb_true_iff. right. reflexivity. }
  rewrite Hw. cbn [negb]. rewrite HN. change (set_sampling_interval 1) with (Some 1). change (set_frac 0) with (Some 0%Q). cbv beta iota. rewrite HC. cbn [negb].
  unfold source_amplitudes. rewrite HA. change (stag_fdp 2 1) with [1; 0]. rewrite HE.
  eexists. split; [reflexivity|]. cbn. auto.
Qed.

(** A pressure and a velocity source; receivers for both, the second pressure receiver of the first shot is ignored. *)
Definition exa (sp : survey_pad) (pw : Z) : acall :=
  mkacall (mktens [40] (fun p => 1500 + 10 * IZR (coord 0 p))%R) (mktens [40] (fun p => 2000 + IZR (coord 0 p))%R)
    (fun k => Some (mktens [2; 1; 4] (fun p => IZR (1 + coord 0 p + coord 2 p))))
    (fun k => Some (match k with XP => mkloct 1 [[[20]]; [[18]]] | XV _ => mkloct 1 [[[21]]; [[19]]] end))
    (fun k => Some (match k with XP => mkloct 1 [[[22]; [IGNORE]]; [[19]; [23]]] | XV _ => mkloct 1 [[[23]]; [[20]]] end))
    (exo sp pw).
Lemma exa_setup sp pw E : set_pml_width (One pw) 1 = Some [pw; pw] ->
  match extract_survey 0%R [a_v (exa sp pw); a_rho (exa sp pw)] (map (a_src (exa sp pw)) (ac_allX 1)) (map (a_rec (exa sp pw)) (ac_allX 1)) (repeat None 4) sp None [1; 0] [pw; pw] [Replicate; Replicate] 2 1
  with Some (E', _, _, _) => Some E' | None => None end = Some E ->
  exists u, acoustic_setup (exa sp pw) 1 = Some u /\ su_nt u = 12 /\ su_nb u = 2 /\ su_ratio u = 3 /\ su_ext u = E /\ su_acc u = A2.
Proof.
  intros HP HE. unfold acoustic_setup.
  assert (M : exists mv, max_abs (a_v (exa sp pw)) = Some mv).
  { unfold max_abs. destruct (map Rabs (elems (a_v (exa sp pw)))) as [|x l] eqn:El; [|eexists; reflexivity].
    apply (f_equal (@length _)) in El. rewrite map_length in El. unfold elems in El. rewrite map_length in El. discriminate El. }
  destruct M as [mv ->].
  change (forallb (fun d => half_ok (a_v (exa sp pw)) 1 d (a_src (exa sp pw) (XV d)) && half_ok (a_v (exa sp pw)) 1 d (a_rec (exa sp pw) (XV d)))%bool (seq 0 1)) with true. cbn [negb].
  match type of HE with match ?e with _ => _ end = _ => destruct e as [[[[E' ms] si] ri]|] eqn:X; [|discriminate] end. injection HE as ->.
  apply (exo_setup _ (map (a_amps (exa sp pw)) (ac_allX 1)) _ _ (min_nonzero (a_v (exa sp pw))) mv 4 sp pw [[12; 2; 1]; [12; 2; 1]] E ms si ri); [apply min_nonzero_nonneg|reflexivity|exact HP|reflexivity..|exact X].
Qed.
(** Eight cells around the locations with a PML of three cells, and none with no PML. *)
Lemma exa_cut : exists u, acoustic_setup (exa (SPint 8) 3) 1 = Some u /\ su_nt u = 12 /\ su_nb u = 2 /\ su_ratio u = 3 /\ su_ext u = [(10, 32)] /\ su_acc u = A2.
Proof. apply exa_setup; vm_compute; reflexivity. Qed.
Lemma exa_bare : exists u, acoustic_setup (exa (SPint 0) 0) 1 = Some u /\ su_nt u = 12 /\ su_nb u = 2 /\ su_ratio u = 3 /\ su_ext u = [(18, 24)] /\ su_acc u = A2.
Proof. apply exa_setup; vm_compute; reflexivity. Qed.
Lemma exa_whole sp pw : locs_whole 1 (map (a_src (exa sp pw)) (ac_allX 1)) /\ locs_whole 1 (map (a_rec (exa sp pw)) (ac_allX 1)).
Proof.
  split; intros k sh j p H; unfold loc3 in H; destruct k as [|[|[|k]]]; cbn in H; try discriminate;
  destruct sh as [|[|[|sh]]]; cbn in H; try discriminate; destruct j as [|[|[|j]]]; cbn in H; try discriminate; injection H as <-;
      first [left; (split; [reflexivity|]); intros [|d] Hd; cbn; unfold IGNORE; lia|right; (split; [reflexivity|]); intros [|d] Hd; cbn; unfold IGNORE; lia].
Qed.
Lemma exa_area sp pw : some_area (exo sp pw) 1 (map (a_src (exa sp pw)) (ac_allX 1)) (map (a_rec (exa sp pw)) (ac_allX 1)).
Proof.
  right. left. exists O, O, O, [20]. split; [reflexivity|]. split; [reflexivity|]. intros [|d] Hd; cbn; unfold IGNORE; lia.
Qed.
Lemma exa_refuted : exists c s,
  acoustic_setup c 1 = Some s /\ locs_whole 1 (map (a_src c) (ac_allX 1)) /\ locs_whole 1 (map (a_rec c) (ac_allX 1)) /\
  some_area (a_opts c) 1 (map (a_src c) (ac_allX 1)) (map (a_rec c) (ac_allX 1)) /\
  t_shape (a_v c) = [40] /\ loc3 [a_rec c (XV 0)] 0 0 0 = Some [23] /\ nth_error (kind_row (su_rec s) 1 0) 0 = Some 6 /\
  ~ gcells (call_grid c 1 s) (Nat.eqb 0) [23] /\ ~ updated (acoustic_par 1 s 0) (Nat.eqb 0) [6] /\
  forall rfmax, (0 <= rfmax)%R -> acoustic_models rfmax s 0 (MB 0) 6 = 0%R.
Proof.
  destruct exa_bare as (s & H & N & B & Q & X & AC). destruct (exa_whole (SPint 0) 0) as [W1 W2]. pose proof (exa_area (SPint 0) 0) as Ha.
  exists (exa (SPint 0) 0), s. destruct (ac_Hs _ _ _ H) as [vm Hs].
  assert (PW : pw_of (su_pw s) 0 = (0, 0)) by (rewrite <- (g_pw Hs 0); reflexivity).
  assert (SH : su_shape s = [7]).
  { pose proof (gs_rank Hs Ha) as L. pose proof (gs_dim Hs Ha 0 Nat.lt_0_1) as D. rewrite PW, X, AC in D. cbn in D. destruct (su_shape s) as [|n [|]]; try discriminate. cbn in D. rewrite D. reflexivity. }
  assert (NG : ~ gcells (call_grid (exa (SPint 0) 0) 1 s) (Nat.eqb 0) [23]).
  { intros [_ G]. specialize (G O Nat.lt_0_1). cbn in G. rewrite X in G. cbn in G. lia. }
  assert (A3 : active_pt 1 [23]) by (split; [reflexivity|]; intros [|d] Hd; cbn; unfold IGNORE; lia).
  assert (RL : rel (su_ext s) (sum_pad (stag_fdp (o_accuracy (a_opts (exa (SPint 0) 0))) 1) (su_pw s)) [23] = [6]).
  { apply (pt_ext 1); [apply (krl_length Hs)|reflexivity|]. intros d Hd. assert (d = O) by lia. subst d. rewrite (coord_krl Hs 0 [23] Hd), PW, X, AC. reflexivity. }
  destruct (kloc_at Hs Ha 0 false 1 0 [23] eq_refl A3) as (K1 & _ & _). rewrite RL, SH in K1.
  split; [exact H|]. split; [exact W1|]. split; [exact W2|]. split; [exact Ha|]. split; [reflexivity|]. split; [reflexivity|]. split; [exact K1|]. split; [exact NG|]. split.
  - rewrite <- RL. intros U. apply NG. apply (g_cells Hs Ha (ac_sys 1) ac_pos 0 (Nat.eqb 0) [23] eq_refl). exact U.
  - intros rfmax Hr. unfold acoustic_models, prepare_models. rewrite SH.
    change (StagSetup.safe_inv rfmax 0%R = 0%R). unfold StagSetup.safe_inv, StagSetup.above_rfmax. rewrite Rabs_R0. destruct (Rlt_dec _ _); [lra|reflexivity].
Qed.
