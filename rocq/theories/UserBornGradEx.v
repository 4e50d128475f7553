(** * Cells outside the survey area, and a call of [scalar_born] with a step ratio of one. *)
From Coq Require Import List ZArith QArith Reals Lra Lia Bool Permutation.
From Verif Require Import Ops Sums Grid Stencil StencilOrder ScalarModel ScalarRefine ScalarFunc ScalarApi ScalarPhys ScalarMore GeomModel Geom Geom2 GeomLocs SetupModel RealModel RealThm Resample PropReal
  BornModel UserModel UserThm UserCrop UserEx UserEqs UserStagModel UserStag UserAcoustic UserBornModel UserRegular UserBorn UserGradModel UserGrad UserGradEx UserBornGradModel UserBornGrad.
Import ListNotations.
Local Open Scope Z_scope.

(** A cell outside the survey area has no copies. *)
Lemma scatter_outside_zero c nd s gf gs x d : born_setup c nd = Some s -> some_area (n_opts c) nd [n_src c; n_src c] [n_bgrec c; n_rec c] -> (d < nd)%nat ->
  (let y := coord (length (t_shape (n_scatter c)) - nd + d) x in y < fst (nth d (su_ext s) (0, 0)) \/ snd (nth d (su_ext s) (0, 0)) <= y) -> s_grad c nd s gf gs x = 0%R.
Proof.
  cbv zeta. intros Hs Ha Hd Hy. destruct (reg_of nd c s Hs) as [vm Hr].
  assert (Hl : length (t_shape (n_scatter c)) = nd \/ length (t_shape (n_scatter c)) = S nd).
  { destruct (gs_run _ _ _ _ _ _ _ _ _ _ _ Hr) as (_ & _ & _ & _ & Hm). unfold extract_models in Hm. cbv zeta in Hm. cbn [forallb] in Hm.
    assert (Lp : (length (sum_pad (repeat (o_accuracy (n_opts c) / 2)%Z (2 * nd)) (su_pw s)) / 2 = nd)%nat).
    { rewrite (pad_length _ _ _ (gs_Lfd (n_opts c) nd) (gs_Lpw _ _ _ _ _ _ _ _ _ _ _ Hr) (gs_nd _ _ _ _ _ _ _ _ _ _ _ Hr)). rewrite Nat.mul_comm. apply Nat.div_mul. lia. }
    rewrite Lp in Hm. destruct (negb _ || _) in Hm; [discriminate|]. destruct (_ && (_ && true)) eqn:Eb in Hm; [|discriminate]. rewrite andb_true_r in Eb. apply andb_prop in Eb. destruct Eb as [_ Eb].
    apply andb_prop in Eb. destruct Eb as [Eb _]. apply orb_prop in Eb. destruct Eb as [Eb|Eb]; apply Nat.eqb_eq in Eb; lia. }
  unfold s_grad. apply (sumf_zero R_ops R_is_ring). intros b _. apply (sumf_zero R_ops R_is_ring). intros i _.
  destruct (scell_of c nd s b i) as [y|] eqn:Ey; [|reflexivity]. destruct (pt_eq_dec y x) as [E|]; [exfalso|reflexivity]. subst y.
  unfold scell_of in Ey. cbv zeta in Ey. set (p := under _ _ _) in Ey. destruct (inb (su_ext s) p) eqn:Ei; [|discriminate]. injection Ey as <-.
  apply inb_spec in Ei. destruct Ei as [_ Ei]. pose proof (gs_LE _ _ _ _ _ _ _ _ _ _ _ Hr) as LE. specialize (Ei d ltac:(lia)). destruct Hl as [Hl|Hl]; rewrite Hl in Hy.
  - rewrite Nat.eqb_refl in Hy. replace (nd - nd + d)%nat with d in Hy by lia. lia.
  - destruct (Nat.eqb_spec (S nd) nd); [lia|]. replace (S nd - nd + d)%nat with (S d) in Hy by lia. unfold coord in *. cbn [nth] in Hy. lia.
Qed.

(** The scattering potential and the receivers of [UserBornEx], with [exg]'s wavespeed, sources and options. *)
Definition exd_rec : loct := mkloct 1 [[[22]; [IGNORE]]; [[19]; [25]]].
Definition exd_bg : loct := mkloct 1 [[[21]]; [[19]]].
Definition exd_sc : tens R := mktens [40] (fun p => 100 + IZR (coord 0 p))%R.
Definition exd : ncall := mkncall (c_v exg) exd_sc (c_amps exg) (Some exg_src) (Some exd_bg) (Some exd_rec) (mkopts (One 5%R) (1 / 1000)%R 2 (One 3) None (Some 2000%R) (SPint 8) None 1 0 0 false).
Lemma exd_setup : exists u, born_setup exd 1 = Some u /\ su_nt u = 4 /\ su_nb u = 2 /\ su_ratio u = 1 /\ su_ext u = [(10, 34)].
Proof.
  destruct (extract_survey 0%R [c_v exg; exd_sc] [Some exg_src; Some exg_src] [Some exd_bg; Some exd_rec] (repeat None 8) (SPint 8) None [1; 1] [3; 3] [Replicate; Constant] 2 1) as [[[[E ms] s] r]|] eqn:HE.
  2:{ exfalso. apply (f_equal (fun o => match o with Some _ => true | None => false end)) in HE. vm_compute in HE. discriminate HE. }
  assert (EE : E = [(10, 34)]). { pose proof HE as X. apply (f_equal (fun o => match o with Some (E, _, _, _) => E | None => [] end)) in X. vm_compute in X. symmetry. exact X. }
  unfold born_setup. cbn [n_v n_scatter n_amps n_src n_bgrec n_rec n_opts exd].
  assert (M : exists mv, max_abs (c_v exg) = Some mv).
  { unfold max_abs. destruct (map Rabs (elems (c_v exg))) as [|x l] eqn:El; [|eexists; reflexivity].
    apply (f_equal (@length _)) in El. rewrite map_length in El. unfold elems in El. rewrite map_length in El. discriminate El. }
  destruct M as [mv ->]. unfold reg_setup, setup_propagator. cbn [o_gs o_dt o_accuracy o_pw o_freq o_max_vel o_sp o_nt o_interval o_ft o_tp o_taper].
  change (get_n_batch [Some exg_src; Some exg_src] (repeat None (2 * (2 + 2 * 1)))) with (Some 2). cbv beta iota.
  assert (Hg : set_grid_spacing (One 5%R) 1 = Some [5%R]). { unfold set_grid_spacing. cbn. rewrite rle_no by lra. reflexivity. }
  rewrite Hg. unfold set_max_vel. rewrite Rabs_right by lra. rewrite rle_no by lra. rewrite exg_cfl.
  change (set_accuracy 2) with (Some A2). cbv beta iota. change (set_pml_width (One 3) 1) with (Some [3; 3]). cbv beta iota.
  assert (Hf : set_pml_freq None (1 / 1000 / 1) = Some 25%R).
  { unfold set_pml_freq, req. destruct (Req_EM_T _ _); [lra|]. destruct (Rlt_dec _ _); [lra|]. reflexivity. }
  rewrite Hf.
  assert (Hw : check_points_per_wavelength (min_nonzero (c_v exg)) 25 [5%R] = true).
  { unfold check_points_per_wavelength. rewrite (rle_yes 0 (min_nonzero _)) by apply min_nonzero_nonneg. rewrite (rle_yes 0 25) by lra. cbn [existsb]. rewrite rle_no by lra. rewrite orb_true_iff. right. reflexivity. }
  rewrite Hw. cbn [negb]. change (set_nt None (map oshape [c_amps exg; c_amps exg]) 1) with (Some 4). cbv beta iota.
  change (set_sampling_interval 1) with (Some 1). change (set_frac 0) with (Some 0%Q). cbv beta iota.
  change (check_amplitudes_locations (map oshape [c_amps exg; c_amps exg]) [Some exg_src; Some exg_src]) with true. cbn [negb].
  assert (Ha : exists am, source_amplitudes [c_amps exg; c_amps exg] 2 4 1 0 0 false = Some am).
  { unfold source_amplitudes. change (set_source_amplitudes (map oshape [c_amps exg; c_amps exg]) 2 4 1 0) with (Some [[4; 2; 2]; [4; 2; 2]]). eexists. reflexivity. }
  destruct Ha as [am ->]. change (2 / 2) with 1. change (repeat 1 (2 * 1)) with [1; 1]. change (2 * (2 + 2 * 1))%nat with 8%nat. rewrite HE.
  eexists. split; [reflexivity|]. cbn. auto.
Qed.
Lemma exd_area : some_area (n_opts exd) 1 [n_src exd; n_src exd] [n_bgrec exd; n_rec exd].
Proof. right. left. exists O, O, O, [20]. split; [reflexivity|]. split; [reflexivity|]. intros [|d] Hd; cbn; unfold IGNORE; lia. Qed.
Lemma exd_whole : locs_whole 1 [n_src exd; n_src exd] /\ locs_whole 1 [n_bgrec exd; n_rec exd].
Proof.
  split; intros k sh j p H; unfold loc3 in H; destruct k as [|[|[|k]]]; cbn in H; try discriminate;
  destruct sh as [|[|[|sh]]]; cbn in H; try discriminate; destruct j as [|[|[|j]]]; cbn in H; try discriminate; injection H as <-;
      first [left; (split; [reflexivity|]); intros [|d] Hd; cbn; unfold IGNORE; lia|right; (split; [reflexivity|]); intros [|d] Hd; cbn; unfold IGNORE; lia].
Qed.
