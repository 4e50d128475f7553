(** * A concrete call of [elastic]: one shot in twelve by ten cells, water above rock. *)
From Coq Require Import List ZArith QArith Reals Lra Lia Bool Permutation.
From Verif Require Import Ops Sums Grid Stencil StencilOrder ScalarModel GeomModel Geom Geom2 GeomLocs SetupModel RealModel RealThm Resample PropReal
  Stag StagKernel StagRefine StagEqs ElasticModel StagSetup UserModel UserThm UserCrop UserEx UserStagModel UserStag UserAcoustic UserStagEx UserElastic.
Import ListNotations.
Local Open Scope Z_scope.

Lemma cfl_two : cfl_condition_n [30%R; 40%R] (2 / 100) 2000 cfl_eps cfl_c_max = Some ((2 / 100 / 3)%R, 3%Z).
Proof.
  assert (He : (0 <= cfl_eps)%R) by (unfold cfl_eps; lra). assert (Hc : (0 < cfl_c_max)%R) by (unfold cfl_c_max; lra).
  destruct (C25_returns [30%R; 40%R] (2 / 100) 2000 cfl_eps cfl_c_max) as (inner & ratio & E); try assumption; try lra; try discriminate.
  { repeat constructor; lra. }
  destruct (C25_cfl _ _ _ _ _ _ _ He Hc E) as (_ & _ & _ & _ & R1 & I1 & I2 & B & M). rewrite E.
  assert (S : sqrt (fold_right (fun g s => 1 / (g ^ 2) + s)%R 0%R [30%R; 40%R]) = (1 / 24)%R).
  { cbn [fold_right]. replace (1 / 30 ^ 2 + (1 / 40 ^ 2 + 0))%R with ((1 / 24) * (1 / 24))%R by lra. apply sqrt_square. lra. }
  rewrite S in B, M. replace (cfl_c_max / (1 / 24 * 2000))%R with (72 / 10000)%R in B, M by (unfold cfl_c_max; lra).
  assert (Hin : (0 < inner)%R) by nra. rewrite Rabs_right in B by lra.
  assert (Hr : (ratio = 3)%Z).
  { assert (L : (2 < ratio)%Z) by (apply lt_IZR; nra).
    assert (U : (ratio < 4)%Z).
    { destruct (Z_lt_ge_dec ratio 4) as [|G]; [assumption|exfalso]. specialize (M 3%Z ltac:(lia)).
      rewrite Rabs_right in M by lra. unfold cfl_eps in M. lra. }
    lia. }
  subst ratio. do 2 f_equal. lra.
Qed.

(** Water in the first five rows.  Sources: a force down and a pressure source; receivers for all three kinds. *)
Definition exe : ecall :=
  mkecall (mktens [12; 10] (fun _ => 4000)%R) (mktens [12; 10] (fun p => if coord 0 p <? 5 then 0 else 1000 + 100 * IZR (coord 1 p))%R) (mktens [12; 10] (fun _ => 1 / 2)%R)
    (fun k => match k with CV 1 => None | _ => Some (mktens [1; 1; 4] (fun p => IZR (1 + coord 2 p))) end)
    (fun k => match k with CV 1 => None | CV _ => Some (mkloct 2 [[[6; 5]]]) | CP => Some (mkloct 2 [[[3; 4]]]) end)
    (fun k => match k with CV 1 => Some (mkloct 2 [[[8; 6]]]) | CV _ => Some (mkloct 2 [[[7; 5]; [IGNORE; IGNORE]]]) | CP => Some (mkloct 2 [[[4; 3]]]) end)
    (mkopts (Each [30%R; 40%R]) (2 / 100)%R 2 (One 2) None (Some 2000%R) (SPint 2) None 1 0 0 false).
Lemma fold_min_nn l x : (0 <= x)%R -> (0 <= fold_left Rmin (map Rabs l) x)%R.
Proof. revert x. induction l as [|y l IH]; cbn; intros x Hx; [exact Hx|]. apply IH. apply Rmin_glb; [exact Hx|apply Rabs_pos]. Qed.
Lemma min_of_nonneg l : (0 <= min_of l)%R.
Proof. unfold min_of. destruct (filter _ l) as [|x r]; cbn; [lra|]. apply fold_min_nn, Rabs_pos. Qed.
Lemma min_speed_nonneg x y : (0 <= x)%R -> (0 <= y)%R -> (0 <= min_speed x y)%R.
Proof. intros Hx Hy. unfold min_speed. destruct (req x 0); [exact Hy|]. destruct (req y 0); [exact Hx|]. apply Rmin_glb; assumption. Qed.
Lemma max_of_some (l : list R) : l <> [] -> exists m, max_of l = Some m.
Proof. intros H. unfold max_of. destruct l; [contradiction|]. cbn. eexists. reflexivity. Qed.
Lemma exe_setup : exists u, elastic_setup exe 2 = Some u /\ su_nt u = 12 /\ su_nb u = 1 /\ su_ratio u = 3 /\ su_ext u = [(1, 11); (1, 9)] /\ su_acc u = A2.
Proof.
  unfold elastic_setup.
  change (forallb (fun d => half_ok (e_lamb exe) 2 d (e_src exe (CV d)) && half_ok (e_lamb exe) 2 d (e_rec exe (CV d)))%bool (seq 0 2)) with true. cbn [negb].
  assert (NE : elastic_speeds exe 2 <> []). { intros H. apply (f_equal (@length _)) in H. unfold elastic_speeds in H. rewrite map_length in H. vm_compute in H. discriminate H. }
  destruct (max_of_some (map fst (elastic_speeds exe 2))) as [m1 ->]. { destruct (elastic_speeds exe 2); [contradiction|discriminate]. }
  destruct (max_of_some (map snd (elastic_speeds exe 2))) as [m2 ->]. { destruct (elastic_speeds exe 2); [contradiction|discriminate]. }
  generalize (min_speed_nonneg _ _ (min_of_nonneg (map fst (elastic_speeds exe 2))) (min_of_nonneg (map snd (elastic_speeds exe 2)))).
  generalize (min_speed (min_of (map fst (elastic_speeds exe 2))) (min_of (map snd (elastic_speeds exe 2)))). intros vmin H0. generalize (Rmax m1 m2). intros vmax.
  unfold stag_setup, setup_propagator. cbn [o_gs o_dt o_accuracy o_pw o_freq o_max_vel o_sp o_nt o_interval o_ft o_tp o_taper exe e_opts].
  change (get_n_batch (map (e_src exe) (el_allC 2)) (repeat None (2 + 2 * (2 + 1) / 2 + 2 * 2 * 2))) with (Some 1). cbv beta iota.
  assert (Hg : set_grid_spacing (Each [30%R; 40%R]) 2 = Some [30%R; 40%R]). { unfold set_grid_spacing. cbn. rewrite !rle_no by lra. reflexivity. }
  rewrite Hg. unfold set_max_vel. rewrite Rabs_right by lra. rewrite rle_no by lra. rewrite cfl_two.
  change (set_accuracy 2) with (Some A2). cbv beta iota. change (set_pml_width (One 2) 2) with (Some [2; 2; 2; 2]). cbv beta iota.
  assert (Hf : set_pml_freq None (2 / 100 / 3) = Some 25%R).
  { unfold set_pml_freq, req. destruct (Req_EM_T _ _); [lra|]. destruct (Rlt_dec _ _); [lra|]. reflexivity. }
  rewrite Hf.
  assert (Hw : check_points_per_wavelength vmin 25 [30%R; 40%R] = true).
  { unfold check_points_per_wavelength. rewrite (rle_yes 0 vmin) by exact H0. rewrite (rle_yes 0 25) by lra. cbn [existsb]. rewrite !rle_no by lra. rewrite orb_true_iff. right. reflexivity. }
  rewrite Hw. cbn [negb]. change (set_nt None (map oshape (map (e_amps exe) (el_allC 2))) 3) with (Some 12). change (set_sampling_interval 1) with (Some 1). change (set_frac 0) with (Some 0%Q). cbv beta iota.
  change (check_amplitudes_locations (map oshape (map (e_amps exe) (el_allC 2))) (map (e_src exe) (el_allC 2))) with true. cbn [negb].
  unfold source_amplitudes. change (set_source_amplitudes (map oshape (map (e_amps exe) (el_allC 2))) 1 12 3 0) with (Some [[12; 1; 1]; [12; 1; 0]; [12; 1; 1]]). change (stag_fdp 2 2) with [1; 0; 1; 0].
  match goal with |- context [extract_survey ?a ?b ?c ?d ?e ?f ?g ?h ?i ?j ?k ?l] => assert (X : match extract_survey a b c d e f g h i j k l with Some (E', _, _, _) => Some E' | None => None end = Some [(1, 11); (1, 9)]) by (vm_compute; reflexivity); destruct (extract_survey a b c d e f g h i j k l) as [[[[E' ms] si] ri]|]; [|discriminate] end.
  injection X as ->. eexists. split; [reflexivity|]. cbn. auto.
Qed.
Lemma exe_whole : locs_whole 2 (map (e_src exe) (el_allC 2)) /\ locs_whole 2 (map (e_rec exe) (el_allC 2)).
Proof.
  split; intros k sh j p H; unfold loc3 in H; destruct k as [|[|[|[|k]]]]; cbn in H; try discriminate;
  destruct sh as [|[|[|sh]]]; cbn in H; try discriminate; destruct j as [|[|[|j]]]; cbn in H; try discriminate; injection H as <-;
      first [left; (split; [reflexivity|]); intros [|[|d]] Hd; cbn; unfold IGNORE; lia|right; (split; [reflexivity|]); intros [|[|d]] Hd; cbn; unfold IGNORE; lia|idtac].
Qed.
Lemma exe_area : some_area (e_opts exe) 2 (map (e_src exe) (el_allC 2)) (map (e_rec exe) (el_allC 2)).
Proof. right. left. exists O, O, O, [6; 5]. split; [reflexivity|]. split; [reflexivity|]. intros [|[|d]] Hd; cbn; unfold IGNORE; lia. Qed.

(** A line of forty cells; the velocity receiver in the last cell of the survey area. *)
Definition exe1 : ecall :=
  mkecall (mktens [40] (fun p => 4000 + IZR (coord 0 p))%R) (mktens [40] (fun _ => 1000)%R) (mktens [40] (fun _ => 1 / 2)%R)
    (fun k => Some (mktens [2; 1; 4] (fun p => IZR (1 + coord 0 p + coord 2 p))))
    (fun k => Some (match k with CP => mkloct 1 [[[20]]; [[18]]] | CV _ => mkloct 1 [[[21]]; [[19]]] end))
    (fun k => Some (match k with CP => mkloct 1 [[[22]; [IGNORE]]; [[19]; [23]]] | CV _ => mkloct 1 [[[23]]; [[20]]] end))
    (UserStagEx.exo (SPint 0) 0).
Lemma exe1_setup : exists u, elastic_setup exe1 1 = Some u /\ su_nt u = 12 /\ su_nb u = 2 /\ su_ratio u = 3 /\ su_ext u = [(18, 24)] /\ su_acc u = A2.
Proof.
  unfold elastic_setup.
  change (forallb (fun d => half_ok (e_lamb exe1) 1 d (e_src exe1 (CV d)) && half_ok (e_lamb exe1) 1 d (e_rec exe1 (CV d)))%bool (seq 0 1)) with true. cbn [negb].
  assert (NE : elastic_speeds exe1 1 <> []). { intros H. apply (f_equal (@length _)) in H. unfold elastic_speeds in H. rewrite map_length in H. vm_compute in H. discriminate H. }
  destruct (max_of_some (map fst (elastic_speeds exe1 1))) as [m1 ->]. { destruct (elastic_speeds exe1 1); [contradiction|discriminate]. }
  destruct (max_of_some (map snd (elastic_speeds exe1 1))) as [m2 ->]. { destruct (elastic_speeds exe1 1); [contradiction|discriminate]. }
  assert (X : match extract_survey 0%R [e_lamb exe1; e_mu exe1; e_buoy exe1] (map (e_src exe1) (el_allC 1)) (map (e_rec exe1) (el_allC 1)) (repeat None 4) (SPint 0) None [1; 0] [0; 0] [Replicate; Replicate; Replicate] 2 1
    with Some (E', _, _, _) => Some E' | None => None end = Some [(18, 24)]) by (vm_compute; reflexivity).
  match type of X with match ?e with _ => _ end = _ => destruct e as [[[[E' ms] si] ri]|] eqn:X'; [|discriminate] end. injection X as ->.
  apply (UserStagEx.exo_setup _ (map (e_amps exe1) (el_allC 1)) _ _ _ _ 4 (SPint 0) 0 [[12; 2; 1]; [12; 2; 1]] [(18, 24)] ms si ri);
    [apply min_speed_nonneg; apply min_of_nonneg|reflexivity|reflexivity|reflexivity|reflexivity|reflexivity|exact X'].
Qed.
Lemma exe1_refuted : exists c s,
  elastic_setup c 1 = Some s /\ locs_whole 1 (map (e_src c) (el_allC 1)) /\ locs_whole 1 (map (e_rec c) (el_allC 1)) /\
  some_area (e_opts c) 1 (map (e_src c) (el_allC 1)) (map (e_rec c) (el_allC 1)) /\
  t_shape (e_lamb c) = [40] /\ loc3 [e_rec c (CV 0)] 0 0 0 = Some [23] /\ nth_error (kind_row (su_rec s) 0 0) 0 = Some 6 /\
  ~ gcells (ecall_grid c 1 s) (on_v 0) [23] /\ ~ updated (elastic_par 1 s 0) (on_v 0) [6].
Proof.
  destruct exe1_setup as (s & H & N & B & Q & X & AC).
  assert (W : locs_whole 1 (map (e_src exe1) (el_allC 1)) /\ locs_whole 1 (map (e_rec exe1) (el_allC 1))).
  { split; intros k sh j p H'; unfold loc3 in H'; destruct k as [|[|[|k]]]; cbn in H'; try discriminate;
    destruct sh as [|[|[|sh]]]; cbn in H'; try discriminate; destruct j as [|[|[|j]]]; cbn in H'; try discriminate; injection H' as <-;
      first [left; (split; [reflexivity|]); intros [|d] Hd; cbn; unfold IGNORE; lia|right; (split; [reflexivity|]); intros [|d] Hd; cbn; unfold IGNORE; lia]. }
  destruct W as [W1 W2].
  assert (Ha : some_area (e_opts exe1) 1 (map (e_src exe1) (el_allC 1)) (map (e_rec exe1) (el_allC 1))).
  { right. left. exists O, O, O, [21]. split; [reflexivity|]. split; [reflexivity|]. intros [|d] Hd; cbn; unfold IGNORE; lia. }
  exists exe1, s. destruct (el_Hs _ _ _ H) as (vmn & vmx & nw & Hs).
  assert (PW : pw_of (su_pw s) 0 = (0, 0)) by (rewrite <- (g_pw Hs 0); reflexivity).
  assert (SH : su_shape s = [7]).
  { pose proof (gs_rank Hs Ha) as L. pose proof (gs_dim Hs Ha 0 Nat.lt_0_1) as D. rewrite PW, X, AC in D. cbn in D. destruct (su_shape s) as [|n [|]]; try discriminate. cbn in D. rewrite D. reflexivity. }
  assert (NG : ~ gcells (ecall_grid exe1 1 s) (on_v 0) [23]).
  { intros [_ G]. specialize (G O Nat.lt_0_1). cbn in G. rewrite X in G. cbn in G. lia. }
  assert (A3 : active_pt 1 [23]) by (split; [reflexivity|]; intros [|d] Hd; cbn; unfold IGNORE; lia).
  assert (RL : rel (su_ext s) (sum_pad (stag_fdp (o_accuracy (e_opts exe1)) 1) (su_pw s)) [23] = [6]).
  { apply (pt_ext 1); [apply (krl_length Hs)|reflexivity|]. intros d Hd. assert (d = O) by lia. subst d. rewrite (coord_krl Hs 0 [23] Hd), PW, X, AC. reflexivity. }
  destruct (kloc_at Hs Ha 0 false 0 0 [23] eq_refl A3) as (K1 & _ & _). rewrite RL, SH in K1.
  split; [exact H|]. split; [exact W1|]. split; [exact W2|]. split; [exact Ha|]. split; [reflexivity|]. split; [reflexivity|]. split; [exact K1|]. split; [exact NG|].
  rewrite <- RL. intros U. apply NG. apply (g_cells Hs Ha (el_sys 1) (el_pos 1) 0 (on_v 0) [23] eq_refl). exact U.
Qed.
