(** * A concrete call of [scalar]: two shots on a line of forty cells. *)
From Coq Require Import List ZArith QArith Reals Lra Lia Bool Permutation.
From Verif Require Import Ops Sums Grid Stencil StencilOrder ScalarModel ScalarRefine ScalarFunc ScalarApi GeomModel Geom Geom2 GeomLocs SetupModel RealModel RealThm Resample PropReal
  UserModel UserThm UserCrop.
Import ListNotations.
Local Open Scope Z_scope.

(** The second receiver of the first shot is ignored. *)
Definition exu_src : loct := mkloct 1 [[[20]]; [[18]]].
Definition exu_rec : loct := mkloct 1 [[[22]; [IGNORE]]; [[19]; [25]]].
Definition exu (sp : survey_pad) (interval : Z) : call :=
  mkcall (mktens [40] (fun p => 1500 + 10 * IZR (coord 0 p))%R) (One 5%R) (4 / 1000)%R (Some (mktens [2; 1; 4] (fun p => IZR (1 + coord 0 p + coord 2 p)))) (Some exu_src) (Some exu_rec)
    2 (One 3) None (Some 2000%R) sp None interval 0 0 false.

Lemma fold_min_nonneg l x : (0 <= x)%R -> (0 <= fold_left Rmin (map Rabs l) x)%R.
Proof. revert x; induction l as [|y l IH]; intros x Hx; [exact Hx|]. cbn. apply IH. apply Rmin_glb; [exact Hx|apply Rabs_pos]. Qed.
Lemma min_nonzero_nonneg t : (0 <= min_nonzero t)%R.
Proof. unfold min_nonzero. destruct (filter _ _) as [|x l]; cbn; [lra|]. apply fold_min_nonneg, Rabs_pos. Qed.
Lemma rle_yes x y : (x <= y)%R -> rle x y = true. Proof. intros H. unfold rle. destruct (Rle_dec x y); [reflexivity|contradiction]. Qed.
Lemma rle_no x y : (y < x)%R -> rle x y = false. Proof. intros H. unfold rle. destruct (Rle_dec x y); [lra|reflexivity]. Qed.

Lemma exu_setup sp k E ms s r : 0 <= k ->
  extract_survey 0%R [c_v (exu sp k)] [Some exu_src] [Some exu_rec] (repeat None 4) sp None [1; 1] [3; 3] [Replicate] 2 1 = Some (E, ms, s, r) ->
  exists u, scalar_setup (exu sp k) 1 = Some u /\ su_nt u = 12 /\ su_nb u = 2 /\ su_ratio u = 3 /\ su_ext u = E.
Proof.
  intros Hk HE. unfold scalar_setup.
  assert (M : exists mv, max_abs (c_v (exu sp k)) = Some mv).
  { unfold max_abs. destruct (map Rabs (elems (c_v (exu sp k)))) as [|x l] eqn:El; [|eexists; reflexivity].
    apply (f_equal (@length _)) in El. rewrite map_length in El. unfold elems in El. rewrite map_length in El. discriminate El. }
  destruct M as [mv ->]. unfold setup_propagator. cbn [get_n_batch present c_src exu].
  change (get_n_batch [Some exu_src] (repeat None (2 + 2 * 1))) with (Some 2). cbv beta iota.
  assert (Hg : set_grid_spacing (c_gs (exu sp k)) 1 = Some [5%R]). { unfold set_grid_spacing. cbn. rewrite rle_no by lra. reflexivity. }
  cbn [c_gs exu] in Hg. cbn [c_gs exu]. rewrite Hg. cbn [c_max_vel exu]. unfold set_max_vel. rewrite Rabs_right by lra. rewrite rle_no by lra. cbn [c_dt exu]. rewrite C25_example.
  change (set_accuracy (c_accuracy (exu sp k))) with (Some A2). cbv beta iota. change (set_pml_width (c_pw (exu sp k)) 1) with (Some [3; 3]). cbv beta iota.
  assert (Hf : set_pml_freq (c_freq (exu sp k)) (4 / 1000 / 3) = Some 25%R).
  { unfold set_pml_freq, req. destruct (Req_EM_T _ _); [lra|]. cbn [c_freq exu]. destruct (Rlt_dec _ _); [lra|]. reflexivity. }
  rewrite Hf.
  assert (Hw : check_points_per_wavelength (min_nonzero (c_v (exu sp k))) 25 [5%R] = true).
  { unfold check_points_per_wavelength. rewrite (rle_yes 0 (min_nonzero _)) by apply min_nonzero_nonneg. rewrite (rle_yes 0 25) by lra. cbn [existsb]. rewrite rle_no by lra. rewrite orb_true_iff. right. reflexivity. }
  rewrite Hw. cbn [negb]. change (set_nt (c_nt (exu sp k)) (map oshape [c_amps (exu sp k)]) 3) with (Some 12). cbv beta iota.
  assert (Hi : set_sampling_interval (c_interval (exu sp k)) = Some k). { unfold set_sampling_interval. cbn [c_interval exu]. destruct (Z.ltb_spec k 0); [lia|reflexivity]. }
  rewrite Hi. change (set_frac (c_ft (exu sp k))) with (Some 0%Q). change (set_frac (c_tp (exu sp k))) with (Some 0%Q). cbv beta iota.
  change (check_amplitudes_locations (map oshape [c_amps (exu sp k)]) [Some exu_src]) with true. cbn [negb].
  assert (Ha : exists am, source_amplitudes [c_amps (exu sp k)] 2 12 3 0 0 (c_taper (exu sp k)) = Some am).
  { unfold source_amplitudes. change (set_source_amplitudes (map oshape [c_amps (exu sp k)]) 2 12 3 0) with (Some [[12; 2; 1]]). eexists. reflexivity. }
  destruct Ha as [am ->]. cbn [c_sp exu c_rec c_accuracy Nat.mul Nat.add repeat] in HE |- *. change (2 / 2) with 1. cbn [c_v exu] in HE |- *. rewrite HE.
  eexists. split; [reflexivity|]. cbn. auto.
Qed.
(** The whole line, and eight cells around the locations. *)
Lemma exu_all k : 0 <= k -> exists u, scalar_setup (exu SPnone k) 1 = Some u /\ su_nt u = 12 /\ su_nb u = 2 /\ su_ratio u = 3 /\ su_ext u = [(0, 40)].
Proof.
  intros Hk. destruct (extract_survey 0%R [c_v (exu SPnone k)] [Some exu_src] [Some exu_rec] (repeat None 4) SPnone None [1; 1] [3; 3] [Replicate] 2 1) as [[[[E ms] s] r]|] eqn:X.
  - destruct (exu_setup SPnone k E ms s r Hk X) as (u & H & H1 & H2 & H3 & H4). exists u. repeat split; try assumption. rewrite H4.
    apply (f_equal (fun o => match o with Some (E, _, _, _) => E | None => [] end)) in X. vm_compute in X. symmetry. exact X.
  - exfalso. apply (f_equal (fun o => match o with Some _ => true | None => false end)) in X. vm_compute in X. discriminate X.
Qed.
Lemma exu_cut k : 0 <= k -> exists u, scalar_setup (exu (SPint 8) k) 1 = Some u /\ su_nt u = 12 /\ su_nb u = 2 /\ su_ratio u = 3 /\ su_ext u = [(10, 34)].
Proof.
  intros Hk. destruct (extract_survey 0%R [c_v (exu (SPint 8) k)] [Some exu_src] [Some exu_rec] (repeat None 4) (SPint 8) None [1; 1] [3; 3] [Replicate] 2 1) as [[[[E ms] s] r]|] eqn:X.
  - destruct (exu_setup (SPint 8) k E ms s r Hk X) as (u & H & H1 & H2 & H3 & H4). exists u. repeat split; try assumption. rewrite H4.
    apply (f_equal (fun o => match o with Some (E, _, _, _) => E | None => [] end)) in X. vm_compute in X. symmetry. exact X.
  - exfalso. apply (f_equal (fun o => match o with Some _ => true | None => false end)) in X. vm_compute in X. discriminate X.
Qed.

Lemma exu_whole : locs_whole 1 [Some exu_src] /\ locs_whole 1 [Some exu_rec].
Proof.
  split; intros k sh j p H; unfold loc3 in H; destruct k as [|[|k]]; cbn in H; try discriminate.
  - destruct sh as [|[|[|sh]]]; cbn in H; try discriminate; destruct j as [|[|j]]; cbn in H; try discriminate; injection H as <-; left; (split; [reflexivity|]);
      intros [|d] Hd; cbn; unfold IGNORE; lia.
  - destruct sh as [|[|[|sh]]]; cbn in H; try discriminate; destruct j as [|[|[|j]]]; cbn in H; try discriminate; injection H as <-;
      first [left; (split; [reflexivity|]); intros [|d] Hd; cbn; unfold IGNORE; lia|right; (split; [reflexivity|]); intros [|d] Hd; cbn; unfold IGNORE; lia].
Qed.
Lemma exu_area sp k : area_ok (exu sp k) 1.
Proof.
  right. exists O, O, O, [20]. split; [reflexivity|]. split; [reflexivity|]. intros [|d] Hd; cbn; unfold IGNORE; lia.
Qed.
Lemma exu_freq sp k : c_freq (exu sp k) <> Some 0%R. Proof. discriminate. Qed.
Lemma exu_ndim sp k : call_ndim (exu sp k) = Some 1%nat. Proof. reflexivity. Qed.
