(** * Proofs about the gradients through [scalar_born] with respect to the scattering potential. *)
From Coq Require Import List ZArith QArith Reals Lra Lia Bool Permutation.
From Verif Require Import Ops Sums Grid Stencil StencilOrder DualNum ScalarModel ScalarRefine ScalarForward ScalarBackward ScalarAdjoint ScalarFunc ScalarApi ScalarPhys ScalarMore ScalarReach GeomModel Geom Geom2 GeomLocs SetupModel RealModel RealThm
  Resample ResampleThm BornModel BornBack Deriv DerivScalar DerivBorn DerivObj DoubleBack UserModel UserThm UserCrop UserEx UserEqs UserStagModel UserStag UserAcoustic UserBornModel UserRegular UserBorn UserGradModel UserGrad UserBornGradModel.
Import ListNotations.
Local Open Scope Z_scope.

Lemma tpad_const {X} (z : X) pads (t : tens X) : exists m, tpad z Constant pads t = Some m.
Proof. unfold tpad. cbv zeta. eexists. reflexivity. Qed.
Lemma extract_models_sc {X} (z : X) (v m m' : tens X) E pad nb ms : t_shape m' = t_shape m ->
  extract_models z [v; m] E pad [Replicate; Constant] nb = Some ms -> exists m0 m1 m1', ms = [m0; m1] /\ extract_models z [v; m'] E pad [Replicate; Constant] nb = Some [m0; m1'].
Proof.
  intros Hsh H. unfold extract_models in *. cbv zeta in *. cbn [map combine forallb sequence fst snd] in *. rewrite Hsh. destruct (negb _ || _); [discriminate|].
  destruct (_ && (_ && true)) in *; [|discriminate].
  destruct (length (t_shape m) =? length pad / 2)%nat eqn:El; cbn [t_shape] in *; rewrite ?Hsh; (destruct (_ && (_ && true)) in *; [|discriminate]);
    (destruct (tpad z Replicate _ _) as [m0|]; [|discriminate]).
  - destruct (tpad_const z (reverse_pad pad) (tslice (mktens (1 :: t_shape m) (fun p => t_at m' (tl p))) (None :: map Some E))) as [m1' E1]. rewrite E1.
    destruct (tpad z Constant _ _) as [m1|] in H; [|discriminate]. injection H as <-. exists m0, m1, m1'. split; reflexivity.
  - destruct (tpad_const z (reverse_pad pad) (tslice m' (None :: map Some E))) as [m1' E1]. rewrite E1.
    destruct (tpad z Constant _ _) as [m1|] in H; [|discriminate]. injection H as <-. exists m0, m1, m1'. split; reflexivity.
Qed.
Lemma extract_survey_sc {X} (z : X) (v m m' : tens X) src rec wfs sp origin fdp pw nb nd E ms s r : t_shape m' = t_shape m ->
  extract_survey z [v; m] src rec wfs sp origin fdp pw [Replicate; Constant] nb nd = Some (E, ms, s, r) ->
  exists m0 m1 m1', ms = [m0; m1] /\ extract_survey z [v; m'] src rec wfs sp origin fdp pw [Replicate; Constant] nb nd = Some (E, [m0; m1'], s, r).
Proof.
  intros Hsh H. unfold extract_survey in *. cbv zeta in *. destruct (negb _ && _); [discriminate|]. destruct (negb _); [discriminate|].
  match type of H with match ?e with Some _ => _ | None => None end = _ => destruct e as [E'|]; [|discriminate] end.
  destruct (extract_models z [v; m] _ _ _ _) as [l|] eqn:Em; [|discriminate]. destruct (extract_models_sc z v m m' _ _ _ _ Hsh Em) as (m0 & m1 & m1' & El & ->).
  destruct (extract_locations src _ _ _); [|discriminate]. destruct (extract_locations rec _ _ _); [|discriminate]. destruct (prepare_wavefields _ _ _ _); [|discriminate].
  injection H as <- <- <- <-. exists m0, m1, m1'. split; [exact El|reflexivity].
Qed.
Lemma born_setup_with c nd s m' : born_setup c nd = Some s -> t_shape m' = t_shape (n_scatter c) ->
  exists m0 m1 m1', su_models s = [m0; m1] /\ born_setup (with_scatter c m') nd = Some (mksetup (su_ext s) [m0; m1'] (su_amps s) (su_src s) (su_rec s) (su_gs s) (su_dt s) (su_nt s) (su_nb s) (su_ratio s) (su_interval s)
    (su_acc s) (su_pw s) (su_freq s) (su_vel s) (su_ft s) (su_tp s)).
Proof.
  intros H Hsh. unfold born_setup, reg_setup, setup_propagator in *. cbn [with_scatter n_v n_scatter n_amps n_src n_bgrec n_rec n_opts].
  destruct (max_abs (n_v c)) as [mv|]; [|discriminate].
  destruct (get_n_batch _ _) as [nb|]; [|discriminate]. destruct (set_grid_spacing _ _) as [gs|]; [|discriminate]. destruct (set_max_vel _ _) as [vel|]; [|discriminate].
  destruct (cfl_condition_n _ _ _ _ _) as [[dt ratio]|]; [|discriminate]. destruct (set_accuracy _) as [ac|]; [|discriminate]. destruct (set_pml_width _ _) as [pw|]; [|discriminate].
  destruct (set_pml_freq _ _) as [fq|]; [|discriminate]. destruct (negb (check_points_per_wavelength _ _ _)); [discriminate|]. destruct (set_nt _ _ _) as [nt|]; [|discriminate].
  destruct (set_sampling_interval _) as [iv|]; [|discriminate]. destruct (set_frac (o_ft _)) as [ft|]; [|discriminate]. destruct (set_frac (o_tp _)) as [tp|]; [|discriminate].
  destruct (negb _); [discriminate|]. destruct (source_amplitudes _ _ _ _ _ _ _) as [am|]; [|discriminate].
  destruct (extract_survey 0%R [n_v c; n_scatter c] _ _ _ _ _ _ _ _ _ _) as [[[[E ms] sl] rl]|] eqn:Es; [|discriminate]. injection H as <-.
  destruct (extract_survey_sc 0%R (n_v c) (n_scatter c) m' _ _ _ _ _ _ _ _ _ _ _ _ _ Hsh Es) as (m0 & m1 & m1' & El & ->). exists m0, m1, m1'. split; [exact El|reflexivity].
Qed.

Section Grad.
Variables (c : ncall) (nd : nat) (s : setup).
Notation o := (n_opts c).
Notation srcs := [n_src c; n_src c].
Notation recs := [n_bgrec c; n_rec c].
Hypothesis Hs : born_setup c nd = Some s.
Hypothesis W1 : locs_whole nd srcs.
Hypothesis W2 : locs_whole nd recs.
Hypothesis Ha : some_area o nd srcs recs.
Hypothesis Hf : o_freq o <> Some 0%R.
Hypothesis Hratio : su_ratio s = 1.
Hypothesis Hint : o_interval o = 1.
Variables (S : R -> tens R) (ds : pt -> R).
Hypothesis S0 : S 0%R = n_scatter c.
Hypothesis Ssh : forall h, t_shape (S h) = t_shape (n_scatter c).
Hypothesis HS : forall p, inb (abox (t_shape (n_scatter c))) p = true -> derivable_pt_lim (fun h => t_at (S h) p) 0 (ds p).
Notation ch h := (with_scatter c (S h)).
Notation E := (su_ext s).
Notation pad := (sum_pad (repeat (o_accuracy o / 2) (2 * nd)) (su_pw s)).
Notation n := (prodZ (su_shape s)).

Lemma reg_of c' s' : born_setup c' nd = Some s' -> exists vm, reg_setup [n_v c'; n_scatter c'] [Replicate; Constant] (n_opts c') [n_amps c'; n_amps c'] [n_src c'; n_src c'] [n_bgrec c'; n_rec c'] (min_nonzero (n_v c')) vm (2 * (2 + 2 * nd)) nd = Some s'.
Proof. unfold born_setup. destruct (max_abs (n_v c')) as [vm|]; [|discriminate]. intros H. exists vm. exact H. Qed.

Definition sh (h : R) : setup := match born_setup (ch h) nd with Some s' => s' | None => s end.
Lemma sh_ok h : born_setup (ch h) nd = Some (sh h) /\ exists m0 m1 m1', su_models s = [m0; m1] /\ sh h = mksetup (su_ext s) [m0; m1'] (su_amps s) (su_src s) (su_rec s) (su_gs s) (su_dt s) (su_nt s) (su_nb s) (su_ratio s) (su_interval s)
    (su_acc s) (su_pw s) (su_freq s) (su_vel s) (su_ft s) (su_tp s).
Proof. unfold sh. destruct (born_setup_with c nd s (S h) Hs (Ssh h)) as (m0 & m1 & m1' & Em & ->). split; [reflexivity|]. exists m0, m1, m1'. split; [exact Em|reflexivity]. Qed.
Lemma sh0 : sh 0%R = s.
Proof. unfold sh. rewrite S0. replace (with_scatter c (n_scatter c)) with c by (destruct c; reflexivity). rewrite Hs. reflexivity. Qed.
Lemma sh_shape h : su_shape (sh h) = su_shape s.
Proof. destruct (sh_ok h) as (_ & m0 & m1 & m1' & Em & Eq). rewrite Eq. unfold su_shape. rewrite Em. reflexivity. Qed.
Lemma sh_par h b : born_par (sh h) b = born_par s b.
Proof. unfold born_par. rewrite sh_shape. destruct (sh_ok h) as (_ & m0 & m1 & m1' & Em & Eq). rewrite Eq. reflexivity. Qed.
Lemma sh_v h b : kind_model (sh h) 0 b = kind_model s 0 b.
Proof. unfold kind_model. cbv zeta. rewrite sh_shape. destruct (sh_ok h) as (_ & m0 & m1 & m1' & Em & Eq). rewrite Eq, Em. reflexivity. Qed.
Lemma sh_f h b : born_f (sh h) b = born_f s b.
Proof. unfold born_f. rewrite sh_par, sh_v. destruct (sh_ok h) as (_ & m0 & m1 & m1' & Em & Eq). rewrite Eq. reflexivity. Qed.
Lemma sh_fsc h b t : born_fsc (sh h) b t = scale_amps_sc R_ops (born_par s b) (kind_model s 0 b) (kind_model (sh h) 1 b) (kind_row (su_src s) 1 b) (kind_amps s 1 b t).
Proof. unfold born_fsc. rewrite sh_par, sh_v. set (M := kind_model (sh h) 1 b). destruct (sh_ok h) as (_ & m0 & m1 & m1' & Em & Eq). rewrite Eq. reflexivity. Qed.
Lemma sh_data h b B : born_data (ch h) (sh h) b B = born_data c s b B.
Proof. destruct (sh_ok h) as (_ & m0 & m1 & m1' & Em & Eq). rewrite Eq. reflexivity. Qed.
Lemma shape_pos : Forall (fun m => 0 < m) (su_shape s).
Proof.
  destruct (reg_of c s Hs) as [vm Hr]. apply Forall_forall. intros m Hm. destruct (In_nth _ _ 0 Hm) as (d & Hd & <-). destruct (bn_geom c nd s O _ _ _ Hr Ha Hf d Hd) as (g1 & g2 & g3 & _).
  change (p_shape (born_par s 0)) with (su_shape s) in g3. pose proof (fd_pad_pos (p_acc (born_par s 0))). lia.
Qed.
Lemma under_len i : length (under E pad (unidx (su_shape s) i)) = nd.
Proof. destruct (reg_of c s Hs) as [vm Hr]. unfold under. rewrite map_length, seq_length. exact (gs_LE _ _ _ _ _ _ _ _ _ _ _ Hr). Qed.
Lemma sh_model h b i : Z.of_nat b < su_nb s -> 0 <= i < n -> kind_model (sh h) 1 b i = match scell_of c nd s b i with Some y => t_at (S h) y | None => 0%R end.
Proof.
  intros Hb Hi. destruct (sh_ok h) as (H & m0 & m1 & m1' & Em & Eq). destruct (reg_of _ _ H) as [vm Hr].
  destruct (gs_model _ _ _ _ _ _ _ _ _ _ _ Hr Ha 1%nat (S h) Constant eq_refl eq_refl) as (m' & Hm & Hbt & Hsh & Hv).
  unfold kind_model. cbv zeta. rewrite (nth_error_nth _ _ _ Hm), Hsh. cbn [hd]. rewrite sh_shape.
  assert (Eb : su_nb (sh h) = su_nb s) by (rewrite Eq; reflexivity). rewrite Eb in Hbt.
  assert (Lu : length (unidx (su_shape s) i) = nd).
  { destruct (reg_of c s Hs) as [vm' Hr']. pose proof (unidx_in_array _ _ shape_pos Hi) as X. apply inb_length in X. rewrite X, abox_length. exact (gs_rank _ _ _ _ _ _ _ _ _ _ _ Hr' Ha). }
  rewrite Hv; [|destruct (Z.eqb_spec (mbatch nd (S h)) 1); lia|exact Lu].
  assert (Ee : su_ext (sh h) = su_ext s) by (rewrite Eq; reflexivity). assert (Ep : su_pw (sh h) = su_pw s) by (rewrite Eq; reflexivity). rewrite Ee, Ep. cbn [with_scatter n_opts].
  unfold scell_of. cbv zeta. destruct (inb E _); [|reflexivity]. unfold mval, mbatch. rewrite (Ssh h). destruct (_ =? nd)%nat; reflexivity.
Qed.
Lemma scell_in b i y : Z.of_nat b < su_nb s -> scell_of c nd s b i = Some y -> inb (abox (t_shape (n_scatter c))) y = true.
Proof.
  intros Hb. destruct (reg_of c s Hs) as [vm Hr]. destruct (gs_run _ _ _ _ _ _ _ _ _ _ _ Hr) as (Ls & LE & _ & _ & Hm).
  unfold scell_of. cbv zeta. pose proof (under_len i) as Lu. set (p := under E pad (unidx (su_shape s) i)) in *. destruct (inb E p) eqn:Ei; [|discriminate]. intros Hy. injection Hy as <-.
  assert (Hp : inb (abox (last_n nd (t_shape (n_v c)))) p = true).
  { cbn [nth hd] in Ls. apply inb_spec in Ei. destruct Ei as [_ Ei]. apply inb_spec. rewrite abox_length. cbn in Ls. split; [lia|]. intros d Hd.
    pose proof (gs_ext_ok _ _ _ _ _ _ _ _ _ _ _ Hr Ha d ltac:(lia)) as X. specialize (Ei d ltac:(lia)). unfold abox. rewrite (map_nth (fun m => (0, m)) _ 0 d : nth d _ (0, 0) = _). cbn [fst snd]. cbn in X. lia. }
  unfold extract_models in Hm. cbv zeta in Hm. cbn [forallb] in Hm.
  assert (Lp : (length pad / 2 = nd)%nat). { rewrite (pad_length _ _ _ (gs_Lfd o nd) (gs_Lpw _ _ _ _ _ _ _ _ _ _ _ Hr) (gs_nd _ _ _ _ _ _ _ _ _ _ _ Hr)). rewrite Nat.mul_comm. apply Nat.div_mul. lia. }
  rewrite Lp in Hm. destruct (negb _ || _) in Hm; [discriminate|]. destruct (_ && (_ && true)) eqn:Eb in Hm; [|discriminate]. rewrite andb_true_r in Eb. apply andb_prop in Eb. destruct Eb as [_ Eb].
  apply andb_prop in Eb. destruct Eb as [Eb Ec]. destruct (list_eq_dec _ _ _) as [Ec'|] in Ec; [|discriminate]. rewrite <- Ec' in Hp.
  destruct (gs_model _ _ _ _ _ _ _ _ _ _ _ Hr Ha 1%nat (n_scatter c) Constant eq_refl eq_refl) as (m' & _ & Hbt & _ & _). unfold mbatch in Hbt.
  destruct (length (t_shape (n_scatter c)) =? nd)%nat eqn:El.
  - apply Nat.eqb_eq in El. unfold last_n in Hp. rewrite El, Nat.sub_diag in Hp. exact Hp.
  - cbn in Eb. apply Nat.eqb_eq in Eb. unfold last_n in Hp. rewrite Eb in Hp. replace (nd + 1 - nd)%nat with 1%nat in Hp by lia.
    destruct (t_shape (n_scatter c)) as [|m r]; [cbn in Eb; lia|]. cbn [skipn] in Hp. cbn [hd] in *. cbn [abox map inb]. rewrite !andb_true_iff, Z.leb_le, Z.ltb_lt. split; [|exact Hp].
    destruct (Z.eqb_spec m 1); lia.
Qed.
Lemma src_in b k : Z.of_nat b < su_nb s -> (k < length (kind_row (su_src s) 1 b))%nat -> 0 <= py_masked (nth k (kind_row (su_src s) 1 b) IGNORE) < n.
Proof.
  intros Hb Hk. destruct (reg_of c s Hs) as [vm Hr]. assert (P0 : 0 < n).
  { pose proof shape_pos as X. clear -X. induction (su_shape s) as [|m r IH]; cbn; [lia|]. inversion X; subst. specialize (IH H2). cbn in IH. nia. }
  assert (Hj : nth_error (kind_row (su_src s) 1 b) k = Some (nth k (kind_row (su_src s) 1 b) IGNORE)) by (apply nth_error_nth'; exact Hk).
  destruct (kloc_of _ _ _ _ _ _ _ _ _ _ _ Hr b true 1%nat k _ Hj) as [p L3].
  destruct (W1 1%nat b k _ L3) as [Hp|Hp].
  - destruct (kloc_at _ _ _ _ _ _ _ _ _ _ _ Hr Ha b true 1%nat k _ L3 Hp) as (G1 & G2 & _). cbv iota in G1. rewrite (nth_error_nth _ _ _ G1). pose proof (idx_bound _ _ G2) as B0.
    unfold py_masked. destruct (_ =? IGNORE); [lia|exact B0].
  - pose proof (kloc_ign _ _ _ _ _ _ _ _ _ _ _ Hr b true 1%nat k _ L3 Hp) as G1. cbv iota in G1. rewrite (nth_error_nth _ _ _ G1). unfold py_masked. rewrite Z.eqb_refl. lia.
Qed.

(** *** Amplitudes *)
Notation src b := (kind_row (su_src s) 1 b).
Notation spos b k := (py_masked (nth k (kind_row (su_src s) 1 b) IGNORE)).
Definition dsc (b : nat) : arr R_ops := fun i => match scell_of c nd s b i with Some y => ds y | None => 0%R end.
Definition damp (b k : nat) (t : Z) : R := (- 2 * nth k (kind_amps s 1 b t) 0 * kind_model s 0 b (spos b k) * su_dt s ^ 2 * dsc b (spos b k))%R.
Definition drows (b : nat) (t : Z) : list R := map (fun k => damp b k t) (seq 0 (length (src b))).
Lemma drows_nth b t k : (k < length (src b))%nat -> nth k (drows b t) 0%R = damp b k t.
Proof. intros Hk. unfold drows. exact (nth_mapseq (fun k => damp b k t) _ k 0%R Hk). Qed.
Lemma amps_len b t : length (kind_amps s 1 b t) = length (src b).
Proof. unfold kind_amps. rewrite map_length, seq_length. reflexivity. Qed.
Lemma fsc_len h b t : length (born_fsc (sh h) b t) = length (src b).
Proof. rewrite sh_fsc. unfold scale_amps_sc. rewrite map_length, combine_length, amps_len. lia. Qed.
Lemma fsc_nth h b t k : (k < length (src b))%nat ->
  nth k (born_fsc (sh h) b t) 0%R = (- 2 * nth k (kind_amps s 1 b t) 0 * kind_model s 0 b (spos b k) * su_dt s ^ 2 * kind_model (sh h) 1 b (spos b k))%R.
Proof.
  intros Hk. rewrite sh_fsc. unfold scale_amps_sc. match goal with |- nth _ (map ?F0 _) _ = _ => set (F := F0) end.
  rewrite (nth_indep _ 0%R (F (IGNORE, 0%R))) by (rewrite map_length, combine_length, amps_len; lia).
  etransitivity; [exact (map_nth F _ (IGNORE, 0%R) k)|]. rewrite combine_nth by (symmetry; apply amps_len). unfold F. cbn [fst snd]. unfold born_par, scalar_par. cbn. ring.
Qed.
Lemma model_curve b : Z.of_nat b < su_nb s -> acurve n (fun h => kind_model (sh h) 1 b) (dsc b).
Proof.
  intros Hb i Hi. apply (derivable_ext (fun h => match scell_of c nd s b i with Some y => t_at (S h) y | None => 0%R end)); [intros h; symmetry; apply sh_model; assumption|].
  unfold dsc. destruct (scell_of c nd s b i) as [y|] eqn:Ey; [apply HS; exact (scell_in b i y Hb Ey)|apply derivable_pt_lim_const].
Qed.
Lemma fsc_curve b : Z.of_nat b < su_nb s -> rcurve (su_nt s) (fun h => born_fsc (sh h) b) (drows b).
Proof.
  intros Hb t Ht. assert (LD : length (drows b t) = length (src b)) by (unfold drows; rewrite map_length, seq_length; reflexivity). rewrite LD. split; [intros h; apply fsc_len|].
  intros k Hk. rewrite drows_nth by exact Hk. unfold damp. set (e := (- 2 * nth k (kind_amps s 1 b t) 0 * kind_model s 0 b (spos b k) * su_dt s ^ 2)%R).
  apply (derivable_ext (fun h => e * kind_model (sh h) 1 b (spos b k))%R); [intros h; symmetry; exact (fsc_nth h b t k Hk)|].
  exact (derivable_scal e (fun h => kind_model (sh h) 1 b (spos b k)) _ (model_curve b Hb (spos b k) (src_in b k Hb Hk))).
Qed.
Lemma f_len b t : length (born_f s b t) = length (src b).
Proof.
  destruct (reg_of c s Hs) as [vm Hr]. unfold born_f, scale_amps, kind_amps. rewrite map_length, combine_length, map_length, seq_length.
  rewrite (bn_rows c nd s b _ _ _ Hr W1 W2 Ha). lia.
Qed.
Lemma nt_pos : 0 <= su_nt s.
Proof.
  destruct (reg_of c s Hs) as [vm Hr]. destruct (gs_parts _ _ _ _ _ _ _ _ _ _ _ Hr) as (_ & _ & _ & _ & _ & _ & Hnt & _).
  unfold set_nt in Hnt. rewrite Hratio in Hnt. destruct (1 <? 1) in Hnt; [discriminate|].
  match type of Hnt with match ?e with Some _ => _ | None => None end = _ => destruct e as [m|]; [|discriminate] end. destruct (Z.ltb_spec m 0); [discriminate|]. injection Hnt as Hnt. lia.
Qed.
(** *** One shot *)
Notation nr b := (length (kind_row (su_rec s) 1 b)).
Notation ntn := (Z.to_nat (su_nt s)).
Lemma data_nth b r j : (j < nr b)%nat -> nth j (kind_data o s 1 b r) [] = map (fun t => nth j (r (Z.of_nat t)) 0%R) (seq 0 ntn).
Proof.
  intros Hj. unfold kind_data. rewrite Hratio. change (Z.to_nat 1) with 1%nat.
  etransitivity; [exact (nth_mapseq (fun j => downsample 1 (su_ft s) (su_tp s) (o_taper o) 0%R (map (fun t => nth j (r (Z.of_nat t)) 0%R) (seq 0 ntn))) _ j [] Hj)|].
  apply (proj2 (ratio_one _ _ _ _)).
Qed.
Notation gr0 b := (fun _ : Z => map (fun _ => 0%R) (kind_row (su_rec s) 0 b)).
Lemma data_obj b obj g B0 : data_gradient (nr b) ntn obj (kind_data o s 1 b (bo_rsc R_ops B0)) g ->
  born_obj_gradient (born_par s b) (su_nt s) (fun _ _ _ r => obj (kind_data o s 1 b r)) B0 (ScalarPhys.zero_st R_ops) (gr0 b) (ScalarPhys.zero_st R_ops) (born_data_back s b g).
Proof.
  intros Hg u r0 us r du dr0 dus dr _ _ _ Er _ _ _ Hr. change (ScalarPhys.zero_st R_ops) with DerivObj.zero_st. rewrite !udot_zero.
  assert (Z0 : tdot (K := R_ops) (su_nt s) (gr0 b) dr0 = 0%R). { unfold tdot. apply sumf0. intros t. apply ldot_zero. intros j. apply nth_zeros. }
  rewrite Z0.
  eapply derivable_eq; [|apply (Hg (fun h => kind_data o s 1 b (r h)) (fun j t => nth j (dr (Z.of_nat t)) 0%R))].
  - transitivity (tdot (K := R_ops) (su_nt s) (born_data_back s b g) dr); [|assert (A0 : forall x : R, x = (0 + 0 + 0 + x)%R) by (intros; ring); exact (A0 _)].
    rewrite (sumf_swap R_ops R_is_ring). unfold tdot. rewrite zrange_nat. apply (sumf_ext R_ops). intros t Ht. apply in_seq in Ht. rewrite ldot_nth.
    replace (length (born_data_back s b g (Z.of_nat t))) with (nr b) by (unfold born_data_back; rewrite map_length, seq_length; reflexivity). apply (sumf_ext R_ops). intros j Hj. apply in_seq in Hj. f_equal. unfold born_data_back. rewrite Nat2Z.id.
    symmetry. apply (nth_mapseq (fun j => g j t)). lia.
  - rewrite Er. reflexivity.
  - intros h. split; [unfold kind_data; rewrite map_length, seq_length; reflexivity|]. intros j Hj. rewrite data_nth by exact Hj. rewrite map_length, seq_length. reflexivity.
  - intros j t Hj Ht. apply (derivable_ext (fun h => nth j (r h (Z.of_nat t)) 0%R)); [|apply (rcurve_nth (su_nt s)); [exact Hr|lia]].
    intros h. rewrite data_nth by exact Hj. symmetry. exact (nth_mapseq (fun t => nth j (r h (Z.of_nat t)) 0%R) ntn t 0%R Ht).
Qed.

Variables (visF visB : nat -> list (list Z * pt)) (w0 wsc0 : nat -> Z -> arr R_ops) (obj : nat -> list (list R) -> R) (g : nat -> nat -> nat -> R).
Hypothesis HvF : forall b, Z.of_nat b < su_nb s -> fvis R_ops (born_par s b) (pw_of (su_pw s)) (visF b).
Hypothesis HvB : forall b, Z.of_nat b < su_nb s -> bvis R_ops (born_par s b) (pw_of (su_pw s)) (visB b).
Notation run s' b := (born_run s' b (visF b) false true (w0 b) (wsc0 b)).
Hypothesis Hg : forall b B, Z.of_nat b < su_nb s -> run s b = Some B -> data_gradient (nr b) ntn (obj b) (born_data c s b B) (g b).
Lemma s_step : su_ratio s * su_interval s = 1.
Proof. destruct (reg_of c s Hs) as [vm Hr]. rewrite (gs_interval _ _ _ _ _ _ _ _ _ _ _ Hr), Hint, Hratio. reflexivity. Qed.
Lemma sh_run h b : run (sh h) b =
  born_forward R_ops (born_par s b) (born_recsc s b) (pw_of (su_pw s)) (kind_model s 0 b) (kind_model (sh h) 1 b) (visF b) false true 1
    (born_f s b) (born_fsc (sh h) b) (su_nt s) None (w0 b) (wsc0 b) (ScalarPhys.zero_st R_ops) (ScalarPhys.zero_st R_ops).
Proof.
  unfold born_run. rewrite sh_par, sh_v, sh_f. destruct (sh_ok h) as (_ & m0 & m1 & m1' & Em & Eq).
  assert (E1 : su_ratio (sh h) * su_interval (sh h) = 1) by (rewrite Eq; exact s_step). rewrite E1. cbn [Z.eqb].
  assert (E2 : su_pw (sh h) = su_pw s) by (rewrite Eq; reflexivity). assert (E3 : su_nt (sh h) = su_nt s) by (rewrite Eq; reflexivity).
  assert (E4 : born_recsc (sh h) b = born_recsc s b) by (rewrite Eq; reflexivity). rewrite E2, E3, E4. reflexivity.
Qed.
Definition shot_obj (b : nat) (h : R) : R := match run (sh h) b with Some B => obj b (born_data c s b B) | None => 0%R end.
Lemma shot_grad b : Z.of_nat b < su_nb s -> exists B G0 gf gs,
  run s b = Some B /\ born_back s b (visB b) B (g b) = Some (G0, gf, gs) /\ (forall h, exists B, run (sh h) b = Some B) /\
  derivable_pt_lim (shot_obj b) 0 (tdot (K := R_ops) (su_nt s) gf (drows b) + adot (K := R_ops) n gs (dsc b))%R.
Proof.
  intros Hb. pose proof nt_pos as Hnt. destruct (reg_of c s Hs) as [vm Hr].
  destruct (born_solves_user c nd s b (visF b) false true (w0 b) (wsc0 b) Hs W1 W2 Ha Hf ltac:(rewrite Hint; lia) ltac:(rewrite Hint, Hratio; lia) Hb (HvF b Hb)) as (B & _ & _ & ER & _).
  pose proof ER as EF. rewrite <- sh0, sh_run in EF. pose proof (Hg b B Hb ER) as Hgb.
  assert (HU : scurve (born_par s b) (fun _ => ScalarPhys.zero_st R_ops) DerivObj.zero_st) by (constructor; intros; apply derivable_pt_lim_const).
  assert (Hcb : cb_ok (su_nt s) 1 None) by (cbn; lia).
  assert (HL : forall h t, length (born_fsc (sh h) b t) = length (born_f s b t)) by (intros h t; rewrite fsc_len, f_len; reflexivity).
  pose (df0 := fun t => map (fun _ => 0%R) (born_f s b t)).
  assert (HF : rcurve (su_nt s) (fun _ => born_f s b) df0).
  { intros t _. unfold df0. rewrite map_length. split; [reflexivity|]. intros j _. eapply derivable_eq; [|apply derivable_pt_lim_const]. symmetry. apply nth_zeros. }
  destruct (born_gradient_real (born_par s b) (pw_of (su_pw s)) (born_recsc s b) (bn_geom c nd s b _ _ _ Hr Ha Hf) (bn_src c nd s b _ _ _ Hr W1 W2 Ha) (bn_rec c nd s b _ _ _ Hr W1 W2 Ha 0%nat) (bn_rec c nd s b _ _ _ Hr W1 W2 Ha 1%nat)
    (fun _ _ _ r => obj b (kind_data o s 1 b r)) (fun _ => kind_model s 0 b) (fun _ => 0%R) (fun h => kind_model (sh h) 1 b) (dsc b) (fun _ => born_f s b) df0 (fun h => born_fsc (sh h) b) (drows b)
    (fun _ => ScalarPhys.zero_st R_ops) DerivObj.zero_st (fun _ => ScalarPhys.zero_st R_ops) DerivObj.zero_st (ScalarPhys.zero_st R_ops) (ScalarPhys.zero_st R_ops) (gr0 b) (born_data_back s b (g b))
    (su_nt s) (visF b) (visB b) false true None None (w0 b) (wsc0 b) B Hnt Hcb Hcb (HvF b Hb) (HvB b Hb)
    HL ltac:(intros t; apply map_length) ltac:(intros i _; apply derivable_pt_lim_const) (model_curve b Hb) HF (fsc_curve b Hb) HU HU
    ltac:(reflexivity) ltac:(discriminate) EF (data_obj b (obj b) (g b) B Hgb)) as (J & G0 & J1 & J2 & J3).
  exists B, (bg_usc R_ops G0), (bg_fsc R_ops G0), (bg_scatter R_ops G0). split; [exact ER|]. split.
  { unfold born_back. rewrite s_step. rewrite (born_backward_sc_half R_ops _ _ _ _ (kind_model (sh 0%R) 1 b) _ (bo_wsc R_ops B) false true 1 (visB b) (gr0 b) _ _ None (ScalarPhys.zero_st R_ops)). rewrite J2. reflexivity. }
  split. { intros h. destruct (J1 h) as (Bh & Eh & _). exists Bh. rewrite sh_run. exact Eh. }
  apply (derivable_ext J). { intros h. destruct (J1 h) as (Bh & Eh & EJ). unfold shot_obj. rewrite sh_run, Eh. exact EJ. }
  eapply derivable_eq; [|exact J3].
  assert (E0 : forall x, udot R_ops (born_par s b) x DerivObj.zero_st = 0%R) by (intros x; exact (DoubleBack.udot_zero_r R_ops R_is_ring (born_par s b) x)).
  assert (E1 : tdot (K := R_ops) (su_nt s) (bg_f R_ops G0) df0 = 0%R).
  { apply sumf0. intros t. etransitivity; [apply ldot_nth|]. apply sumf0. intros j. unfold df0. rewrite nth_zeros. apply Rmult_0_r. }
  assert (E2 : adot (K := R_ops) n (bg_v R_ops G0) (fun _ => 0%R) = 0%R) by (apply sumf0; intros; apply Rmult_0_r).
  rewrite !E0, E1. change (prodZ (p_shape (born_par s b))) with n. rewrite E2.
  assert (A0 : forall x y : R, (x + y = 0 + 0 + 0 + x + 0 + y)%R) by (intros; ring). first [exact (A0 _ _) | exact (eq_sym (A0 _ _))].
Qed.
(** *** All shots *)
Definition gfs (b : nat) : Z -> list R := match run s b with Some B => match born_back s b (visB b) B (g b) with Some (_, gf, _) => gf | None => fun _ => [] end | None => fun _ => [] end.
Definition gss (b : nat) : arr R_ops := match run s b with Some B => match born_back s b (visB b) B (g b) with Some (_, _, gs) => gs | None => fun _ => 0%R end | None => fun _ => 0%R end.
Notation nbn := (Z.to_nat (su_nb s)).
Notation box := (box_pts (abox (t_shape (n_scatter c)))).
Lemma shot_sum b (gf : Z -> list R) (gv : arr R_ops) : Z.of_nat b < su_nb s ->
  (tdot (K := R_ops) (su_nt s) gf (drows b) + adot (K := R_ops) n gv (dsc b))%R = sumf (K := R_ops) (zrange 0 n) (fun i => spad_grad s b gf gv i * dsc b i)%R.
Proof.
  intros Hb. set (w := fun t k i => (nth k (gf t) 0 * (- 2 * nth k (kind_amps s 1 b t) 0 * kind_model s 0 b i * su_dt s ^ 2))%R).
  set (X := fun t k => (w t k (spos b k) * dsc b (spos b k))%R).
  assert (E1 : tdot (K := R_ops) (su_nt s) gf (drows b) = sumf (K := R_ops) (zrange 0 (su_nt s)) (fun t => sumf (K := R_ops) (seq 0 (length (src b))) (X t))).
  { unfold tdot. apply (sumf_ext R_ops). intros t _. rewrite ldot_nth_r.
    unfold drows at 1. rewrite map_length, seq_length. apply (sumf_ext R_ops). intros k Hk. apply in_seq in Hk. rewrite drows_nth by lia. unfold X, w, damp. cbn. ring. }
  set (Z0 := fun i t k => ((if spos b k =? i then w t k i else 0) * dsc b i)%R).
  symmetry. transitivity (adot (K := R_ops) n gv (dsc b) + sumf (K := R_ops) (zrange 0 n) (fun i => sumf (K := R_ops) (zrange 0 (su_nt s)) (fun t => sumf (K := R_ops) (seq 0 (length (src b))) (fun k => Z0 i t k))))%R.
  - unfold adot. etransitivity; [|exact (sumf_add R_ops R_is_ring _ _ _)]. apply (sumf_ext R_ops). intros i _. unfold spad_grad. etransitivity; [apply Rmult_plus_distr_r|]. apply (f_equal2 Rplus); [reflexivity|].
    rewrite Rmult_comm. etransitivity; [symmetry; exact (sumf_scal R_ops R_is_ring _ _ _)|]. apply (sumf_ext R_ops). intros t _.
    etransitivity; [symmetry; exact (sumf_scal R_ops R_is_ring _ _ _)|]. apply (sumf_ext R_ops). intros k _. unfold Z0. cbn. apply Rmult_comm.
  - rewrite E1, Rplus_comm. apply (f_equal2 Rplus); [|reflexivity]. rewrite (sumf_swap R_ops R_is_ring). apply (sumf_ext R_ops). intros t _. rewrite (sumf_swap R_ops R_is_ring). apply (sumf_ext R_ops). intros k Hk. apply in_seq in Hk.
    unfold Z0. rewrite (sum_pickZ (zrange 0 n) (spos b k) (w t k) (dsc b) (NoDup_zrange _ _)) by (apply In_zrange, src_in; [exact Hb|lia]). reflexivity.
Qed.
Lemma s_sum (gf : nat -> Z -> list R) (gv : nat -> arr R_ops) : sumf (K := R_ops) box (fun x => s_grad c nd s gf gv x * ds x)%R =
  sumf (K := R_ops) (seq 0 nbn) (fun b => sumf (K := R_ops) (zrange 0 n) (fun i => spad_grad s b (gf b) (gv b) i * dsc b i)%R).
Proof.
  transitivity (sumf (K := R_ops) box (fun x => sumf (K := R_ops) (seq 0 nbn) (fun b => sumf (K := R_ops) (zrange 0 n) (fun i =>
    (match scell_of c nd s b i with Some y => if pt_eq_dec y x then spad_grad s b (gf b) (gv b) i else 0 | None => 0 end) * ds x)%R))).
  - apply (sumf_ext R_ops). intros x _. unfold s_grad. rewrite Rmult_comm. etransitivity; [symmetry; exact (sumf_scal R_ops R_is_ring _ _ _)|]. apply (sumf_ext R_ops). intros b _.
    etransitivity; [symmetry; exact (sumf_scal R_ops R_is_ring _ _ _)|]. apply (sumf_ext R_ops). intros i _. cbn. apply Rmult_comm.
  - rewrite (sumf_swap R_ops R_is_ring). apply (sumf_ext R_ops). intros b Hb. apply in_seq in Hb. rewrite (sumf_swap R_ops R_is_ring). apply (sumf_ext R_ops). intros i _.
    unfold dsc. destruct (scell_of c nd s b i) as [y|] eqn:Ey.
    + rewrite (sum_pick pt_eq_dec box _ _ ds (NoDup_box_pts _)); [reflexivity|]. apply In_box_pts. apply (scell_in b i y); [lia|exact Ey].
    + rewrite Rmult_0_r. apply sumf0. intros x. apply Rmult_0_l.
Qed.
Lemma born_user_gradient : exists J gf gs,
  (forall h, exists s' D, born_setup (ch h) nd = Some s' /\
     (forall b, Z.of_nat b < su_nb s -> exists B, run s' b = Some B /\ D b = born_data (ch h) s' b B) /\
     J h = sumf (K := R_ops) (seq 0 nbn) (fun b => obj b (D b))) /\
  (forall b, Z.of_nat b < su_nb s -> exists B G, run s b = Some B /\ born_back s b (visB b) B (g b) = Some (G, gf b, gs b)) /\
  derivable_pt_lim J 0 (sumf (K := R_ops) box (fun x => s_grad c nd s gf gs x * ds x)%R).
Proof.
  exists (fun h => sumf (K := R_ops) (seq 0 nbn) (fun b => shot_obj b h)), gfs, gss. split; [|split].
  - intros h. destruct (sh_ok h) as (H & _).
    exists (sh h), (fun b => match run (sh h) b with Some B => born_data c s b B | None => [] end). split; [exact H|]. split.
    + intros b Hb. destruct (shot_grad b Hb) as (_ & _ & _ & _ & _ & _ & X & _). destruct (X h) as (B & E1). exists B. split; [exact E1|]. rewrite E1. symmetry. exact (sh_data h b B).
    + apply (sumf_ext R_ops). intros b Hb. apply in_seq in Hb. destruct (shot_grad b ltac:(lia)) as (_ & _ & _ & _ & _ & _ & X & _). destruct (X h) as (B & E1). unfold shot_obj. rewrite E1. reflexivity.
  - intros b Hb. destruct (shot_grad b Hb) as (B & G0 & gf & gs & E1 & E2 & _). exists B, G0. split; [exact E1|]. unfold gfs, gss. rewrite E1, E2. reflexivity.
  - rewrite s_sum. eapply derivable_eq; [|apply (derivable_sumf (seq 0 nbn) (fun h b => shot_obj b h) (fun b => tdot (K := R_ops) (su_nt s) (gfs b) (drows b) + adot (K := R_ops) n (gss b) (dsc b))%R)].
    + apply (sumf_ext R_ops). intros b Hb. apply in_seq in Hb. exact (shot_sum b (gfs b) (gss b) ltac:(lia)).
    + intros b Hb. apply in_seq in Hb. destruct (shot_grad b ltac:(lia)) as (B & G0 & gf & gs & E1 & E2 & _ & X). unfold gfs, gss. rewrite E1, E2. exact X.
Qed.
End Grad.
