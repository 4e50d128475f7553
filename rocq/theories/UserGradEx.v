(** * Least squares, cells outside the survey area, and a call of [scalar] with a step ratio of one. *)
From Coq Require Import List ZArith QArith Reals Lra Lia Bool Permutation.
From Verif Require Import Ops Sums Grid Stencil StencilOrder ScalarModel ScalarRefine ScalarFunc ScalarApi ScalarPhys ScalarMore GeomModel Geom Geom2 GeomLocs SetupModel RealModel RealThm Resample PropReal
  Deriv DerivScalar DerivObj UserModel UserThm UserCrop UserEx UserEqs UserGradModel UserGrad.
Import ListNotations.
Local Open Scope Z_scope.

(** Half the sum of the squared differences from observed data. *)
Definition misfit (nr nt : nat) (obs : nat -> nat -> R) (D : list (list R)) : R :=
  sumf (K := R_ops) (seq 0 nr) (fun j => sumf (K := R_ops) (seq 0 nt) (fun t => / 2 * ((nth t (nth j D []) 0 - obs j t) * (nth t (nth j D []) 0 - obs j t))))%R.
Lemma misfit_gradient nr nt obs D0 : data_gradient nr nt (misfit nr nt obs) D0 (fun j t => nth t (nth j D0 []) 0 - obs j t)%R.
Proof.
  intros D dD E0 _ HD. unfold misfit. apply (derivable_sumf (seq 0 nr) (fun h j => sumf (K := R_ops) (seq 0 nt) (fun t => / 2 * ((nth t (nth j (D h) []) 0 - obs j t) * (nth t (nth j (D h) []) 0 - obs j t))))%R).
  intros j Hj. apply in_seq in Hj. apply (derivable_sumf (seq 0 nt) (fun h t => / 2 * ((nth t (nth j (D h) []) 0 - obs j t) * (nth t (nth j (D h) []) 0 - obs j t)))%R).
  intros t Ht. apply in_seq in Ht. set (e := fun h => (nth t (nth j (D h) []) 0 - obs j t)%R).
  assert (De : derivable_pt_lim e 0 (dD j t - 0)%R).
  { apply (derivable_pt_lim_minus (fun h => nth t (nth j (D h) []) 0)%R (fun _ => obs j t)); [apply HD; lia|apply derivable_pt_lim_const]. }
  eapply derivable_eq; [|exact (derivable_scal (/ 2) (fun h => e h * e h)%R _ (derivable_pt_lim_mult e e 0 _ _ De De))].
  unfold e. rewrite E0. field.
Qed.

(** A cell outside the survey area has no copies. *)
Lemma outside_zero c nd s gf gv x d : scalar_setup c nd = Some s -> area_ok c nd -> (d < nd)%nat -> length x = length (t_shape (c_v c)) ->
  (let y := coord (length x - nd + d) x in y < fst (nth d (su_ext s) (0, 0)) \/ snd (nth d (su_ext s) (0, 0)) <= y) -> v_grad c nd s gf gv x = 0%R.
Proof.
  cbv zeta. intros Hs Ha Hd Lx Hy.
  assert (Hl : length (t_shape (c_v c)) = nd \/ length (t_shape (c_v c)) = S nd).
  { destruct (v_rank c nd s Hs) as [El|[m El]]; [left; apply Nat.eqb_eq, El|right]. apply (f_equal (@length Z)) in El. cbn [length] in El. unfold last_n in El. rewrite skipn_length in El. lia. }
  unfold v_grad. apply (sumf_zero R_ops R_is_ring). intros b _. apply (sumf_zero R_ops R_is_ring). intros i _.
  destruct (pt_eq_dec (cell_of c nd s b i) x) as [E|]; [exfalso|reflexivity].
  destruct (su_parts c nd s Hs) as (Ls & LE & _). pose proof (su_ext_ok c nd s Hs Ha d Hd) as X.
  set (p := under (su_ext s) (sum_pad (repeat (c_accuracy c / 2) (2 * nd)) (su_pw s)) (unidx (su_shape s) i)).
  assert (N : coord d (nearest (su_ext s) p) = clampZ (coord d p) (fst (nth d (su_ext s) (0, 0))) (snd (nth d (su_ext s) (0, 0)) - 1)) by (unfold nearest; rewrite coord_map_seq by lia; reflexivity).
  assert (C : coord (length x - nd + d) x = coord d (nearest (su_ext s) p)).
  { rewrite <- E at 2. unfold cell_of. cbv zeta. fold p. rewrite Lx. destruct Hl as [Hl|Hl]; rewrite Hl.
    - rewrite Nat.eqb_refl. replace (nd - nd + d)%nat with d by lia. reflexivity.
    - destruct (Nat.eqb_spec (S nd) nd); [lia|]. replace (S nd - nd + d)%nat with (S d) by lia. reflexivity. }
  rewrite C, N in Hy. unfold clampZ in Hy. lia.
Qed.

(** An ignored source. *)
Lemma ignored_zero c nd s b k t l ps p vis store g G0 gf gv : scalar_setup c nd = Some s -> locs_whole nd [c_src c] -> locs_whole nd [c_rec c] -> area_ok c nd -> c_freq c <> Some 0%R ->
  0 < c_interval c -> (su_nt s = 0 \/ su_ratio s * c_interval c <= su_nt s) -> bvis R_ops (shot_par s b) (pw_of (su_pw s)) vis ->
  c_src c = Some l -> nth_error (lt_data l) b = Some ps -> nth_error ps k = Some p -> ignored_pt nd p -> shot_back s b vis store g = Some (G0, gf b, gv) -> a_grad s gf b k t = 0%R.
Proof.
  intros Hs W1 W2 Ha Hf Hi Hn Hv Hl Hps Hp Hig Hb. destruct (setup_parts c nd s Hs) as (_ & _ & _ & _ & _ & _ & _ & Hint & _).
  unfold set_sampling_interval in Hint. destruct (_ <? 0) in Hint; [discriminate|]. injection Hint as Hint. destruct (su_cfl c nd s Hs) as (_ & _ & _ & _ & Hr & _).
  assert (L3 : loc3 (if true then [c_src c] else [c_rec c]) 0 b k = Some p) by (unfold loc3; cbn; rewrite Hl, Hps; exact Hp).
  pose proof (loc_ign c nd s Hs true b k _ L3 Hig) as G1. cbv iota in G1. unfold shot_back in Hb. rewrite <- Hint in Hb.
  assert (Hsr : 0 < su_ratio s * c_interval c) by nia. assert (Hcb : cb_ok (su_nt s) (su_ratio s * c_interval c) None) by exact Hn.
  pose proof (backward_ignored_source R_ops R_is_ring (shot_par s b) (pw_of (su_pw s)) (su_geom c nd s Hs b Ha Hf) (su_src_ok c nd s Hs b W1 Ha) (su_rec_ok c nd s Hs b W2 Ha)
    _ _ _ _ _ _ _ _ _ _ _ _ Hv Hsr Hcb Hb k IGNORE G1 ltac:(unfold IGNORE; lia) (Z.of_nat t)) as X.
  unfold a_grad. cbv zeta. rewrite (nth_error_nth _ _ _ X). cbn. ring.
Qed.

(** The call of [UserEx] with the locations' surroundings, a quarter of its time step, every time step stored, and two sources per shot; the second source of
    the first shot is ignored. *)
Definition exg_src : loct := mkloct 1 [[[20]; [IGNORE]]; [[18]; [25]]].
Definition exg : call :=
  mkcall (mktens [40] (fun p => 1500 + 10 * IZR (coord 0 p))%R) (One 5%R) (1 / 1000)%R (Some (mktens [2; 2; 4] (fun p => IZR (1 + coord 0 p + coord 2 p)))) (Some exg_src) (Some exu_rec)
    2 (One 3) None (Some 2000%R) (SPint 8) None 1 0 0 false.
Lemma exg_cfl : cfl_condition_n [5%R] (1 / 1000) 2000 cfl_eps cfl_c_max = Some (1 / 1000 / 1, 1%Z)%R.
Proof.
  assert (He : (0 <= cfl_eps)%R) by (unfold cfl_eps; lra). assert (Hc : (0 < cfl_c_max)%R) by (unfold cfl_c_max; lra).
  destruct (C25_returns [5%R] (1 / 1000) 2000 cfl_eps cfl_c_max) as (inner & ratio & E); try assumption; try lra; try discriminate.
  { repeat constructor; lra. }
  destruct (C25_cfl _ _ _ _ _ _ _ He Hc E) as (_ & _ & _ & _ & R1 & I1 & I2 & B & M). rewrite E.
  assert (S : sqrt (fold_right (fun g s => 1 / (g ^ 2) + s) 0 [5])%R = (1 / 5)%R).
  { cbn [fold_right]. replace (1 / 5 ^ 2 + 0)%R with ((1 / 5) * (1 / 5))%R by lra. apply sqrt_square. lra. }
  rewrite S in B, M. replace (cfl_c_max / (1 / 5 * 2000))%R with (15 / 10000)%R in B, M by (unfold cfl_c_max; lra).
  assert (Hr : (ratio = 1)%Z).
  { destruct (Z_lt_ge_dec ratio 2) as [|G]; [lia|exfalso]. specialize (M 1%Z ltac:(lia)). rewrite Rabs_right in M by lra. unfold cfl_eps in M. lra. }
  subst ratio. do 2 f_equal. lra.
Qed.
Lemma exg_setup : exists u, scalar_setup exg 1 = Some u /\ su_nt u = 4 /\ su_nb u = 2 /\ su_ratio u = 1 /\ su_ext u = [(10, 34)].
Proof.
  destruct (extract_survey 0%R [c_v exg] [Some exg_src] [Some exu_rec] (repeat None 4) (SPint 8) None [1; 1] [3; 3] [Replicate] 2 1) as [[[[E ms] s] r]|] eqn:HE.
  2:{ exfalso. apply (f_equal (fun o => match o with Some _ => true | None => false end)) in HE. vm_compute in HE. discriminate HE. }
  assert (EE : E = [(10, 34)]). { pose proof HE as X. apply (f_equal (fun o => match o with Some (E, _, _, _) => E | None => [] end)) in X. vm_compute in X. symmetry. exact X. }
  unfold scalar_setup.
  assert (M : exists mv, max_abs (c_v exg) = Some mv).
  { unfold max_abs. destruct (map Rabs (elems (c_v exg))) as [|x l] eqn:El; [|eexists; reflexivity].
    apply (f_equal (@length _)) in El. rewrite map_length in El. unfold elems in El. rewrite map_length in El. discriminate El. }
  destruct M as [mv ->]. unfold setup_propagator. cbn [get_n_batch present c_src exg].
  change (get_n_batch [Some exg_src] (repeat None (2 + 2 * 1))) with (Some 2). cbv beta iota.
  assert (Hg : set_grid_spacing (c_gs exg) 1 = Some [5%R]). { unfold set_grid_spacing. cbn. rewrite rle_no by lra. reflexivity. }
  cbn [c_gs exg] in Hg. cbn [c_gs exg]. rewrite Hg. cbn [c_max_vel exg]. unfold set_max_vel. rewrite Rabs_right by lra. rewrite rle_no by lra. cbn [c_dt exg]. rewrite exg_cfl.
  change (set_accuracy (c_accuracy exg)) with (Some A2). cbv beta iota. change (set_pml_width (c_pw exg) 1) with (Some [3; 3]). cbv beta iota.
  assert (Hf : set_pml_freq (c_freq exg) (1 / 1000 / 1) = Some 25%R).
  { unfold set_pml_freq, req. destruct (Req_EM_T _ _); [lra|]. cbn [c_freq exg]. destruct (Rlt_dec _ _); [lra|]. reflexivity. }
  rewrite Hf.
  assert (Hw : check_points_per_wavelength (min_nonzero (c_v exg)) 25 [5%R] = true).
  { unfold check_points_per_wavelength. rewrite (rle_yes 0 (min_nonzero _)) by apply min_nonzero_nonneg. rewrite (rle_yes 0 25) by lra. cbn [existsb]. rewrite rle_no by lra. rewrite orb_true_iff. right. reflexivity. }
  rewrite Hw. cbn [negb]. change (set_nt (c_nt exg) (map oshape [c_amps exg]) 1) with (Some 4). cbv beta iota.
  change (set_sampling_interval (c_interval exg)) with (Some 1). change (set_frac (c_ft exg)) with (Some 0%Q). change (set_frac (c_tp exg)) with (Some 0%Q). cbv beta iota.
  change (check_amplitudes_locations (map oshape [c_amps exg]) [Some exg_src]) with true. cbn [negb].
  assert (Ha : exists am, source_amplitudes [c_amps exg] 2 4 1 0 0 (c_taper exg) = Some am).
  { unfold source_amplitudes. change (set_source_amplitudes (map oshape [c_amps exg]) 2 4 1 0) with (Some [[4; 2; 2]]). eexists. reflexivity. }
  destruct Ha as [am ->]. cbn [c_sp exg c_rec c_accuracy Nat.mul Nat.add repeat] in HE |- *. change (2 / 2) with 1. cbn [c_v exg] in HE |- *. rewrite HE.
  eexists. split; [reflexivity|]. cbn. auto.
Qed.
Lemma exg_area : area_ok exg 1.
Proof. right. exists O, O, O, [20]. split; [reflexivity|]. split; [reflexivity|]. intros [|d] Hd; cbn; unfold IGNORE; lia. Qed.
Lemma exg_whole : locs_whole 1 [Some exg_src].
Proof.
  intros k sh j p H; unfold loc3 in H; destruct k as [|[|k]]; cbn in H; try discriminate.
  destruct sh as [|[|[|sh]]]; cbn in H; try discriminate; destruct j as [|[|[|j]]]; cbn in H; try discriminate; injection H as <-;
    first [left; (split; [reflexivity|]); intros [|d] Hd; cbn; unfold IGNORE; lia|right; (split; [reflexivity|]); intros [|d] Hd; cbn; unfold IGNORE; lia].
Qed.
