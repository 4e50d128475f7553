(** * Proofs about the gradients through [scalar]. *)
From Coq Require Import List ZArith QArith Reals Lra Lia Bool Permutation.
From Verif Require Import Ops Sums Grid Stencil StencilOrder DualNum ScalarModel ScalarRefine ScalarForward ScalarBackward ScalarAdjoint ScalarFunc ScalarApi ScalarPhys ScalarMore ScalarReach GeomModel Geom Geom2 GeomLocs SetupModel RealModel RealThm
  Resample ResampleThm Deriv DerivScalar DerivObj DoubleBack UserModel UserThm UserCrop UserEx UserEqs UserGradModel.
Import ListNotations.
Local Open Scope Z_scope.

Lemma tpad_with {X} (z : X) pads (t t' : tens X) m : t_shape t' = t_shape t -> tpad z Replicate pads t = Some m -> exists m', tpad z Replicate pads t' = Some m'.
Proof. intros Hsh H. unfold tpad in *. cbv zeta in *. rewrite Hsh. destruct (forallb _ _); [|discriminate]. eexists. reflexivity. Qed.
Lemma extract_models_with {X} (z : X) (v v' : tens X) E pad nb ms : t_shape v' = t_shape v ->
  extract_models z [v] E pad [Replicate] nb = Some ms -> exists ms', extract_models z [v'] E pad [Replicate] nb = Some ms'.
Proof.
  intros Hsh H. unfold extract_models in *. cbv zeta in *. cbn [map combine forallb sequence] in *. rewrite Hsh. destruct (negb _ || _); [discriminate|].
  destruct (_ && true) in *; [|discriminate].
  destruct (length (t_shape v) =? length pad / 2)%nat eqn:El.
  - cbn [t_shape] in *. destruct (_ && true) in *; [|discriminate]. cbn [fst snd] in *.
    destruct (tpad z Replicate (reverse_pad pad) (tslice {| t_shape := 1 :: t_shape v; t_at := fun p => t_at v (tl p) |} (None :: map Some E))) as [m|] eqn:Et; [|discriminate].
    destruct (tpad_with z (reverse_pad pad) (tslice {| t_shape := 1 :: t_shape v; t_at := fun p => t_at v (tl p) |} (None :: map Some E)) (tslice {| t_shape := 1 :: t_shape v; t_at := fun p => t_at v' (tl p) |} (None :: map Some E)) m eq_refl Et) as [m' Hm']. rewrite Hm'. eexists. reflexivity.
  - rewrite Hsh. destruct (_ && true) in *; [|discriminate]. cbn [fst snd] in *.
    destruct (tpad z Replicate (reverse_pad pad) (tslice v (None :: map Some E))) as [m|] eqn:Et; [|discriminate].
    destruct (tpad_with z (reverse_pad pad) (tslice v (None :: map Some E)) (tslice v' (None :: map Some E)) m ltac:(cbn; rewrite Hsh; reflexivity) Et) as [m' Hm']. rewrite Hm'. eexists. reflexivity.
Qed.
Lemma extract_survey_with {X} (z : X) (v v' : tens X) src rec wfs sp origin fdp pw nb nd E ms s r : t_shape v' = t_shape v ->
  extract_survey z [v] src rec wfs sp origin fdp pw [Replicate] nb nd = Some (E, ms, s, r) ->
  exists ms', extract_survey z [v'] src rec wfs sp origin fdp pw [Replicate] nb nd = Some (E, ms', s, r).
Proof.
  intros Hsh H. unfold extract_survey in *. cbv zeta in *. rewrite Hsh. destruct (negb _ && _); [discriminate|]. destruct (negb _); [discriminate|].
  match type of H with match ?e with Some _ => _ | None => None end = _ => destruct e as [E'|]; [|discriminate] end.
  destruct (extract_models z [v] _ _ _ _) as [m|] eqn:Em; [|discriminate]. destruct (extract_models_with z v v' _ _ _ _ Hsh Em) as [m' ->].
  destruct (extract_locations src _ _ _); [|discriminate]. destruct (extract_locations rec _ _ _); [|discriminate]. destruct (prepare_wavefields _ _ _ _); [|discriminate].
  injection H as <- _ <- <-. eexists. reflexivity.
Qed.
Lemma setup_with c nd s vm v' a a' : scalar_setup c nd = Some s -> c_max_vel c = Some vm -> c_amps c = Some a -> t_shape v' = t_shape (c_v c) -> t_shape a' = t_shape a ->
  exists ms am, scalar_setup (with_inputs c v' a') nd = Some (mksetup (su_ext s) ms am (su_src s) (su_rec s) (su_gs s) (su_dt s) (su_nt s) (su_nb s) (su_ratio s) (su_interval s)
    (su_acc s) (su_pw s) (su_freq s) (su_vel s) (su_ft s) (su_tp s)).
Proof.
  intros Hs Hvm Ham Hv Ha. destruct (setup_parts c nd s Hs) as (P1 & P2 & P3 & P4 & P5 & P6 & P7 & P8 & P9 & P10 & P11 & P12 & P13 & P14).
  destruct P11 as (mv & M1 & M2). rewrite Ham in *.
  unfold scalar_setup, setup_propagator. cbn [with_inputs c_v c_gs c_dt c_amps c_src c_rec c_accuracy c_pw c_freq c_max_vel c_sp c_nt c_interval c_ft c_tp c_taper].
  assert (Mx : exists mv', max_abs v' = Some mv').
  { unfold max_abs, elems in *. rewrite Hv. destruct (box_pts (abox (t_shape (c_v c)))); [discriminate|]. eexists. reflexivity. }
  destruct Mx as [mv' ->]. rewrite P1, P2. rewrite Hvm in *. unfold set_max_vel in *. destruct (rle (Rabs vm) 0); [discriminate|]. injection M2 as M2. rewrite M2. rewrite P3, P4, P5, P6.
  assert (W : check_points_per_wavelength (min_nonzero v') (su_freq s) (su_gs s) = true).
  { unfold check_points_per_wavelength. apply set_grid_spacing_spec in P2. apply set_pml_freq_spec in P6. destruct (su_cfl c nd s Hs) as (G1 & G2 & _).
    rewrite (rle_yes 0 (min_nonzero v')) by apply min_nonzero_nonneg. rewrite (rle_yes 0 (su_freq s)).
    2:{ apply P6. }
    assert (X : existsb (fun g => rle g 0) (su_gs s) = false).
    { clear - G2. induction G2 as [|g l Hg H IH]; [reflexivity|]. cbn. rewrite IH. rewrite rle_no by exact Hg. reflexivity. }
    rewrite X. destruct (su_gs s); [contradiction|]. cbn. apply orb_true_r. }
  rewrite W. cbn [negb map oshape]. cbn [map oshape] in P7, P12. rewrite Ha, P7, P8, P9, P10, P12. cbn [negb].
  unfold source_amplitudes in *. cbn [map oshape] in *. rewrite Ha. destruct (set_source_amplitudes _ _ _ _ _); [|discriminate].
  destruct (extract_survey_with 0%R (c_v c) v' _ _ _ _ _ _ _ _ _ _ _ _ _ Hv P14) as [ms' ->]. eexists. eexists. reflexivity.
Qed.

(** ** Sums *)
Lemma ldot_nth_r (a b : list R) : ldot (K := R_ops) a b = sumf (K := R_ops) (seq 0 (length b)) (fun j => nth j a 0 * nth j b 0)%R.
Proof.
  transitivity (ldot (K := R_ops) b a).
  - unfold ldot. revert b. induction a as [|x a IH]; intros [|y b]; try reflexivity. cbn. cbn in IH. rewrite IH. f_equal. apply Rmult_comm.
  - rewrite ldot_nth. apply sumf_ext. intros j _. apply Rmult_comm.
Qed.
Lemma nth_mapseq {A} (f : nat -> A) m k d : (k < m)%nat -> nth k (map f (seq 0 m)) d = f k.
Proof. intros Hk. rewrite (nth_indep _ d (f O)) by (rewrite map_length, seq_length; exact Hk). rewrite map_nth, seq_nth by exact Hk. reflexivity. Qed.
Lemma sum_pick {A} (dec : forall x y : A, {x = y} + {x <> y}) (l : list A) y (e : R) (f : A -> R) : NoDup l -> In y l ->
  sumf (K := R_ops) l (fun x => (if dec y x then e else 0) * f x)%R = (e * f y)%R.
Proof.
  intros Hn Hy. rewrite (sumf_single R_ops R_is_ring l y) by first [assumption | intros x _ Hx; destruct (dec y x); [congruence|apply Rmult_0_l]].
  destruct (dec y y); [reflexivity|congruence].
Qed.
Lemma sum_pickZ (l : list Z) y (e f : Z -> R) : NoDup l -> In y l ->
  sumf (K := R_ops) l (fun x => (if y =? x then e x else 0) * f x)%R = (e y * f y)%R.
Proof.
  intros Hn Hy. rewrite (sumf_single R_ops R_is_ring l y) by first [assumption | intros x _ Hx; destruct (Z.eqb_spec y x); [congruence|apply Rmult_0_l]].
  rewrite Z.eqb_refl. reflexivity.
Qed.

(** [g]: the gradient of the objective function [obj] of [nr] traces of [nt] samples at [D0]. *)
Definition data_gradient (nr nt : nat) (obj : list (list R) -> R) (D0 : list (list R)) (g : nat -> nat -> R) : Prop :=
  forall (D : R -> list (list R)) (dD : nat -> nat -> R), D 0%R = D0 ->
    (forall h, length (D h) = nr /\ forall j, (j < nr)%nat -> length (nth j (D h) []) = nt) ->
    (forall j t, (j < nr)%nat -> (t < nt)%nat -> derivable_pt_lim (fun h => nth t (nth j (D h) []) 0%R) 0 (dD j t)) ->
    derivable_pt_lim (fun h => obj (D h)) 0 (sumf (K := R_ops) (seq 0 nr) (fun j => sumf (K := R_ops) (seq 0 nt) (fun t => g j t * dD j t)%R)).

Lemma v_rank c nd s (Hs : scalar_setup c nd = Some s) : (length (t_shape (c_v c)) =? nd)%nat = true \/ exists m, t_shape (c_v c) = m :: last_n nd (t_shape (c_v c)).
Proof.
  destruct (su_parts c nd s Hs) as (Ls & _ & _ & _ & Hm). unfold extract_models in Hm. cbv zeta in Hm. cbn [forallb] in Hm.
  assert (Lp : (length (sum_pad (repeat (c_accuracy c / 2)%Z (2 * nd)) (su_pw s)) / 2 = nd)%nat). { rewrite (pad_length _ _ _ (su_Lfd c nd) (su_Lpw c nd s Hs) (su_nd c nd s Hs)). rewrite Nat.mul_comm. apply Nat.div_mul. lia. }
  rewrite Lp in Hm. destruct (negb _ || _) in Hm; [discriminate|]. destruct (_ && true) eqn:Eb in Hm; [|discriminate]. rewrite andb_true_r in Eb. apply andb_prop in Eb. destruct Eb as [Eb _].
  apply orb_prop in Eb. destruct Eb as [Eb|Eb]; [left; exact Eb|]. right. apply Nat.eqb_eq in Eb. unfold last_n. rewrite Eb. replace (nd + 1 - nd)%nat with 1%nat by lia.
  destruct (t_shape (c_v c)) as [|m r]; [cbn in Eb; lia|]. exists m. reflexivity.
Qed.
Section Grad.
Variables (c : call) (nd : nat) (s : setup) (vm : R) (a : tens R) (l : loct).
Hypothesis Hs : scalar_setup c nd = Some s.
Hypothesis Hvm : c_max_vel c = Some vm.
Hypothesis Ham : c_amps c = Some a.
Hypothesis Hl : c_src c = Some l.
Hypothesis Hrows : Forall (fun row => Z.of_nat (length row) = lt_count l) (lt_data l).
Hypothesis W1 : locs_whole nd [c_src c].
Hypothesis W2 : locs_whole nd [c_rec c].
Hypothesis Ha : area_ok c nd.
Hypothesis Hf : c_freq c <> Some 0%R.
Hypothesis Hratio : su_ratio s = 1.
Hypothesis Hint : c_interval c = 1.
Variables (V A : R -> tens R) (dv da : pt -> R).
Hypothesis V0 : V 0%R = c_v c.
Hypothesis A0 : A 0%R = a.
Hypothesis Vsh : forall h, t_shape (V h) = t_shape (c_v c).
Hypothesis Ash : forall h, t_shape (A h) = t_shape a.
Hypothesis HV : forall p, inb (abox (t_shape (c_v c))) p = true -> derivable_pt_lim (fun h => t_at (V h) p) 0 (dv p).
Hypothesis HA : forall p, inb (abox (t_shape a)) p = true -> derivable_pt_lim (fun h => t_at (A h) p) 0 (da p).
Notation ch h := (with_inputs c (V h) (A h)).
Notation E := (su_ext s).
Notation pad := (sum_pad (repeat (c_accuracy c / 2) (2 * nd)) (su_pw s)).
Notation n := (prodZ (su_shape s)).

Definition sh (h : R) : setup := match scalar_setup (ch h) nd with Some s' => s' | None => s end.
Lemma sh_ok h : scalar_setup (ch h) nd = Some (sh h) /\ exists ms am, sh h = mksetup (su_ext s) ms am (su_src s) (su_rec s) (su_gs s) (su_dt s) (su_nt s) (su_nb s) (su_ratio s) (su_interval s)
    (su_acc s) (su_pw s) (su_freq s) (su_vel s) (su_ft s) (su_tp s).
Proof. unfold sh. destruct (setup_with c nd s vm (V h) a (A h) Hs Hvm Ham (Vsh h) (Ash h)) as (ms & am & ->). split; [reflexivity|]. exists ms, am. reflexivity. Qed.
Lemma ch0 : ch 0%R = c.
Proof. rewrite V0, A0. unfold with_inputs. rewrite <- Ham. destruct c; reflexivity. Qed.
Lemma sh0 : sh 0%R = s.
Proof. unfold sh. rewrite ch0, Hs. reflexivity. Qed.
Lemma sh_shape h : su_shape (sh h) = su_shape s.
Proof.
  destruct (sh_ok h) as (H & ms & am & Eq). rewrite (su_shape_eq _ _ _ H (Ha : area_ok (ch h) nd)), (su_shape_eq _ _ _ Hs Ha). rewrite Eq. reflexivity.
Qed.
Lemma sh_par h b : shot_par (sh h) b = shot_par s b.
Proof. unfold shot_par. rewrite sh_shape. destruct (sh_ok h) as (_ & ms & am & Eq). rewrite Eq. reflexivity. Qed.
Lemma sh_data h b R : shot_data c (sh h) b R = shot_data c s b R.
Proof. destruct (sh_ok h) as (_ & ms & am & Eq). rewrite Eq. reflexivity. Qed.
Lemma shape_pos : Forall (fun m => 0 < m) (su_shape s).
Proof.
  apply Forall_forall. intros m Hm. destruct (In_nth _ _ 0 Hm) as (d & Hd & <-). destruct (su_geom c nd s Hs O Ha Hf d Hd) as (g1 & g2 & g3 & _).
  change (p_shape (shot_par s 0)) with (su_shape s) in g3. pose proof (fd_pad_pos (p_acc (shot_par s 0))). lia.
Qed.
Lemma sh_model h b i : Z.of_nat b < su_nb s -> 0 <= i < n -> shot_model (sh h) b i = t_at (V h) (cell_of c nd s b i).
Proof.
  intros Hb Hi. destruct (sh_ok h) as (H & ms & am & Eq).
  assert (Hq : inb (abox (su_shape (sh h))) (unidx (su_shape s) i) = true) by (rewrite sh_shape; apply unidx_in_array; [apply shape_pos|exact Hi]).
  assert (Hb' : Z.of_nat b < su_nb (sh h)) by (rewrite Eq; exact Hb).
  pose proof (shot_model_eq (ch h) nd (sh h) H b _ (Ha : area_ok (ch h) nd) Hb' Hq) as M.
  rewrite sh_shape in M. rewrite idx_unidx in M by (try exact shape_pos; exact Hi). rewrite M.
  unfold mval, user_shot, mbatch, cell_of. cbn [with_inputs c_v c_accuracy]. rewrite (Vsh h). rewrite Eq. cbn [su_ext su_pw]. destruct (_ =? nd)%nat; reflexivity.
Qed.
Lemma cell_in b i : Z.of_nat b < su_nb s -> inb (abox (t_shape (c_v c))) (cell_of c nd s b i) = true.
Proof.
  intros Hb. destruct (su_parts c nd s Hs) as (Ls & LE & _).
  assert (Hp : forall p, inb (abox (last_n nd (t_shape (c_v c)))) (nearest E p) = true).
  { intros p. apply inb_spec. unfold nearest. rewrite map_length, seq_length, abox_length. split; [lia|]. intros d Hd. rewrite coord_map_seq by lia.
    pose proof (su_ext_ok c nd s Hs Ha d ltac:(lia)) as X. unfold clampZ. unfold abox. rewrite (map_nth (fun m => (0, m)) _ 0 d : nth d _ (0, 0) = _). cbn [fst snd]. lia. }
  unfold cell_of. cbv zeta. pose proof (user_shot_ok c nd s Hs b Ha Hb) as U. unfold user_shot, mbatch in U. destruct (v_rank c nd s Hs) as [Er|[m Er]].
  - rewrite Er. apply Nat.eqb_eq in Er. specialize (Hp (under E pad (unidx (su_shape s) i))). unfold last_n in Hp. rewrite Er, Nat.sub_diag in Hp. exact Hp.
  - destruct (length (t_shape (c_v c)) =? nd)%nat eqn:El; [apply Nat.eqb_eq in El; rewrite Er in El; cbn in El; lia|].
    rewrite Er at 1. cbn [abox map inb]. rewrite Er in U |- *. cbn [hd] in *. rewrite !andb_true_iff, Z.leb_le, Z.ltb_lt. split; [exact U|]. rewrite Er in Hp. apply Hp.
Qed.

(** *** Amplitudes *)
Lemma a_shape : t_shape a = [su_nb s; lt_count l; su_nt s] /\ 0 <= su_nt s.
Proof.
  destruct (setup_parts c nd s Hs) as (_ & _ & _ & _ & _ & _ & Hnt & _ & _ & _ & _ & HC & HA' & _).
  rewrite Ham in HC, HA', Hnt. rewrite Hl in HC. unfold check_amplitudes_locations in HC. cbn in HC. apply andb_prop in HC. destruct HC as [HC _]. apply andb_prop in HC. destruct HC as [_ HC]. apply Z.eqb_eq in HC.
  unfold source_amplitudes, set_source_amplitudes in HA'. cbn [map oshape] in HA'. rewrite Hratio in *.
  destruct (t_shape a) as [|a0 [|a1 [|a2 [|]]]]; try discriminate HA'. destruct (Z.eqb_spec a0 (su_nb s)) as [E0|]; [|discriminate HA']. cbn [negb] in HA'.
  destruct (Z.eqb_spec (a2 * 1) (su_nt s)) as [E2|]; [|discriminate HA']. cbn [nth] in HC. split; [repeat (f_equal; try lia)|].
  unfold set_nt in Hnt. destruct (1 <? 1) in Hnt; [discriminate|]. cbn [present oshape] in Hnt.
  destruct (match c_nt c with Some _ => _ | None => _ end) as [m|] in Hnt; [|discriminate]. destruct (Z.ltb_spec m 0); [discriminate|]. injection Hnt as Hnt. lia.
Qed.
Lemma src_len b : Z.of_nat b < su_nb s -> Z.of_nat (length (shot_row (su_src s) b)) = lt_count l.
Proof.
  intros Hb. destruct (has_src c nd s Hs W1 b Hb) as (l' & a' & ps & H1 & H2 & H3). rewrite Hl in H1. injection H1 as <-.
  pose proof (row_length c nd s Hs Ha W1 W2 b true l ps Hl H3) as L. cbv iota in L. rewrite L.
  rewrite Forall_forall in Hrows. apply Hrows. exact (nth_error_In _ _ H3).
Qed.
Lemma sh_amp h b k t : Z.of_nat b < su_nb s -> 0 <= t < su_nt s -> raw_amp (sh h) b k t = t_at (A h) [Z.of_nat b; Z.of_nat k; t].
Proof.
  intros Hb Ht. destruct (sh_ok h) as (H & ms & am & Eq). destruct a_shape as [Sa _]. unfold raw_amp.
  pose proof (amp_at (ch h) nd (sh h) H b (A h) (Z.to_nat t) k eq_refl) as X. rewrite Z2Nat.id in X by lia. rewrite X.
  assert (Er : su_ratio (sh h) = 1) by (rewrite Eq; exact Hratio). rewrite Er. change (Z.to_nat 1) with 1%nat. rewrite (proj1 (ratio_one _ _ _ _)).
  rewrite (Ash h), Sa. cbn [nth].
  rewrite (nth_indep _ 0%R ((fun i => t_at (A h) [Z.of_nat b; Z.of_nat k; Z.of_nat i]) O)) by (rewrite map_length, seq_length; lia).
  rewrite (map_nth (fun i => t_at (A h) [Z.of_nat b; Z.of_nat k; Z.of_nat i])), seq_nth by lia. rewrite Nat.add_0_l, Z2Nat.id by lia. reflexivity.
Qed.
Lemma amps_len s' b t : length (shot_amps s' b t) = length (shot_row (su_src s') b).
Proof. unfold shot_amps, scale_sources. rewrite map_length, combine_length, map_length, seq_length. lia. Qed.
Lemma amps_nth s' b t k : (k < length (shot_row (su_src s') b))%nat -> nth k (shot_amps s' b t) 0%R =
  (- raw_amp s' b k t * (shot_model s' b (py_masked (nth k (shot_row (su_src s') b) IGNORE)) * shot_model s' b (py_masked (nth k (shot_row (su_src s') b) IGNORE))) * su_dt s' ^ 2)%R.
Proof.
  intros Hk. unfold shot_amps, scale_sources. cbv zeta.
  rewrite (nth_indep _ 0%R ((fun la : Z * R => - snd la * (shot_model s' b (py_masked (fst la)) * shot_model s' b (py_masked (fst la))) * su_dt s' ^ 2)%R (IGNORE, 0%R)))
    by (rewrite map_length, combine_length, map_length, seq_length; lia).
  etransitivity; [exact (map_nth (fun la : Z * R => - snd la * (shot_model s' b (py_masked (fst la)) * shot_model s' b (py_masked (fst la))) * su_dt s' ^ 2)%R _ (IGNORE, 0%R) k)|].
  rewrite combine_nth by (rewrite map_length, seq_length; reflexivity). cbn [fst snd]. unfold raw_amp.
  rewrite (nth_indep _ 0%R ((fun k => t_at (nth 0 (su_amps s') (mktens [] (fun _ => 0%R))) [t; Z.of_nat b; Z.of_nat k]) O)) by (rewrite map_length, seq_length; exact Hk).
  rewrite (map_nth (fun k => t_at (nth 0 (su_amps s') (mktens [] (fun _ => 0%R))) [t; Z.of_nat b; Z.of_nat k])), seq_nth by exact Hk. reflexivity.
Qed.
Lemma src_in b k : Z.of_nat b < su_nb s -> (k < length (shot_row (su_src s) b))%nat -> 0 <= py_masked (nth k (shot_row (su_src s) b) IGNORE) < n.
Proof.
  intros Hb Hk. assert (P0 : 0 < n).
  { pose proof shape_pos as X. clear -X. induction (su_shape s) as [|m r IH]; cbn; [lia|]. inversion X; subst. specialize (IH H2). cbn in IH. nia. }
  destruct (has_src c nd s Hs W1 b Hb) as (l' & a' & ps & H1 & H2 & H3). pose proof (row_length c nd s Hs Ha W1 W2 b true l' ps H1 H3) as L. cbv iota in L.
  assert (L3 : loc3 (if true then [c_src c] else [c_rec c]) 0 b k = Some (nth k ps [])) by (unfold loc3; cbn; rewrite H1, H3; apply nth_error_nth'; lia).
  destruct (W1 O b k _ L3) as [Hp|Hp].
  - destruct (loc_at c nd s Hs Ha true b k _ L3 Hp) as (G1 & G2 & _). cbv iota in G1. rewrite (nth_error_nth _ _ _ G1). pose proof (idx_bound _ _ G2) as B0.
    unfold py_masked. destruct (_ =? IGNORE); [lia|exact B0].
  - pose proof (loc_ign c nd s Hs true b k _ L3 Hp) as G1. cbv iota in G1. rewrite (nth_error_nth _ _ _ G1). unfold py_masked. rewrite Z.eqb_refl. lia.
Qed.
(** *** One shot *)
Notation src b := (shot_row (su_src s) b).
Notation spos b k := (py_masked (nth k (shot_row (su_src s) b) IGNORE)).
Definition dmod (b : nat) : arr R_ops := fun i => dv (cell_of c nd s b i).
Definition damp (b k : nat) (t : Z) : R :=
  (- da [Z.of_nat b; Z.of_nat k; t] * (shot_model s b (spos b k) * shot_model s b (spos b k)) * su_dt s ^ 2
   + - raw_amp s b k t * (2 * shot_model s b (spos b k)) * su_dt s ^ 2 * dmod b (spos b k))%R.
Definition drows (b : nat) (t : Z) : list R := map (fun k => damp b k t) (seq 0 (length (src b))).
Lemma model_curve b : Z.of_nat b < su_nb s -> acurve n (fun h => shot_model (sh h) b) (dmod b).
Proof.
  intros Hb i Hi. apply (derivable_ext (fun h => t_at (V h) (cell_of c nd s b i))); [intros h; symmetry; apply sh_model; assumption|]. apply HV, cell_in, Hb.
Qed.
Lemma amp_in_box b k t : Z.of_nat b < su_nb s -> (k < length (src b))%nat -> 0 <= t < su_nt s -> inb (abox (t_shape a)) [Z.of_nat b; Z.of_nat k; t] = true.
Proof.
  intros Hb Hk Ht. destruct a_shape as [-> _]. pose proof (src_len b Hb). cbn. rewrite !andb_true_iff, !Z.leb_le, !Z.ltb_lt. lia.
Qed.
Lemma drows_nth b t k : (k < length (src b))%nat -> nth k (drows b t) 0%R = damp b k t.
Proof.
  intros Hk. unfold drows. rewrite (nth_indep _ 0%R (damp b O t)) by (rewrite map_length, seq_length; exact Hk).
  rewrite (map_nth (fun k => damp b k t)), seq_nth by exact Hk. reflexivity.
Qed.
Lemma sh_src h : su_src (sh h) = su_src s.
Proof. destruct (sh_ok h) as (_ & ms & am & Eq). rewrite Eq. reflexivity. Qed.
Lemma sh_dt h : su_dt (sh h) = su_dt s.
Proof. destruct (sh_ok h) as (_ & ms & am & Eq). rewrite Eq. reflexivity. Qed.
Lemma amps_curve b : Z.of_nat b < su_nb s -> rcurve (su_nt s) (fun h => shot_amps (sh h) b) (drows b).
Proof.
  intros Hb t Ht. assert (LD : length (drows b t) = length (src b)) by (unfold drows; rewrite map_length, seq_length; reflexivity). rewrite LD. split.
  - intros h. rewrite amps_len, sh_src. reflexivity.
  - intros k Hk. rewrite drows_nth by exact Hk.
    set (w := fun h => shot_model (sh h) b (spos b k)). set (r := fun h => t_at (A h) [Z.of_nat b; Z.of_nat k; t]).
    assert (Dw : derivable_pt_lim w 0 (dmod b (spos b k))) by exact (model_curve b Hb (spos b k) (src_in b k Hb Hk)).
    assert (Dr : derivable_pt_lim r 0 (da [Z.of_nat b; Z.of_nat k; t])) by exact (HA _ (amp_in_box b k t Hb Hk Ht)).
    apply (derivable_ext (fun h => (- su_dt s ^ 2) * (r h * (w h * w h)))%R).
    { intros h. rewrite amps_nth by (rewrite sh_src; exact Hk). rewrite sh_src, sh_dt. rewrite (sh_amp h b k t Hb Ht). unfold w, r. ring. }
    eapply derivable_eq; [|exact (derivable_scal (- su_dt s ^ 2) (fun h => r h * (w h * w h))%R _ (derivable_pt_lim_mult r (fun h => w h * w h)%R 0 _ _ Dr (derivable_pt_lim_mult w w 0 _ _ Dw Dw)))].
    unfold w, r, damp. rewrite sh0. rewrite <- (sh_amp 0%R b k t Hb Ht), sh0. ring.
Qed.
Notation nr b := (length (shot_row (su_rec s) b)).
Notation ntn := (Z.to_nat (su_nt s)).
Lemma data_nth b r j : (j < nr b)%nat -> nth j (shot_data c s b r) [] = map (fun t => nth j (r (Z.of_nat t)) 0%R) (seq 0 ntn).
Proof.
  intros Hj. unfold shot_data. rewrite Hratio. change (Z.to_nat 1) with 1%nat.
  rewrite (nth_indep _ [] ((fun j => downsample 1 (su_ft s) (su_tp s) (c_taper c) 0%R (map (fun t => nth j (r (Z.of_nat t)) 0%R) (seq 0 ntn))) O)) by (rewrite map_length, seq_length; exact Hj).
  rewrite (map_nth (fun j => downsample 1 (su_ft s) (su_tp s) (c_taper c) 0%R (map (fun t => nth j (r (Z.of_nat t)) 0%R) (seq 0 ntn)))), seq_nth by exact Hj.
  apply (proj2 (ratio_one _ _ _ _)).
Qed.
Lemma zrange_nat (m : Z) (f : Z -> R) : sumf (K := R_ops) (zrange 0 m) f = sumf (K := R_ops) (seq 0 (Z.to_nat m)) (fun t => f (Z.of_nat t)).
Proof. unfold zrange. rewrite Z.sub_0_r, (sumf_map R_ops). reflexivity. Qed.
Lemma data_obj b obj g U0 R0 : data_gradient (nr b) ntn obj (shot_data c s b R0) g ->
  obj_gradient (shot_par s b) (su_nt s) (fun _ r => obj (shot_data c s b r)) U0 R0 (ScalarPhys.zero_st R_ops) (data_back s b g).
Proof.
  intros Hg u r du dr _ Er _ Hr. change (ScalarPhys.zero_st R_ops) with DerivObj.zero_st. rewrite udot_zero.
  eapply derivable_eq; [|apply (Hg (fun h => shot_data c s b (r h)) (fun j t => nth j (dr (Z.of_nat t)) 0%R))].
  - rewrite Rplus_0_l. rewrite (sumf_swap R_ops R_is_ring). unfold tdot. rewrite zrange_nat. apply (sumf_ext R_ops). intros t Ht. apply in_seq in Ht. rewrite ldot_nth.
    replace (length (data_back s b g (Z.of_nat t))) with (nr b) by (unfold data_back; rewrite map_length, seq_length; reflexivity). apply (sumf_ext R_ops). intros j Hj. apply in_seq in Hj. f_equal. unfold data_back. rewrite Nat2Z.id.
    rewrite (nth_indep _ 0%R ((fun j => g j t) O)) by (rewrite map_length, seq_length; lia). rewrite (map_nth (fun j => g j t)), seq_nth by lia. reflexivity.
  - rewrite Er. reflexivity.
  - intros h. split; [unfold shot_data; rewrite map_length, seq_length; reflexivity|]. intros j Hj. rewrite data_nth by exact Hj. rewrite map_length, seq_length. reflexivity.
  - intros j t Hj Ht. apply (derivable_ext (fun h => nth j (r h (Z.of_nat t)) 0%R)); [|apply (rcurve_nth (su_nt s)); [exact Hr|lia]].
    intros h. rewrite data_nth by exact Hj. symmetry. exact (nth_mapseq (fun t => nth j (r h (Z.of_nat t)) 0%R) ntn t 0%R Ht).
Qed.

Variables (visF visB : nat -> list (list Z * pt)) (store : nat -> Z -> arr R_ops) (obj : nat -> list (list R) -> R) (g : nat -> nat -> nat -> R).
Hypothesis HvF : forall b, Z.of_nat b < su_nb s -> fvis R_ops (shot_par s b) (pw_of (su_pw s)) (visF b).
Hypothesis HvB : forall b, Z.of_nat b < su_nb s -> bvis R_ops (shot_par s b) (pw_of (su_pw s)) (visB b).
Hypothesis Hg : forall b U R S, Z.of_nat b < su_nb s -> shot_run s b (visF b) true (store b) = Some (U, R, S) -> data_gradient (nr b) ntn (obj b) (shot_data c s b R) (g b).
Lemma s_step : su_ratio s * su_interval s = 1.
Proof.
  destruct (setup_parts c nd s Hs) as (_ & _ & _ & _ & _ & _ & _ & H & _). unfold set_sampling_interval in H. destruct (_ <? 0) in H; [discriminate|]. injection H as H. rewrite <- H, Hint, Hratio. reflexivity.
Qed.
Lemma sh_run h b : shot_run (sh h) b (visF b) true (store b) =
  scalar_forward R_ops (shot_par s b) (pw_of (su_pw s)) (shot_model (sh h) b) (visF b) true 1 (shot_amps (sh h) b) (su_nt s) None (store b) (ScalarPhys.zero_st R_ops).
Proof.
  unfold shot_run. rewrite sh_par. destruct (sh_ok h) as (_ & ms & am & Eq).
  assert (E1 : su_ratio (sh h) * su_interval (sh h) = 1) by (rewrite Eq; exact s_step). rewrite E1. cbn [Z.eqb].
  assert (E2 : su_pw (sh h) = su_pw s) by (rewrite Eq; reflexivity). assert (E3 : su_nt (sh h) = su_nt s) by (rewrite Eq; reflexivity). rewrite E2, E3. reflexivity.
Qed.
Definition shot_obj (b : nat) (h : R) : R := match shot_run (sh h) b (visF b) true (store b) with Some (_, R, _) => obj b (shot_data c s b R) | None => 0%R end.
Lemma shot_grad b : Z.of_nat b < su_nb s -> exists U R S G0 gf gv,
  shot_run s b (visF b) true (store b) = Some (U, R, S) /\ shot_back s b (visB b) S (g b) = Some (G0, gf, gv) /\
  (forall h, exists U R S, shot_run (sh h) b (visF b) true (store b) = Some (U, R, S)) /\
  derivable_pt_lim (shot_obj b) 0 (tdot (K := R_ops) (su_nt s) gf (drows b) + adot (K := R_ops) n gv (dmod b))%R.
Proof.
  intros Hb. destruct a_shape as [_ Hnt].
  destruct (shot_runs c nd s Hs b (visF b) true (store b) W1 W2 Ha Hf ltac:(lia) ltac:(rewrite Hint, Hratio; lia) (HvF b Hb)) as (U & R & S & ER).
  pose proof ER as EF. rewrite <- sh0, sh_run in EF. pose proof (Hg b U R S Hb ER) as Hgb.
  assert (HU : scurve (shot_par s b) (fun _ => ScalarPhys.zero_st R_ops) (ScalarPhys.zero_st R_ops)) by (constructor; intros; apply derivable_pt_lim_const).
  assert (Hcb : cb_ok (su_nt s) 1 None) by (cbn; lia).
  destruct (scalar_gradient_real (shot_par s b) (pw_of (su_pw s)) (su_geom c nd s Hs b Ha Hf) (su_src_ok c nd s Hs b W1 Ha) (su_rec_ok c nd s Hs b W2 Ha)
    (fun _ r => obj b (shot_data c s b r)) (fun h => shot_model (sh h) b) (dmod b) (fun h => shot_amps (sh h) b) (drows b) (fun _ => ScalarPhys.zero_st R_ops) (ScalarPhys.zero_st R_ops)
    (ScalarPhys.zero_st R_ops) (data_back s b (g b)) (su_nt s) (visF b) (visB b) None None (store b) U R S Hnt Hcb Hcb (HvF b Hb) (HvB b Hb) (model_curve b Hb) (amps_curve b Hb) HU EF
    (data_obj b (obj b) (g b) U R Hgb)) as (J & G0 & gf & gv & J1 & J2 & J3).
  exists U, R, S, G0, gf, gv. split; [exact ER|]. split.
  { unfold shot_back. rewrite s_step. rewrite sh0 in J2. exact J2. }
  split. { intros h. destruct (J1 h) as (Uh & Rh & Sh & Eh & _). exists Uh, Rh, Sh. rewrite sh_run. exact Eh. }
  apply (derivable_ext J). { intros h. destruct (J1 h) as (Uh & Rh & Sh & Eh & EJ). unfold shot_obj. rewrite sh_run, Eh. exact EJ. }
  eapply derivable_eq; [|exact J3]. rewrite (DoubleBack.udot_zero_r R_ops R_is_ring). rewrite Rplus_0_l. reflexivity.
Qed.
(** *** All shots *)
Definition gfs (b : nat) : Z -> list R := match shot_run s b (visF b) true (store b) with Some (_, _, Sn) => match shot_back s b (visB b) Sn (g b) with Some (_, gf, _) => gf | None => fun _ => [] end | None => fun _ => [] end.
Definition gvs (b : nat) : arr R_ops := match shot_run s b (visF b) true (store b) with Some (_, _, Sn) => match shot_back s b (visB b) Sn (g b) with Some (_, _, gv) => gv | None => fun _ => 0%R end | None => fun _ => 0%R end.
Notation nbn := (Z.to_nat (su_nb s)).
Notation box := (box_pts (abox (t_shape (c_v c)))).
Lemma shot_sum b (gf : Z -> list R) (gv : arr R_ops) : Z.of_nat b < su_nb s ->
  (tdot (K := R_ops) (su_nt s) gf (drows b) + adot (K := R_ops) n gv (dmod b))%R =
  (sumf (K := R_ops) (zrange 0 n) (fun i => pad_grad s b gf gv i * dmod b i) +
   sumf (K := R_ops) (seq 0 (Z.to_nat (lt_count l))) (fun k => sumf (K := R_ops) (seq 0 ntn) (fun t => a_grad s (fun _ => gf) b k t * da [Z.of_nat b; Z.of_nat k; Z.of_nat t])))%R.
Proof.
  intros Hb. rewrite <- (src_len b Hb), Nat2Z.id.
  set (X := fun t k => (nth k (gf t) 0 * (- raw_amp s b k t * (2 * shot_model s b (spos b k)) * su_dt s ^ 2 * dmod b (spos b k)))%R).
  set (Y := fun t k => (nth k (gf t) 0 * - (shot_model s b (spos b k) * shot_model s b (spos b k)) * su_dt s ^ 2 * da [Z.of_nat b; Z.of_nat k; t])%R).
  assert (E1 : tdot (K := R_ops) (su_nt s) gf (drows b) =
    (sumf (K := R_ops) (zrange 0 (su_nt s)) (fun t => sumf (K := R_ops) (seq 0 (length (src b))) (X t)) + sumf (K := R_ops) (zrange 0 (su_nt s)) (fun t => sumf (K := R_ops) (seq 0 (length (src b))) (Y t)))%R).
  { unfold tdot. etransitivity; [|exact (sumf_add R_ops R_is_ring _ _ _)]. apply (sumf_ext R_ops). intros t _. rewrite ldot_nth_r.
    unfold drows at 1. rewrite map_length, seq_length. etransitivity; [|exact (sumf_add R_ops R_is_ring _ _ _)]. apply (sumf_ext R_ops). intros k Hk. apply in_seq in Hk.
    rewrite drows_nth by lia. unfold X, Y, damp. cbn. ring. }
  assert (E2 : sumf (K := R_ops) (zrange 0 n) (fun i => pad_grad s b gf gv i * dmod b i)%R =
    (adot (K := R_ops) n gv (dmod b) + sumf (K := R_ops) (zrange 0 (su_nt s)) (fun t => sumf (K := R_ops) (seq 0 (length (src b))) (X t)))%R).
  { set (Z0 := fun i t k => ((if spos b k =? i then nth k (gf t) 0 * (- raw_amp s b k t * (2 * shot_model s b i) * su_dt s ^ 2) else 0) * dmod b i)%R).
    transitivity (adot (K := R_ops) n gv (dmod b) + sumf (K := R_ops) (zrange 0 n) (fun i => sumf (K := R_ops) (zrange 0 (su_nt s)) (fun t => sumf (K := R_ops) (seq 0 (length (src b))) (fun k => Z0 i t k))))%R.
    - unfold adot. etransitivity; [|exact (sumf_add R_ops R_is_ring _ _ _)]. apply (sumf_ext R_ops). intros i _. unfold pad_grad. etransitivity; [apply Rmult_plus_distr_r|]. apply (f_equal2 Rplus); [reflexivity|].
      rewrite Rmult_comm. etransitivity; [symmetry; exact (sumf_scal R_ops R_is_ring _ _ _)|]. apply (sumf_ext R_ops). intros t _.
      etransitivity; [symmetry; exact (sumf_scal R_ops R_is_ring _ _ _)|]. apply (sumf_ext R_ops). intros k _. unfold Z0. cbn. apply Rmult_comm.
    - apply (f_equal2 Rplus); [reflexivity|]. rewrite (sumf_swap R_ops R_is_ring). apply (sumf_ext R_ops). intros t _. rewrite (sumf_swap R_ops R_is_ring). apply (sumf_ext R_ops). intros k Hk. apply in_seq in Hk.
      unfold Z0. rewrite (sum_pickZ (zrange 0 n) (spos b k) (fun i => nth k (gf t) 0 * (- raw_amp s b k t * (2 * shot_model s b i) * su_dt s ^ 2))%R (dmod b) (NoDup_zrange _ _)) by (apply In_zrange, src_in; [exact Hb|lia]).
      unfold X. cbn. ring. }
  rewrite E1, E2.
  assert (E3 : sumf (K := R_ops) (seq 0 (length (src b))) (fun k => sumf (K := R_ops) (seq 0 ntn) (fun t => a_grad s (fun _ => gf) b k t * da [Z.of_nat b; Z.of_nat k; Z.of_nat t])%R) =
    sumf (K := R_ops) (zrange 0 (su_nt s)) (fun t => sumf (K := R_ops) (seq 0 (length (src b))) (Y t))).
  { rewrite zrange_nat. rewrite (sumf_swap R_ops R_is_ring). reflexivity. }
  rewrite E3. ring.
Qed.
Lemma v_sum (gf : nat -> Z -> list R) (gv : nat -> arr R_ops) : sumf (K := R_ops) box (fun x => v_grad c nd s gf gv x * dv x)%R =
  sumf (K := R_ops) (seq 0 nbn) (fun b => sumf (K := R_ops) (zrange 0 n) (fun i => pad_grad s b (gf b) (gv b) i * dmod b i)%R).
Proof.
  transitivity (sumf (K := R_ops) box (fun x => sumf (K := R_ops) (seq 0 nbn) (fun b => sumf (K := R_ops) (zrange 0 n) (fun i =>
    (if pt_eq_dec (cell_of c nd s b i) x then pad_grad s b (gf b) (gv b) i else 0) * dv x)%R))).
  - apply (sumf_ext R_ops). intros x _. unfold v_grad. rewrite Rmult_comm. etransitivity; [symmetry; exact (sumf_scal R_ops R_is_ring _ _ _)|]. apply (sumf_ext R_ops). intros b _.
    etransitivity; [symmetry; exact (sumf_scal R_ops R_is_ring _ _ _)|]. apply (sumf_ext R_ops). intros i _. cbn. apply Rmult_comm.
  - rewrite (sumf_swap R_ops R_is_ring). apply (sumf_ext R_ops). intros b Hb. apply in_seq in Hb. rewrite (sumf_swap R_ops R_is_ring). apply (sumf_ext R_ops). intros i _.
    rewrite (sum_pick pt_eq_dec box _ _ dv (NoDup_box_pts _)); [reflexivity|]. apply In_box_pts, cell_in. lia.
Qed.
Lemma user_gradient : exists J gf gv,
  (forall h, exists s' D, scalar_setup (ch h) nd = Some s' /\
     (forall b, Z.of_nat b < su_nb s -> exists U R S, shot_run s' b (visF b) true (store b) = Some (U, R, S) /\ D b = shot_data (ch h) s' b R) /\
     J h = sumf (K := R_ops) (seq 0 nbn) (fun b => obj b (D b))) /\
  (forall b, Z.of_nat b < su_nb s -> exists U R S G0, shot_run s b (visF b) true (store b) = Some (U, R, S) /\ shot_back s b (visB b) S (g b) = Some (G0, gf b, gv b)) /\
  derivable_pt_lim J 0
    (sumf (K := R_ops) box (fun x => v_grad c nd s gf gv x * dv x) +
     sumf (K := R_ops) (seq 0 nbn) (fun b => sumf (K := R_ops) (seq 0 (Z.to_nat (lt_count l))) (fun k => sumf (K := R_ops) (seq 0 ntn) (fun t =>
       a_grad s gf b k t * da [Z.of_nat b; Z.of_nat k; Z.of_nat t]))))%R.
Proof.
  exists (fun h => sumf (K := R_ops) (seq 0 nbn) (fun b => shot_obj b h)), gfs, gvs. split; [|split].
  - intros h. destruct (sh_ok h) as (H & _).
    exists (sh h), (fun b => match shot_run (sh h) b (visF b) true (store b) with Some (_, R, _) => shot_data c s b R | None => [] end). split; [exact H|]. split.
    + intros b Hb. destruct (shot_grad b Hb) as (_ & _ & _ & _ & _ & _ & _ & _ & X & _). destruct (X h) as (U & R & S & E1). exists U, R, S. split; [exact E1|]. rewrite E1.
      symmetry. exact (sh_data h b R).
    + apply (sumf_ext R_ops). intros b Hb. apply in_seq in Hb. destruct (shot_grad b ltac:(lia)) as (_ & _ & _ & _ & _ & _ & _ & _ & X & _). destruct (X h) as (U & R & S & E1).
      unfold shot_obj. rewrite E1. reflexivity.
  - intros b Hb. destruct (shot_grad b Hb) as (U & R & S & G0 & gf & gv & E1 & E2 & _). exists U, R, S, G0. split; [exact E1|]. unfold gfs, gvs. rewrite E1, E2. reflexivity.
  - rewrite v_sum. eapply derivable_eq; [|apply (derivable_sumf (seq 0 nbn) (fun h b => shot_obj b h) (fun b => tdot (K := R_ops) (su_nt s) (gfs b) (drows b) + adot (K := R_ops) n (gvs b) (dmod b))%R)].
    + etransitivity; [|exact (sumf_add R_ops R_is_ring _ _ _)]. apply (sumf_ext R_ops). intros b Hb. apply in_seq in Hb. exact (shot_sum b (gfs b) (gvs b) ltac:(lia)).
    + intros b Hb. apply in_seq in Hb. destruct (shot_grad b ltac:(lia)) as (U & R & S & G0 & gf & gv & E1 & E2 & _ & X). unfold gfs, gvs. rewrite E1, E2. exact X.
Qed.
End Grad.
