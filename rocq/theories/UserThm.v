(** * Accepted calls of [scalar] (proofs). *)
From Coq Require Import List ZArith QArith Reals Lra Lia Bool.
From Verif Require Import Ops Sums Grid Stencil StencilOrder ScalarModel ScalarRefine ScalarFunc ScalarApi ScalarPhys GeomModel Geom Geom2 GeomLocs SetupModel RealModel RealThm Resample
  UserModel.
Import ListNotations.
Local Open Scope Z_scope.

Lemma rle_spec x y : rle x y = true <-> (x <= y)%R.
Proof. unfold rle. destruct (Rle_dec x y); split; intros; try assumption; try reflexivity; try discriminate; contradiction. Qed.
Lemma req_spec x y : req x y = true <-> x = y.
Proof. unfold req. destruct (Req_EM_T x y); split; intros; try assumption; try reflexivity; try discriminate; contradiction. Qed.
Lemma existsb_false {A} (f : A -> bool) l : existsb f l = false <-> forall x, In x l -> f x = false.
Proof.
  split.
  - intros H x Hx. destruct (f x) eqn:E; [|reflexivity]. assert (existsb f l = true) by (apply existsb_exists; eauto). congruence.
  - intros H. destruct (existsb f l) eqn:E; [|reflexivity]. apply existsb_exists in E. destruct E as (x & Hx & Hf). rewrite H in Hf by exact Hx. discriminate.
Qed.
Lemma set_grid_spacing_spec g nd l : set_grid_spacing g nd = Some l -> length l = nd /\ Forall (fun x => 0 < x)%R l /\ l = per_list g nd.
Proof.
  unfold set_grid_spacing. destruct (existsb _ _) eqn:E; [discriminate|]. destruct (_ =? _)%nat eqn:L; [|discriminate].
  intros H. injection H as <-. apply Nat.eqb_eq in L. split; [exact L|]. split; [|reflexivity]. apply Forall_forall. intros x Hx.
  apply existsb_false with (x := x) in E; [|exact Hx]. destruct (Rle_dec x 0) as [H|H]; [apply rle_spec in H; congruence|lra].
Qed.
Lemma set_pml_width_spec w nd l : set_pml_width w nd = Some l -> length l = (2 * nd)%nat /\ Forall (fun x => 0 <= x) l /\ l = per_list w (2 * nd).
Proof.
  unfold set_pml_width. destruct (existsb _ _) eqn:E; [discriminate|]. destruct (_ =? _)%nat eqn:L; [|discriminate].
  intros H. injection H as <-. apply Nat.eqb_eq in L. split; [exact L|]. split; [|reflexivity]. apply Forall_forall. intros x Hx.
  apply existsb_false with (x := x) in E; [|exact Hx]. apply Z.ltb_ge in E. exact E.
Qed.
Lemma set_accuracy_spec a ac : set_accuracy a = Some ac -> a = 2 * fd_pad ac /\ a / 2 = fd_pad ac.
Proof.
  unfold set_accuracy. destruct (Z.eqb_spec a 2) as [->|]; [intros H; injection H as <-; split; reflexivity|].
  destruct (Z.eqb_spec a 4) as [->|]; [intros H; injection H as <-; split; reflexivity|].
  destruct (Z.eqb_spec a 6) as [->|]; [intros H; injection H as <-; split; reflexivity|].
  destruct (Z.eqb_spec a 8) as [->|]; [intros H; injection H as <-; split; reflexivity|]. discriminate.
Qed.
Lemma set_pml_freq_spec f dt r : set_pml_freq f dt = Some r -> (dt <> 0 /\ 0 <= r /\ r = match f with Some f => f | None => 25 end)%R.
Proof.
  unfold set_pml_freq. destruct (req dt 0) eqn:E; [discriminate|]. cbv zeta. destruct (Rlt_dec _ 0) as [H|H]; [discriminate|]. intros G. injection G as <-.
  split; [intros ->; assert (req 0 0 = true) by (apply req_spec; reflexivity); congruence|]. split; [lra|reflexivity].
Qed.
Lemma set_nt_spec nt amps ratio n : set_nt nt amps ratio = Some n -> 1 <= ratio /\ exists k, n = k * ratio /\ 0 <= k /\
  (forall m, nt = Some m -> k = m) /\ (forall a, In (Some a) amps -> forall r, present amps = a :: r -> k = last a 0).
Proof.
  unfold set_nt. destruct (Z.ltb_spec ratio 1); [discriminate|]. intros H0. split; [lia|].
  destruct (present amps) as [|a0 r0] eqn:Ep; destruct nt as [m|]; try discriminate.
  - destruct (Z.ltb_spec m 0); [discriminate|]. injection H0 as <-. exists m. repeat split; try lia; [intros x E; injection E; auto|intros; discriminate].
  - destruct (Z.eqb_spec m (last a0 0)); [|discriminate]. destruct (Z.ltb_spec m 0); [discriminate|]. injection H0 as <-.
    exists m. repeat split; try lia; [intros x E; injection E; auto|]. intros a _ r E. injection E as -> ->. exact e.
  - destruct (Z.ltb_spec (last a0 0) 0); [discriminate|]. injection H0 as <-. exists (last a0 0). repeat split; try lia; [discriminate|].
    intros a _ r E. injection E as -> ->. reflexivity.
Qed.

Lemma setup_parts c nd s : scalar_setup c nd = Some s ->
  get_n_batch [c_src c] (repeat None (2 + 2 * nd)) = Some (su_nb s) /\
  set_grid_spacing (c_gs c) nd = Some (su_gs s) /\
  cfl_condition_n (su_gs s) (c_dt c) (su_vel s) cfl_eps cfl_c_max = Some (su_dt s, su_ratio s) /\
  set_accuracy (c_accuracy c) = Some (su_acc s) /\
  set_pml_width (c_pw c) nd = Some (su_pw s) /\
  set_pml_freq (c_freq c) (su_dt s) = Some (su_freq s) /\
  set_nt (c_nt c) [oshape (c_amps c)] (su_ratio s) = Some (su_nt s) /\
  set_sampling_interval (c_interval c) = Some (su_interval s) /\
  set_frac (c_ft c) = Some (su_ft s) /\ set_frac (c_tp c) = Some (su_tp s) /\
  (exists mv, max_abs (c_v c) = Some mv /\ set_max_vel (c_max_vel c) mv = Some (su_vel s)) /\
  check_amplitudes_locations [oshape (c_amps c)] [c_src c] = true /\
  source_amplitudes [c_amps c] (su_nb s) (su_nt s) (su_ratio s) (su_ft s) (su_tp s) (c_taper c) = Some (su_amps s) /\
  extract_survey 0%R [c_v c] [c_src c] [c_rec c] (repeat None (2 + 2 * nd)) (c_sp c) None (repeat (c_accuracy c / 2) (2 * nd)) (su_pw s) [Replicate] (su_nb s) nd =
    Some (su_ext s, su_models s, su_src s, su_rec s).
Proof.
  unfold scalar_setup, setup_propagator. intros H. cbn [map] in H.
  repeat match type of H with
  | match ?e with Some _ => _ | None => None end = _ => let E := fresh "E" in destruct e as [?|] eqn:E; [|discriminate]
  | (if negb ?e then None else _) = _ => let E := fresh "E" in destruct e eqn:E; cbn [negb] in H; [|discriminate]
  | (let (_, _) := ?e in _) = _ => let E := fresh "D" in destruct e eqn:E
  end.
  injection H as <-. cbn. subst. repeat split; try assumption. eexists; split; [reflexivity|eassumption].
Qed.

(** Some location is active. *)
Definition some_active (nd : nat) (locs : list (option loct)) : Prop := exists k sh j p, loc3 locs k sh j = Some p /\ active_pt nd p.
(** The survey area is not empty: it is the whole model, or there is something to enclose. *)
Definition area_ok (c : call) (nd : nat) : Prop := c_sp c = SPnone \/ some_active nd [c_src c; c_rec c].

Lemma present_none {X} n : present (repeat (@None X) n) = [].
Proof. induction n; [reflexivity|exact IHn]. Qed.
Lemma row_at3 l b j : nth_error (shot_row l b) j = at3 l 0 b j.
Proof.
  unfold shot_row, at3. destruct l as [|a l]; cbn [nth nth_error]; [destruct b, j; reflexivity|].
  destruct (nth_error a b) as [r|] eqn:E; [rewrite (nth_error_nth _ _ _ E); reflexivity|].
  apply nth_error_None in E. rewrite nth_overflow by exact E. destruct j; reflexivity.
Qed.

Section Accepted.
Variables (c : call) (nd : nat) (s : setup).
Hypothesis Hs : scalar_setup c nd = Some s.
Notation E := (su_ext s).
Notation fdp := (repeat (c_accuracy c / 2) (2 * nd)).
Notation pad := (sum_pad fdp (su_pw s)).
Notation locs := [c_src c; c_rec c].
Notation ushape := (last_n nd (t_shape (c_v c))).
Notation wfs0 := (repeat None (2 + 2 * nd)).

Lemma su_survey : extract_survey 0%R [c_v c] [c_src c] [c_rec c] wfs0 (c_sp c) None fdp (su_pw s) [Replicate] (su_nb s) nd =
  Some (E, su_models s, su_src s, su_rec s).
Proof. apply (setup_parts c nd s Hs). Qed.
Lemma su_fd : c_accuracy c / 2 = fd_pad (su_acc s).
Proof. apply (set_accuracy_spec (c_accuracy c)), (setup_parts c nd s Hs). Qed.
Lemma su_Lfd : length fdp = (2 * nd)%nat. Proof. apply repeat_length. Qed.
Lemma su_Lpw : length (su_pw s) = (2 * nd)%nat.
Proof. destruct (setup_parts c nd s Hs) as (_ & _ & _ & _ & H & _). apply set_pml_width_spec in H. tauto. Qed.
Lemma su_pw0 : Forall (fun x => 0 <= x) (su_pw s).
Proof. destruct (setup_parts c nd s Hs) as (_ & _ & _ & _ & H & _). apply set_pml_width_spec in H. tauto. Qed.
Lemma su_fd0 : Forall (fun x => 0 <= x) fdp.
Proof. apply Forall_forall. intros x Hx. apply repeat_spec in Hx. subst x. rewrite su_fd. pose proof (fd_pad_pos (su_acc s)). lia. Qed.
Lemma su_nd : (0 < nd)%nat.
Proof.
  destruct (Nat.eq_dec nd 0) as [E0|]; [|lia]. exfalso. pose proof su_survey as H. unfold extract_survey in H.
  destruct (negb _ && _); [discriminate|]. cbv zeta in H. rewrite E0 in H.
  assert (Z0 : @last_n Z 0 (t_shape (c_v c)) = []) by (unfold last_n; rewrite Nat.sub_0_r; apply skipn_all). rewrite Z0 in H. discriminate.
Qed.
Lemma su_parts : length ushape = nd /\ length E = nd /\ check_locations_are_within_model ushape locs = true /\
  get_survey_extents_from_locations ushape locs (c_sp c) = Some E /\ extract_models 0%R [c_v c] E pad [Replicate] (su_nb s) = Some (su_models s).
Proof.
  destruct (run_parts 0%R _ _ _ _ _ _ _ _ _ _ _ _ _ _ _ su_Lfd su_Lpw su_nd su_survey) as (_ & H1 & H2 & H3 & H4 & H5 & _).
  split; [exact H1|]. split; [exact H2|]. split; [exact H3|]. split; [|exact H5].
  destruct H4 as [(H & _)|H]; [|exact H]. exfalso. unfold get_survey_extents_from_wavefields in H. cbv zeta in H.
  destruct (negb _ || negb _); [discriminate|]. rewrite present_none in H. discriminate.
Qed.
Lemma su_active d x : (d < nd)%nat -> is_active locs d x -> 0 <= x < nth d ushape 0.
Proof.
  intros Hd Hx. destruct su_parts as (Ls & _ & Hc & _). apply is_active_In in Hx. unfold active in Hx. apply in_flat_map in Hx.
  destruct Hx as (L & HL & Hx). unfold check_locations_are_within_model in Hc. rewrite !andb_true_iff in Hc. destruct Hc as [_ Hc].
  rewrite forallb_forall in Hc. specialize (Hc L HL). rewrite forallb_forall in Hc. specialize (Hc d). rewrite in_seq, Ls in Hc. specialize (Hc ltac:(lia)).
  apply andb_true_iff in Hc. destruct Hc as [_ Hc].
  destruct (lmin (dim_locs d L)) as [a|] eqn:Ea; [|destruct (dim_locs d L); [contradiction|discriminate]].
  destruct (lmax (dim_locs d L)) as [b|] eqn:Eb; [|destruct (dim_locs d L); [contradiction|discriminate]].
  apply lmin_spec in Ea. apply lmax_spec in Eb. destruct Ea as [_ Ea]. destruct Eb as [_ Eb].
  specialize (Ea _ Hx). specialize (Eb _ Hx). apply andb_true_iff in Hc. rewrite Z.leb_le, Z.ltb_lt in Hc. lia.
Qed.
Lemma loc_active k sh j p d : loc3 locs k sh j = Some p -> active_pt nd p -> (d < nd)%nat -> is_active locs d (coord d p).
Proof.
  intros Hl [_ Ha] Hd. destruct (loc3_In _ _ _ _ _ Hl) as (L & ps & A & B & C). exists L, ps, p. repeat split; try assumption. apply Ha, Hd.
Qed.
Lemma su_ext_ok : area_ok c nd -> forall d, (d < nd)%nat -> 0 <= fst (nth d E (0, 0)) < snd (nth d E (0, 0)) /\ snd (nth d E (0, 0)) <= nth d ushape 0.
Proof.
  intros Ha d Hd. destruct su_parts as (Ls & LE & Hc & HE & _).
  destruct (survey_area _ _ _ _ HE) as [_ H]; [intros; apply su_active; [lia|assumption]|].
  destruct (H d ltac:(lia)) as (H1 & _ & H3 & H4 & H5 & _). cbv zeta in *. destruct Ha as [Ha|(k & sh & j & p & Hl & Hp)].
  - rewrite Ha in H3, H4. rewrite H3, H4 by reflexivity.
    unfold check_locations_are_within_model in Hc. rewrite !andb_true_iff in Hc. destruct Hc as [[_ Hc] _]. rewrite forallb_forall in Hc.
    specialize (Hc (nth d ushape 0) ltac:(apply nth_In; lia)). apply Z.ltb_lt in Hc. lia.
  - specialize (H5 _ (loc_active k sh j p d Hl Hp Hd)). lia.
Qed.
Lemma su_ext_in : area_ok c nd -> ext_in E ushape.
Proof. intros Ha. destruct su_parts as (Ls & LE & _). split; [lia|]. intros d Hd. pose proof (su_ext_ok Ha d ltac:(lia)). lia. Qed.
Lemma su_model : area_ok c nd -> exists m', su_models s = [m'] /\ (mbatch nd (c_v c) = 1 \/ mbatch nd (c_v c) = su_nb s) /\
  t_shape m' = mbatch nd (c_v c) :: padded_shape E pad /\
  forall b q, 0 <= b < mbatch nd (c_v c) -> length q = nd -> t_at m' (b :: q) = mval nd (c_v c) b (nearest E (under E pad q)).
Proof.
  intros Ha. destruct su_parts as (Ls & LE & _ & _ & Hm).
  destruct (extract_models_spec 0%R [c_v c] E pad [Replicate] (su_nb s) nd (su_models s) ushape (pad_length _ _ _ su_Lfd su_Lpw su_nd) su_nd eq_refl (su_ext_in Ha) Hm) as (H1 & _ & H3).
  destruct (su_models s) as [|m' [|]]; try discriminate. exists m'. split; [reflexivity|].
  destruct (H3 O (c_v c) Replicate m' eq_refl eq_refl eq_refl) as (A & B & C). split; [exact A|]. split; [exact B|]. exact C.
Qed.
Lemma su_shape_eq : area_ok c nd -> su_shape s = padded_shape E pad.
Proof. intros Ha. destruct (su_model Ha) as (m' & Hm & _ & Hsh & _). unfold su_shape. rewrite Hm. cbn [nth]. rewrite Hsh. reflexivity. Qed.
Lemma su_batch : su_nb s = Z.of_nat (length (lt_data (match c_src c with Some l => l | None => mkloct 0 [] end))).
Proof.
  destruct (setup_parts c nd s Hs) as (H & _). unfold get_n_batch in H. rewrite present_none in H. destruct (c_src c); cbn in H; [congruence|discriminate].
Qed.
Definition user_shot (b : nat) : Z := if mbatch nd (c_v c) =? 1 then 0 else Z.of_nat b.
Lemma user_shot_ok b : area_ok c nd -> Z.of_nat b < su_nb s -> 0 <= user_shot b < mbatch nd (c_v c).
Proof. intros Ha Hb. destruct (su_model Ha) as (_ & _ & H & _). unfold user_shot. destruct (Z.eqb_spec (mbatch nd (c_v c)) 1); lia. Qed.
Lemma shot_model_eq b q : area_ok c nd -> Z.of_nat b < su_nb s -> inb (abox (su_shape s)) q = true ->
  shot_model s b (idx (su_shape s) q) = mval nd (c_v c) (user_shot b) (nearest E (under E pad q)).
Proof.
  intros Ha Hb Hq. unfold shot_model. rewrite unidx_idx by exact Hq. destruct (su_model Ha) as (m' & Hm & _ & Hsh & Hv). rewrite Hm. cbn [nth]. rewrite Hsh. cbn [hd].
  fold (user_shot b). apply Hv; [apply user_shot_ok; assumption|]. apply inb_length in Hq. rewrite abox_length, (su_shape_eq Ha), padded_shape_length in Hq.
  destruct su_parts as (_ & LE & _). lia.
Qed.
Lemma nth_pad k : (k < 2 * nd)%nat -> nth k pad 0 = fd_pad (su_acc s) + nth k (su_pw s) 0.
Proof.
  intros Hk. rewrite sum_pad_nth by (rewrite ?su_Lfd, ?su_Lpw; exact Hk). f_equal. rewrite su_fd.
  rewrite (nth_indep _ 0 (fd_pad (su_acc s))) by (rewrite repeat_length; exact Hk). apply nth_repeat.
Qed.
Lemma nth_pw k : 0 <= nth k (su_pw s) 0.
Proof.
  destruct (Nat.lt_ge_cases k (length (su_pw s))) as [H|H]; [|rewrite nth_overflow by exact H; lia].
  pose proof su_pw0 as F. rewrite Forall_forall in F. apply F, nth_In, H.
Qed.
Lemma su_dim d : area_ok c nd -> (d < nd)%nat ->
  nth d (su_shape s) 0 = snd (nth d E (0, 0)) - fst (nth d E (0, 0)) + fst (pw_of (su_pw s) d) + snd (pw_of (su_pw s) d) + 2 * fd_pad (su_acc s).
Proof.
  intros Ha Hd. destruct su_parts as (_ & LE & _). rewrite (su_shape_eq Ha). unfold padded_shape. rewrite nth_map_seq by lia. rewrite !nth_pad by lia.
  unfold pw_of. cbn [fst snd]. lia.
Qed.
Lemma su_rank : area_ok c nd -> length (su_shape s) = nd.
Proof. intros Ha. rewrite (su_shape_eq Ha), padded_shape_length. apply su_parts. Qed.
Lemma su_cfl : (su_gs s <> [] /\ Forall (fun g => 0 < g) (su_gs s) /\ 0 < su_vel s /\ c_dt c <> 0 /\ (1 <= su_ratio s)%Z /\ su_dt s * IZR (su_ratio s) = c_dt c /\
  Rabs (su_dt s) <= 6 / 10 / (sqrt (fold_right (fun g s => 1 / (g ^ 2) + s) 0 (su_gs s)) * su_vel s))%R.
Proof.
  destruct (setup_parts c nd s Hs) as (_ & _ & H & _). apply cfl_thm in H; [|unfold cfl_eps; lra|unfold cfl_c_max; lra].
  destruct H as (H1 & H2 & H3 & H4 & H5 & H6 & _ & H8 & _). unfold cfl_c_max in H8. tauto.
Qed.
Lemma su_dt0 : (su_dt s <> 0)%R.
Proof. destruct su_cfl as (_ & _ & _ & H & _ & G & _). intros E0. rewrite E0 in G. lra. Qed.
Lemma su_geom b : area_ok c nd -> c_freq c <> Some 0%R -> geom_ok R_ops (shot_par s b) (pw_of (su_pw s)).
Proof.
  intros Ha Hf. destruct (setup_parts c nd s Hs) as (_ & Hg & _ & _ & _ & Hq & _). apply set_grid_spacing_spec in Hg. apply set_pml_freq_spec in Hq.
  apply scalar_par_geom.
  - rewrite (su_rank Ha). tauto.
  - tauto.
  - intros d Hd. rewrite (su_rank Ha) in Hd. rewrite (su_dim d Ha Hd). pose proof (su_ext_ok Ha d Hd). unfold pw_of. cbn [fst snd].
    pose proof (nth_pw (2 * d)). pose proof (nth_pw (2 * d + 1)). lia.
  - apply su_dt0.
  - apply su_cfl.
  - destruct Hq as (_ & H1 & H2). destruct (Req_dec (su_freq s) 0) as [H0|H0]; [|lra]. exfalso. destruct (c_freq c) as [f|]; [|lra]. apply Hf. congruence.
Qed.
Lemma su_loc_ok (w : bool) b : locs_whole nd (if w then [c_src c] else [c_rec c]) -> area_ok c nd ->
  Forall (loc_ok R_ops (shot_par s b)) (shot_row (if w then su_src s else su_rec s) b).
Proof.
  intros Hw Ha. apply Forall_forall. intros l Hl. apply In_nth_error in Hl. destruct Hl as [j Hj]. rewrite row_at3 in Hj.
  apply (extracted_loc_ok 0%R _ _ _ _ _ _ _ _ _ _ _ _ _ _ _ su_Lfd su_Lpw su_nd su_fd0 su_pw0 su_survey R_ops (shot_par s b) w) with (k := O) (sh := b) (j := j).
  - cbn. rewrite su_fd. reflexivity.
  - cbn [p_shape shot_par scalar_par]. apply su_shape_eq, Ha.
  - exact Hw.
  - destruct w; exact Hj.
Qed.
Lemma su_src_ok b : locs_whole nd [c_src c] -> area_ok c nd -> Forall (loc_ok R_ops (shot_par s b)) (p_src (shot_par s b)).
Proof. exact (su_loc_ok true b). Qed.
Lemma su_rec_ok b : locs_whole nd [c_rec c] -> area_ok c nd -> Forall (loc_ok R_ops (shot_par s b)) (p_rec (shot_par s b)).
Proof. exact (su_loc_ok false b). Qed.
Lemma shot_amps_length b t : length (shot_amps s b t) = length (p_src (shot_par s b)).
Proof. unfold shot_amps, scale_sources. rewrite map_length, combine_length, map_length, seq_length. cbn. lia. Qed.

(** An accepted call runs. *)
Lemma shot_runs b vis vrg store : locs_whole nd [c_src c] -> locs_whole nd [c_rec c] -> area_ok c nd -> c_freq c <> Some 0%R ->
  0 < c_interval c -> (su_nt s = 0 \/ c_interval c * su_ratio s <= su_nt s) -> fvis R_ops (shot_par s b) (pw_of (su_pw s)) vis ->
  exists U R S, shot_run s b vis vrg store = Some (U, R, S).
Proof.
  intros Hw1 Hw2 Ha Hf Hi Hn Hv. unfold shot_run. destruct (setup_parts c nd s Hs) as (_ & _ & _ & _ & _ & _ & _ & Hint & _).
  unfold set_sampling_interval in Hint. destruct (_ <? 0); [discriminate|]. injection Hint as <-. destruct su_cfl as (_ & _ & _ & _ & Hr & _).
  destruct (Z.eqb_spec (su_ratio s * c_interval c) 0) as [H0|H0]; [nia|].
  destruct (scalar_forward_spec R_ops R_is_ring (shot_par s b) (pw_of (su_pw s)) (su_geom b Ha Hf) (su_src_ok b Hw1 Ha) (su_rec_ok b Hw2 Ha) (shot_model s b) vis vrg
    (su_ratio s * c_interval c) (shot_amps s b) (su_nt s) None store (zero_st R_ops) Hv ltac:(nia) ltac:(cbn; lia)) as (U & R & S & H & _).
  exists U, R, S. exact H.
Qed.
End Accepted.
