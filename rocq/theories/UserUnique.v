(** * The equations of [UserEqs.v] and [UserBorn.v] determine the wavefields; the background of [scalar_born] is the wavefield of [scalar]. *)
From Coq Require Import List ZArith QArith Reals Lra Lia Bool Permutation.
From Verif Require Import Ops Sums Grid Stencil StencilOrder ScalarModel ScalarRefine ScalarForward ScalarFunc ScalarApi ScalarAdjoint ScalarGrad ScalarMore ScalarPhys ScalarReach ScalarEqs GeomModel Geom Geom2 GeomLocs SetupModel RealModel RealThm
  Resample ResampleThm EqsUser BornModel BornBack BornThm BornPy UserModel UserThm UserCrop UserMain UserEqs UserStagModel UserStag UserAcoustic UserBornModel UserRegular UserBorn.
Import ListNotations.
Local Open Scope Z_scope.

(** Two states that are the same in every cell of [nd] coordinates. *)
Definition weq (nd : nat) (s s' : st R_ops) : Prop := forall x, length x = nd ->
  s_wfc R_ops s x = s_wfc R_ops s' x /\ s_wfp R_ops s x = s_wfp R_ops s' x /\ forall d, (d < nd)%nat -> s_psi R_ops s d x = s_psi R_ops s' d x /\ s_zeta R_ops s d x = s_zeta R_ops s' d x.
Lemma weq_refl nd s : weq nd s s. Proof. intros x Hx. repeat split. Qed.
Lemma domain_dec m x : length x = md_nd m -> {domain m x} + {~ domain m x}.
Proof.
  intros L. destruct (forallb (fun d => (fst (md_ext m d) - fst (md_pw m d) <=? coord d x) && (coord d x <? snd (md_ext m d) + snd (md_pw m d)))%bool (seq 0 (md_nd m))) eqn:E.
  - left. split; [exact L|]. intros d Hd. rewrite forallb_forall in E. specialize (E d ltac:(apply in_seq; lia)). lia.
  - right. intros [_ H]. assert (F : true = false); [|discriminate]. rewrite <- E. symmetry. apply forallb_forall. intros d Hd. apply in_seq in Hd. specialize (H d ltac:(lia)). lia.
Qed.
Lemma dx1_weq m d f g x : length x = md_nd m -> (forall y, length y = md_nd m -> f y = g y) -> dx1 m d f x = dx1 m d g x.
Proof. intros L H. unfold dx1, D1. apply (DIFF1_ext R_ops). intros k _ _. apply H. rewrite shift_length. exact L. Qed.
Lemma dx2_weq m d f g x : length x = md_nd m -> (forall y, length y = md_nd m -> f y = g y) -> dx2 m d f x = dx2 m d g x.
Proof. intros L H. unfold dx2, D2. apply (DIFF2_ext R_ops). intros k _. apply H. rewrite shift_length. exact L. Qed.
Lemma stretched_weq m s s' d x : weq (md_nd m) s s' -> (d < md_nd m)%nat -> length x = md_nd m -> stretched m s d x = stretched m s' d x.
Proof.
  intros H Hd L. unfold stretched. f_equal; [f_equal; f_equal|].
  - apply dx2_weq; [exact L|]. intros y Hy. apply (H y Hy).
  - apply dx1_weq; [exact L|]. intros y Hy. apply (H y Hy).
  - apply dx1_weq; [exact L|]. intros y Hy. destruct (H y Hy) as (_ & _ & G). rewrite (proj1 (G d Hd)). reflexivity.
Qed.
Lemma wave_step_unique m q s1 s2 t1 t2 : weq (md_nd m) s1 s2 -> wave_step m q s1 t1 -> wave_step m q s2 t2 -> weq (md_nd m) t1 t2.
Proof.
  intros H [P1 _ W1 A1 Z1 O1] [P2 _ W2 A2 Z2 O2] x L. destruct (H x L) as (E1 & E2 & E3). rewrite P1, P2. destruct (domain_dec m x L) as [Hx|Hx].
  - assert (EZ : forall d, (d < md_nd m)%nat -> s_zeta R_ops t1 d x = s_zeta R_ops t2 d x).
    { intros d Hd. rewrite Z1, Z2 by assumption. rewrite (stretched_weq m s1 s2 d x H Hd L), (proj2 (E3 d Hd)). reflexivity. }
    split; [|split; [exact E1|]].
    + rewrite (W1 x Hx), (W2 x Hx), E1, E2. f_equal. f_equal. f_equal. apply sumf_ext. intros d Hd. apply in_seq in Hd. rewrite (stretched_weq m s1 s2 d x H ltac:(lia) L), EZ by lia. reflexivity.
    + intros d Hd. split; [|apply EZ, Hd]. rewrite A1, A2 by assumption. rewrite (dx1_weq m d (s_wfc R_ops s1) (s_wfc R_ops s2) x L) by (intros y Hy; apply (H y Hy)). rewrite (proj1 (E3 d Hd)). reflexivity.
  - destruct (O1 x L Hx) as [Q1 R1]. destruct (O2 x L Hx) as [Q2 R2]. rewrite Q1, Q2. split; [reflexivity|]. split; [exact E1|]. intros d Hd. destruct (R1 d Hd) as [-> ->]. destruct (R2 d Hd) as [-> ->]. split; reflexivity.
Qed.
Lemma scatter_step_unique m sc q s1 s2 t1 t2 r1 r2 u1 u2 : weq (md_nd m) s1 s2 -> weq (md_nd m) t1 t2 -> weq (md_nd m) r1 r2 ->
  scatter_step m sc q s1 t1 r1 u1 -> scatter_step m sc q s2 t2 r2 u2 -> weq (md_nd m) u1 u2.
Proof.
  intros HS HT H [P1 _ W1 A1 Z1 O1] [P2 _ W2 A2 Z2 O2] x L. destruct (H x L) as (E1 & E2 & E3). rewrite P1, P2. destruct (domain_dec m x L) as [Hx|Hx].
  - assert (EZ : forall d, (d < md_nd m)%nat -> s_zeta R_ops u1 d x = s_zeta R_ops u2 d x).
    { intros d Hd. rewrite Z1, Z2 by assumption. rewrite (stretched_weq m r1 r2 d x H Hd L), (proj2 (E3 d Hd)). reflexivity. }
    split; [|split; [exact E1|]].
    + rewrite (W1 x Hx), (W2 x Hx), E1, E2. f_equal; [f_equal; f_equal|f_equal; f_equal]; apply sumf_ext; intros d Hd; apply in_seq in Hd.
      * rewrite (stretched_weq m r1 r2 d x H ltac:(lia) L), EZ by lia. reflexivity.
      * destruct (HT x L) as (_ & _ & T3). rewrite (stretched_weq m s1 s2 d x HS ltac:(lia) L), (proj2 (T3 d ltac:(lia))). reflexivity.
    + intros d Hd. split; [|apply EZ, Hd]. rewrite A1, A2 by assumption. rewrite (dx1_weq m d (s_wfc R_ops r1) (s_wfc R_ops r2) x L) by (intros y Hy; apply (H y Hy)). rewrite (proj1 (E3 d Hd)). reflexivity.
  - destruct (O1 x L Hx) as [Q1 R1]. destruct (O2 x L Hx) as [Q2 R2]. rewrite Q1, Q2. split; [reflexivity|]. split; [exact E1|]. intros d Hd. destruct (R1 d Hd) as [-> ->]. destruct (R2 d Hd) as [-> ->]. split; reflexivity.
Qed.
Lemma born_unique m sc (q : nat -> pt -> R) n (W1 W2 V1 V2 : nat -> st R_ops) : weq (md_nd m) (W1 O) (W2 O) -> weq (md_nd m) (V1 O) (V2 O) ->
  (forall k, (k < n)%nat -> wave_step m (q k) (W1 k) (W1 (S k)) /\ scatter_step m sc (q k) (W1 k) (W1 (S k)) (V1 k) (V1 (S k))) ->
  (forall k, (k < n)%nat -> wave_step m (q k) (W2 k) (W2 (S k)) /\ scatter_step m sc (q k) (W2 k) (W2 (S k)) (V2 k) (V2 (S k))) ->
  forall k, (k <= n)%nat -> weq (md_nd m) (W1 k) (W2 k) /\ weq (md_nd m) (V1 k) (V2 k).
Proof.
  intros H0 G0 H1 H2. induction k as [|k IH]; intros Hk; [split; assumption|]. destruct (IH ltac:(lia)) as [I1 I2]. destruct (H1 k ltac:(lia)) as [S1 T1]. destruct (H2 k ltac:(lia)) as [S2 T2].
  pose proof (wave_step_unique m _ _ _ _ _ I1 S1 S2) as J. split; [exact J|]. exact (scatter_step_unique m sc _ _ _ _ _ _ _ _ _ I1 J I2 T1 T2).
Qed.

(** The call of [scalar] with the arguments of the background. *)
Definition background (c : ncall) : call :=
  let o := n_opts c in mkcall (n_v c) (o_gs o) (o_dt o) (n_amps c) (n_src c) (n_bgrec c) (o_accuracy o) (o_pw o) (o_freq o) (o_max_vel o) (o_sp o) (o_nt o) (o_interval o) (o_ft o) (o_tp o) (o_taper o).
Lemma bg_reg c nd s' : scalar_setup (background c) nd = Some s' -> exists vm, max_abs (n_v c) = Some vm /\
  reg_setup [n_v c] [Replicate] (n_opts c) [n_amps c] [n_src c] [n_bgrec c] (min_nonzero (n_v c)) vm (2 + 2 * nd) nd = Some s'.
Proof. unfold scalar_setup. cbn [background c_v]. destruct (max_abs (n_v c)) as [vm|]; [|discriminate]. intros H. exists vm. split; [reflexivity|]. exact H. Qed.
Lemma none_ext models modes o amps src rec vmin vmax nw nd s : reg_setup models modes o amps src rec vmin vmax nw nd = Some s -> o_sp o = SPnone ->
  su_ext s = map (fun n => (0, n)) (last_n nd (t_shape (hd (mktens [] (fun _ => 0%R)) models))).
Proof.
  intros Hs H0. destruct (gs_run _ _ _ _ _ _ _ _ _ _ _ Hs) as (Ls & LE & Hc & HE & _).
  destruct (survey_area _ _ _ _ HE) as [_ H]; [intros d x Hd; apply (gs_active _ _ _ _ _ _ _ _ _ _ _ Hs); lia|].
  apply nth_error_ext'. intros d. rewrite nth_error_map. destruct (Nat.lt_ge_cases d nd) as [Hd|Hd].
  - destruct (H d ltac:(lia)) as (_ & _ & H3 & H4 & _). cbv zeta in *. rewrite H0 in H3, H4. rewrite (nth_error_nth' _ (0, 0)) by lia. rewrite (nth_error_nth' _ 0) by lia. cbn [option_map].
    rewrite (surjective_pairing (nth d (su_ext s) (0, 0))), H3, H4 by reflexivity. reflexivity.
  - rewrite (proj2 (nth_error_None _ _)), (proj2 (nth_error_None _ _)) by lia. reflexivity.
Qed.
Lemma bg_same c nd s s' : born_setup c nd = Some s -> scalar_setup (background c) nd = Some s' ->
  su_vel s' = su_vel s /\ su_ratio s' = su_ratio s /\ su_acc s' = su_acc s /\ su_nt s' = su_nt s /\ su_nb s' = su_nb s /\ (o_sp (n_opts c) = SPnone -> su_ext s' = su_ext s).
Proof.
  intros H H'. destruct (bg_reg c nd s' H') as (vm & Hm & G'). unfold born_setup in H. rewrite Hm in H.
  destruct (gs_parts _ _ _ _ _ _ _ _ _ _ _ H) as (B1 & B2 & B3 & B4 & _ & _ & B7 & _ & _ & _ & B11 & _).
  destruct (gs_parts _ _ _ _ _ _ _ _ _ _ _ G') as (C1 & C2 & C3 & C4 & _ & _ & C7 & _ & _ & _ & C11 & _).
  assert (E1 : su_vel s' = su_vel s) by congruence. assert (E2 : su_gs s' = su_gs s) by congruence. rewrite E1, E2 in C3. assert (E3 : su_ratio s' = su_ratio s) by congruence.
  split; [exact E1|]. split; [exact E3|]. split; [congruence|]. split; [|split].
  - rewrite E3 in C7. cbn [map] in B7, C7. assert (Q : forall x : option (list Z), set_nt (o_nt (n_opts c)) [x] (su_ratio s) = set_nt (o_nt (n_opts c)) [x; x] (su_ratio s)) by (intros [x|]; reflexivity).
    rewrite Q in C7. congruence.
  - assert (Q : forall l n k, get_n_batch [l] (repeat None n) = get_n_batch [l; l] (repeat None k)) by (intros [l|] n k; unfold get_n_batch; cbn [present]; [reflexivity|rewrite !present_none; reflexivity]).
    rewrite (Q _ _ (2 * (2 + 2 * nd))%nat) in C1. congruence.
  - intros H0. rewrite (none_ext _ _ _ _ _ _ _ _ _ _ _ H H0), (none_ext _ _ _ _ _ _ _ _ _ _ _ G' H0). reflexivity.
Qed.
Lemma bg_area c nd : area_ok (background c) nd -> some_area (n_opts c) nd [n_src c; n_src c] [n_bgrec c; n_rec c].
Proof.
  intros [H|(k & sh & j & p & Hl & Hp)]; [left; exact H|right]. destruct k as [|[|k]].
  - left. exists O, sh, j, p. split; [exact Hl|exact Hp].
  - right. exists O, sh, j, p. split; [exact Hl|exact Hp].
  - unfold loc3 in Hl. cbn in Hl. destruct k; discriminate.
Qed.
Lemma whole_1 nd a b : locs_whole nd [a; b] -> locs_whole nd [a].
Proof. intros H k sh j p Hl. destruct k as [|k]; [exact (H O sh j p Hl)|]. unfold loc3 in Hl. cbn in Hl. destruct k; discriminate. Qed.
Lemma born_background c nd s s' b vis vrg srg w0 wsc0 B vis' vrg' store' U R S : born_setup c nd = Some s -> scalar_setup (background c) nd = Some s' -> su_ext s' = su_ext s ->
  locs_whole nd [n_src c; n_src c] -> locs_whole nd [n_bgrec c; n_rec c] -> area_ok (background c) nd -> o_freq (n_opts c) <> Some 0%R ->
  0 < o_interval (n_opts c) -> (su_nt s = 0 \/ o_interval (n_opts c) * su_ratio s <= su_nt s) -> Z.of_nat b < su_nb s ->
  fvis R_ops (born_par s b) (pw_of (su_pw s)) vis -> fvis R_ops (shot_par s' b) (pw_of (su_pw s')) vis' ->
  born_run s b vis vrg srg w0 wsc0 = Some B -> shot_run s' b vis' vrg' store' = Some (U, R, S) ->
  born_bgdata c s b B = shot_data (background c) s' b R.
Proof.
  intros Hs Hs' He W1 W2 Ha Hf Hi Hn Hb Hv Hv' HB HR. destruct (bg_same c nd s s' Hs Hs') as (Q1 & Q2 & Q3 & Q4 & Q5 & _).
  destruct (born_solves_user c nd s b vis vrg srg w0 wsc0 Hs W1 W2 (bg_area c nd Ha) Hf Hi Hn Hb Hv) as (B0 & W & V & E0 & WZ & _ & WS & (DL & DD) & _).
  rewrite HB in E0. injection E0 as <-.
  destruct (solves_user (background c) nd s' b vis' vrg' store' Hs' (whole_1 _ _ _ W1) (whole_1 _ _ _ W2) Ha Hf Hi ltac:(rewrite Q2, Q4; exact Hn) ltac:(rewrite Q5; exact Hb) Hv')
    as (l & a & ps & U' & R' & S' & W' & Hl & Ham & Hps & _ & E1 & WZ' & WS' & DD' & _).
  rewrite HR in E1. injection E1 as <- <- <-. cbn [background c_src c_amps] in Hl, Ham.
  assert (NS : steps (background c) s' = ksteps (n_opts c) s) by (unfold steps, ksteps; rewrite Q2, Q4; reflexivity).
  assert (EM : call_medium (background c) nd (su_ratio s') (su_acc s') (su_vel s') (su_ext s') b = born_medium c nd s b) by (rewrite Q1, Q2, Q3, He; reflexivity).
  assert (ES : forall k, call_source (background c) (su_ratio s') ps a b k = born_source c s b k).
  { intros k. unfold born_source, source_at. rewrite Hl, Ham, (nth_error_nth _ _ _ Hps), Q2. reflexivity. }
  assert (EW : forall k, (k <= ksteps (n_opts c) s)%nat -> weq nd (W k) (W' k)).
  { induction k as [|k IH]; intros Hk.
    - intros x Hx. destruct (WZ O x) as (A1 & A2 & _). destruct (WZ' O x) as (C1 & C2 & _). rewrite A1, A2, C1, C2. split; [reflexivity|]. split; [reflexivity|]. intros d Hd.
      destruct (WZ d x) as (_ & _ & A3 & A4). destruct (WZ' d x) as (_ & _ & C3 & C4). rewrite A3, A4, C3, C4. split; reflexivity.
    - pose proof (WS' k ltac:(lia)) as T. rewrite EM, ES in T. exact (wave_step_unique (born_medium c nd s b) _ _ _ _ _ (IH ltac:(lia)) (proj1 (WS k ltac:(lia))) T). }
  destruct (bg_reg c nd s' Hs') as (vm & _ & G').
  assert (Ha' : some_area (n_opts c) nd [n_src c] [n_bgrec c]).
  { destruct Ha as [Ha|(k & sh & j & p & Hk & Hp)]; [left; exact Ha|right]. destruct k as [|[|k]]; [left; exists O, sh, j, p; split; [exact Hk|exact Hp]|right; exists O, sh, j, p; split; [exact Hk|exact Hp]|unfold loc3 in Hk; cbn in Hk; destruct k; discriminate]. }
  pose proof (k_data_length _ _ _ _ _ _ _ _ _ _ _ G' Ha' b (whole_1 _ _ _ W1) (whole_1 _ _ _ W2) 0%nat R) as DL'.
  assert (DE : kind_data (n_opts c) s' 0 b R = shot_data (background c) s' b R) by reflexivity. rewrite DE in DL'. cbn in DL'.
  apply nth_error_ext'. intros j. destruct (nth_error (born_bgdata c s b B) j) as [tr|] eqn:Ej; cycle 1.
  { symmetry. apply nth_error_None. apply nth_error_None in Ej. rewrite DL' , <- DL. exact Ej. }
  assert (Lj : (j < length (born_bgdata c s b B))%nat) by (apply nth_error_Some; congruence). rewrite DL in Lj.
  destruct (n_bgrec c) as [lr|] eqn:Er; [|cbn in Lj; lia]. destruct (nth_error (lt_data lr) b) as [qs|] eqn:Eq; [|rewrite nth_overflow in Lj by (apply nth_error_None; exact Eq); cbn in Lj; lia].
  rewrite (nth_error_nth _ _ _ Eq) in Lj. destruct (nth_error qs j) as [q|] eqn:Ez; [|apply nth_error_None in Ez; lia].
  rewrite (DD lr qs j q eq_refl Eq Ez) in Ej. rewrite <- Ej.
  rewrite (DD' lr qs j q Er Eq Ez). f_equal. unfold trace_at. rewrite Q2, Q4, NS. cbn [background c_ft c_tp c_taper]. f_equal. apply map_ext. intros t.
  destruct (negb (coord 0 q =? IGNORE) && (t <? ksteps (n_opts c) s)%nat)%bool eqn:Eb; [|reflexivity]. apply andb_prop in Eb. destruct Eb as [Eg Et].
  apply Nat.ltb_lt in Et. apply (EW t ltac:(lia) q).
  destruct (W2 O b j q) as [[Lq _]|[Lq _]]; [unfold loc3; cbn; rewrite Eq; exact Ez|exact Lq..].
Qed.
