(** * What [scalar_born] returns, in terms of the user's arguments: C65.

    [born_medium], [born_scatter], [born_source]: the medium, the scattering potential (zero beyond the survey area) and the source term that the
    user means; [wave_step]: one step of the wave equation; [scatter_step]: one step of the wave equation linearised in the wavespeed. *)
From Coq Require Import List ZArith QArith Reals Lra Lia Bool Permutation.
From Verif Require Import Ops Sums Grid Stencil StencilOrder ScalarModel ScalarRefine ScalarFunc ScalarApi ScalarMore GeomModel Geom Geom2 GeomLocs SetupModel RealModel RealThm Resample ResampleThm
  BornModel UserModel UserThm UserCrop UserEqs UserStagModel UserStag UserAcoustic UserStagEx UserBornModel UserRegular UserBorn UserUnique UserBornLin UserEx UserBornEx PropUser.
Import ListNotations.
Local Open Scope Z_scope.

(** C65: shot [b] of an accepted call solves the wave equation for the user's wavespeed and sources, and its linearisation for the user's
    scattering potential, both from rest, in steps of [o_dt / su_ratio s]; the data are the background at the user's background receivers and the
    scattered wavefield at the user's receivers, resampled to [o_dt] (zero for an ignored receiver, and for the steps after the last whole storage
    interval, which are not made); the wavefields returned are those after the last step. *)
Theorem C65_born_solves c nd s b vis vrg srg w0 wsc0 : born_setup c nd = Some s ->
  let src := [n_src c; n_src c] in let rec := [n_bgrec c; n_rec c] in let m := born_medium c nd s b in let n := ksteps (n_opts c) s in
  locs_whole nd src -> locs_whole nd rec -> some_area (n_opts c) nd src rec -> o_freq (n_opts c) <> Some 0%R ->
  0 < o_interval (n_opts c) -> (su_nt s = 0 \/ o_interval (n_opts c) * su_ratio s <= su_nt s) -> Z.of_nat b < su_nb s ->
  fvis R_ops (born_par s b) (pw_of (su_pw s)) vis ->
  exists B (W V : nat -> st R_ops),
    born_run s b vis vrg srg w0 wsc0 = Some B /\
    (forall d x, s_wfc R_ops (W O) x = 0 /\ s_wfp R_ops (W O) x = 0 /\ s_psi R_ops (W O) d x = 0 /\ s_zeta R_ops (W O) d x = 0)%R /\
    (forall d x, s_wfc R_ops (V O) x = 0 /\ s_wfp R_ops (V O) x = 0 /\ s_psi R_ops (V O) d x = 0 /\ s_zeta R_ops (V O) d x = 0)%R /\
    (forall k, (k < n)%nat -> wave_step m (born_source c s b k) (W k) (W (S k)) /\ scatter_step m (born_scatter c nd s b) (born_source c s b k) (W k) (W (S k)) (V k) (V (S k))) /\
    (length (born_bgdata c s b B) = length (match n_bgrec c with Some l => nth b (lt_data l) [] | None => [] end) /\
       forall l qs j q, n_bgrec c = Some l -> nth_error (lt_data l) b = Some qs -> nth_error qs j = Some q ->
         nth_error (born_bgdata c s b B) j = Some (trace_at (n_opts c) (su_ratio s) (su_nt s) n (fun t => s_wfc R_ops (W t)) q)) /\
    (length (born_data c s b B) = length (match n_rec c with Some l => nth b (lt_data l) [] | None => [] end) /\
       forall l qs j q, n_rec c = Some l -> nth_error (lt_data l) b = Some qs -> nth_error qs j = Some q ->
         nth_error (born_data c s b B) j = Some (trace_at (n_opts c) (su_ratio s) (su_nt s) n (fun t => s_wfc R_ops (V t)) q)) /\
    (forall x, domain m x ->
       let q := map (fun d => coord d x - fst (nth d (su_ext s) (0, 0)) + nth (2 * d) (per_list (o_pw (n_opts c)) (2 * nd)) 0) (seq 0 nd) in
       forall u w, (u = bo_u R_ops B /\ w = W n) \/ (u = bo_usc R_ops B /\ w = V n) ->
       s_wfc R_ops u q = s_wfc R_ops w x /\ s_wfp R_ops u q = s_wfp R_ops w x /\
       forall d, (d < nd)%nat -> s_psi R_ops u d q = s_psi R_ops w d x /\ s_zeta R_ops u d q = s_zeta R_ops w d x).
Proof. exact (born_solves_user c nd s b vis vrg srg w0 wsc0). Qed.
Print Assumptions C65_born_solves.

(** C65: these equations have one solution: two pairs of wavefields from the same initial ones are the same in every cell. *)
Theorem C65_unique m sc (q : nat -> pt -> R) n (W1 W2 V1 V2 : nat -> st R_ops) : weq (md_nd m) (W1 O) (W2 O) -> weq (md_nd m) (V1 O) (V2 O) ->
  (forall k, (k < n)%nat -> wave_step m (q k) (W1 k) (W1 (S k)) /\ scatter_step m sc (q k) (W1 k) (W1 (S k)) (V1 k) (V1 (S k))) ->
  (forall k, (k < n)%nat -> wave_step m (q k) (W2 k) (W2 (S k)) /\ scatter_step m sc (q k) (W2 k) (W2 (S k)) (V2 k) (V2 (S k))) ->
  forall k, (k <= n)%nat -> weq (md_nd m) (W1 k) (W2 k) /\ weq (md_nd m) (V1 k) (V2 k).
Proof. exact (born_unique m sc q n W1 W2 V1 V2). Qed.
Print Assumptions C65_unique.

(** C65: the background data are those that [scalar] returns for the same wavespeed, sources and background receivers ([background c]), if the
    survey area is the same. *)
Theorem C65_background c nd s s' b vis vrg srg w0 wsc0 B vis' vrg' store' U R S : born_setup c nd = Some s -> scalar_setup (background c) nd = Some s' -> su_ext s' = su_ext s ->
  locs_whole nd [n_src c; n_src c] -> locs_whole nd [n_bgrec c; n_rec c] -> area_ok (background c) nd -> o_freq (n_opts c) <> Some 0%R ->
  0 < o_interval (n_opts c) -> (su_nt s = 0 \/ o_interval (n_opts c) * su_ratio s <= su_nt s) -> Z.of_nat b < su_nb s ->
  fvis R_ops (born_par s b) (pw_of (su_pw s)) vis -> fvis R_ops (shot_par s' b) (pw_of (su_pw s')) vis' ->
  born_run s b vis vrg srg w0 wsc0 = Some B -> shot_run s' b vis' vrg' store' = Some (U, R, S) ->
  born_bgdata c s b B = shot_data (background c) s' b R.
Proof. exact (born_background c nd s s' b vis vrg srg w0 wsc0 B vis' vrg' store' U R S). Qed.
Print Assumptions C65_background.

(** C65: without [survey_pad] it is the same: the whole model. *)
Theorem C65_background_area c nd s s' : born_setup c nd = Some s -> scalar_setup (background c) nd = Some s' -> o_sp (n_opts c) = SPnone -> su_ext s' = su_ext s.
Proof. exact (fun H H' => proj2 (proj2 (proj2 (proj2 (proj2 (bg_same c nd s s' H H')))))). Qed.
Print Assumptions C65_background_area.

(** C65: the scattered data are linear in the user's scattering potential, after the padding and the resampling. *)
Theorem C65_linear al be c m1 m2 nd s s1 s2 b vis vrg srg w0 wsc0 vis1 vrg1 srg1 w1 wsc1 vis2 vrg2 srg2 w2 wsc2 B B1 B2 :
  t_shape m1 = t_shape (n_scatter c) -> t_shape m2 = t_shape (n_scatter c) -> (forall p, t_at (n_scatter c) p = al * t_at m1 p + be * t_at m2 p)%R ->
  born_setup c nd = Some s -> born_setup (set_scatter c m1) nd = Some s1 -> born_setup (set_scatter c m2) nd = Some s2 ->
  let src := [n_src c; n_src c] in let rec := [n_bgrec c; n_rec c] in
  locs_whole nd src -> locs_whole nd rec -> some_area (n_opts c) nd src rec -> o_freq (n_opts c) <> Some 0%R ->
  0 < o_interval (n_opts c) -> (su_nt s = 0 \/ o_interval (n_opts c) * su_ratio s <= su_nt s) -> Z.of_nat b < su_nb s ->
  fvis R_ops (born_par s b) (pw_of (su_pw s)) vis -> fvis R_ops (born_par s1 b) (pw_of (su_pw s1)) vis1 -> fvis R_ops (born_par s2 b) (pw_of (su_pw s2)) vis2 ->
  born_run s b vis vrg srg w0 wsc0 = Some B -> born_run s1 b vis1 vrg1 srg1 w1 wsc1 = Some B1 -> born_run s2 b vis2 vrg2 srg2 w2 wsc2 = Some B2 ->
  let D := born_data c s b B in let D1 := born_data (set_scatter c m1) s1 b B1 in let D2 := born_data (set_scatter c m2) s2 b B2 in
  length D1 = length D /\ length D2 = length D /\
  forall j, length (nth j D1 []) = length (nth j D []) /\ length (nth j D2 []) = length (nth j D []) /\
    forall t, nth t (nth j D []) 0%R = (al * nth t (nth j D1 []) 0 + be * nth t (nth j D2 []) 0)%R.
Proof. exact (scatter_linear al be c m1 m2 nd s s1 s2 b vis vrg srg w0 wsc0 vis1 vrg1 srg1 w1 wsc1 vis2 vrg2 srg2 w2 wsc2 B B1 B2). Qed.
Print Assumptions C65_linear.

(** C65: the internal time step divides the user's and obeys the stability bound for the speed [max_vel]; without [max_vel], for a speed that no
    cell of the user's wavespeed exceeds. *)
Theorem C65_time_step c nd s : born_setup c nd = Some s ->
  (su_dt s * IZR (su_ratio s) = o_dt (n_opts c))%R /\ 1 <= su_ratio s /\
  (Rabs (su_dt s) <= 6 / 10 / (sqrt (fold_right (fun g x => 1 / (g ^ 2) + x) 0 (per_list (o_gs (n_opts c)) nd)) * su_vel s))%R /\
  (forall v, o_max_vel (n_opts c) = Some v -> su_vel s = Rabs v) /\
  (o_max_vel (n_opts c) = None -> forall p, inb (abox (t_shape (n_v c))) p = true -> Rabs (t_at (n_v c) p) <= su_vel s)%R.
Proof. exact (born_step_user c nd s). Qed.
Print Assumptions C65_time_step.

Notation all_cells s b := (visits R_ops (born_par s b) (pml_begin R_ops (born_par s b) 2 (pw_of (su_pw s))) (pml_end R_ops (born_par s b) 2 (pw_of (su_pw s)))).
(** The second shot on the line of forty cells, with eight cells around the locations: twelve steps; the scattered wave in cell 19, where the
    scattering potential is 119; it is zero in cell 9, that is in the PML. *)
Example born_solves_example w0 wsc0 : exists s B (W V : nat -> st R_ops), let c := exb (SPint 8) in
  let m := born_medium c 1 s 1 in
  born_setup c 1 = Some s /\ su_ext s = [(10, 34)] /\ ksteps (n_opts c) s = 12%nat /\ born_run s 1 (all_cells s 1) false false w0 wsc0 = Some B /\
  inner m [19%Z] /\ md_v m [19%Z] = 1690%R /\ md_v m [9] = 1600%R /\ born_scatter c 1 s 1 [19%Z] = 119%R /\ born_scatter c 1 s 1 [9] = 0%R /\
  (forall k, (k < 12)%nat -> s_wfc R_ops (V (S k)) [19%Z] =
     (2 * s_wfc R_ops (V k) [19%Z] - s_wfp R_ops (V k) [19%Z] + 1690 ^ 2 * md_dt m ^ 2 * sumf (K := R_ops) [0%nat] (fun d => dx2 m d (s_wfc R_ops (V k)) [19%Z])
      + 2 * 1690 * 119 * md_dt m ^ 2 * (sumf (K := R_ops) [0%nat] (fun d => dx2 m d (s_wfc R_ops (W k)) [19%Z]) - born_source c s 1 k [19%Z]))%R) /\
  length (born_bgdata c s 1 B) = 1%nat /\ length (born_data c s 1 B) = 2%nat.
Proof.
  destruct exb_cut as (s & H & N & NB & Q & X & AC). destruct (exb_whole (SPint 8)) as [W1 W2].
  destruct (C65_born_solves (exb (SPint 8)) 1 s 1 (all_cells s 1) false false w0 wsc0 H W1 W2 (bg_area _ _ (exb_area _)) ltac:(discriminate) Z.lt_0_1 ltac:(right; rewrite N, Q; cbn; lia) ltac:(rewrite NB; cbn; lia) ltac:(apply Permutation_refl))
    as (B & W & V & E & _ & _ & Hst & (L1 & _) & (L2 & _) & _).
  assert (Es : ksteps (n_opts (exb (SPint 8))) s = 12%nat) by (unfold ksteps; rewrite N, Q; reflexivity). rewrite Es in Hst.
  assert (Hin : inner (born_medium (exb (SPint 8)) 1 s 1) [19]).
  { split; [reflexivity|]. intros d Hd. cbn in Hd. assert (d = O) by lia. subst d. unfold born_medium, opts_medium. cbn [md_ext md_acc]. rewrite X, AC. cbn. lia. }
  assert (Hv : md_v (born_medium (exb (SPint 8)) 1 s 1) [19] = 1690%R) by (unfold born_medium, opts_medium, model_at; cbn [md_v]; rewrite X; cbn; change (Z.min 19 (34 - 1)) with 19%Z; lra).
  assert (Hc : born_scatter (exb (SPint 8)) 1 s 1 [19] = 119%R) by (unfold born_scatter, scatter_at; rewrite X; cbn; lra).
  exists s, B, W, V. cbv zeta. split; [exact H|]. split; [exact X|]. split; [exact Es|]. split; [exact E|]. split; [exact Hin|]. split; [exact Hv|].
  split; [unfold born_medium, opts_medium, model_at; cbn [md_v]; rewrite X; cbn; change (Z.min 10 (34 - 1)) with 10%Z; lra|]. split; [exact Hc|]. split; [unfold born_scatter, scatter_at; rewrite X; cbn; reflexivity|].
  split; [|split; [exact L1|exact L2]]. intros k Hk. rewrite (bs_inner _ _ _ _ _ _ _ (proj2 (Hst k Hk)) [19] Hin), Hv, Hc. reflexivity.
Qed.
(** The same line without [survey_pad]: one background trace for each shot, that of [scalar]. *)
Example born_background_example w0 wsc0 store : exists s s', born_setup (exb SPnone) 1 = Some s /\ scalar_setup (background (exb SPnone)) 1 = Some s' /\ su_ext s = [(0, 40)] /\
  forall b, (b < 2)%nat -> exists B U R S, born_run s b (all_cells s b) true true w0 wsc0 = Some B /\
    shot_run s' b (visits R_ops (shot_par s' b) (pml_begin R_ops (shot_par s' b) 2 (pw_of (su_pw s'))) (pml_end R_ops (shot_par s' b) 2 (pw_of (su_pw s')))) false store = Some (U, R, S) /\
    born_bgdata (exb SPnone) s b B = shot_data (background (exb SPnone)) s' b R /\ length (born_bgdata (exb SPnone) s b B) = 1%nat.
Proof.
  destruct exb_all as (s & H & N & NB & Q & X & AC). destruct exb_bg as (s' & H' & N' & NB' & Q' & X' & AC'). destruct (exb_whole SPnone) as [W1 W2]. exists s, s'. split; [exact H|]. split; [exact H'|]. split; [exact X|]. intros b Hb.
  assert (V1 : fvis R_ops (born_par s b) (pw_of (su_pw s)) (all_cells s b)) by (apply Permutation_refl).
  assert (V2 : fvis R_ops (shot_par s' b) (pw_of (su_pw s')) (visits R_ops (shot_par s' b) (pml_begin R_ops (shot_par s' b) 2 (pw_of (su_pw s'))) (pml_end R_ops (shot_par s' b) 2 (pw_of (su_pw s'))))) by apply Permutation_refl.
  destruct (C65_born_solves (exb SPnone) 1 s b (all_cells s b) true true w0 wsc0 H W1 W2 (bg_area _ _ (exb_area _)) ltac:(discriminate) Z.lt_0_1 ltac:(right; rewrite N, Q; cbn; lia) ltac:(rewrite NB; lia) V1)
    as (B & W & V & E & _ & _ & _ & (L1 & _) & _).
  destruct (C53_runs (background (exb SPnone)) 1 s' b _ false store H' (whole_1 _ _ _ W1) (whole_1 _ _ _ W2) (exb_area _) ltac:(discriminate) Z.lt_0_1 ltac:(right; rewrite N', Q'; cbn; lia) ltac:(rewrite NB'; lia) V2) as (U & R & S & E' & _).
  exists B, U, R, S. split; [exact E|]. split; [exact E'|]. split; [|rewrite L1; destruct b as [|[|b]]; [reflexivity..|lia]].
  exact (C65_background (exb SPnone) 1 s s' b _ _ _ _ _ B _ _ _ U R S H H' (C65_background_area _ _ _ _ H H' eq_refl) W1 W2 (exb_area _) ltac:(discriminate) Z.lt_0_1 ltac:(right; rewrite N, Q; cbn; lia) ltac:(rewrite NB; lia) V1 V2 E E').
Qed.
(** The potential [100 + x] is [2 * 50 + 1 * x]; for each receiver of the second shot. *)
Example born_linear_example w0 wsc0 : let c := exb (SPint 8) in let m1 := mktens [40] (fun _ => 50%R) in let m2 := mktens [40] (fun p => IZR (coord 0 p)) in
  exists s s1 s2 B B1 B2, born_setup c 1 = Some s /\ born_setup (set_scatter c m1) 1 = Some s1 /\ born_setup (set_scatter c m2) 1 = Some s2 /\
  born_run s 1 (all_cells s 1) false false w0 wsc0 = Some B /\ born_run s1 1 (all_cells s1 1) false false w0 wsc0 = Some B1 /\ born_run s2 1 (all_cells s2 1) false false w0 wsc0 = Some B2 /\
  length (born_data c s 1 B) = 2%nat /\
  forall j t, nth t (nth j (born_data c s 1 B) []) 0%R = (2 * nth t (nth j (born_data (set_scatter c m1) s1 1 B1) []) 0 + 1 * nth t (nth j (born_data (set_scatter c m2) s2 1 B2) []) 0)%R.
Proof.
  intros c m1 m2. destruct exb_cut as (s & H & N & NB & Q & X & AC). destruct (exb_cuts (fun _ => 50%R)) as (s1 & H1 & N1 & NB1 & Q1 & X1 & AC1). destruct (exb_cuts (fun p => IZR (coord 0 p))) as (s2 & H2 & N2 & NB2 & Q2 & X2 & AC2).
  destruct (exb_whole (SPint 8)) as [W1 W2].
  assert (V0 : fvis R_ops (born_par s 1) (pw_of (su_pw s)) (all_cells s 1)) by (apply Permutation_refl).
  assert (V1 : fvis R_ops (born_par s1 1) (pw_of (su_pw s1)) (all_cells s1 1)) by (apply Permutation_refl).
  assert (V2 : fvis R_ops (born_par s2 1) (pw_of (su_pw s2)) (all_cells s2 1)) by (apply Permutation_refl).
  destruct (C65_born_solves c 1 s 1 _ false false w0 wsc0 H W1 W2 (bg_area _ _ (exb_area _)) ltac:(discriminate) Z.lt_0_1 ltac:(right; rewrite N, Q; cbn; lia) ltac:(rewrite NB; cbn; lia) V0) as (B & _ & _ & E & _ & _ & _ & _ & (L2 & _) & _).
  destruct (C65_born_solves (set_scatter c m1) 1 s1 1 _ false false w0 wsc0 H1 W1 W2 (bg_area c _ (exb_area _)) ltac:(discriminate) Z.lt_0_1 ltac:(right; rewrite N1, Q1; cbn; lia) ltac:(rewrite NB1; cbn; lia) V1) as (B1 & _ & _ & E1 & _).
  destruct (C65_born_solves (set_scatter c m2) 1 s2 1 _ false false w0 wsc0 H2 W1 W2 (bg_area c _ (exb_area _)) ltac:(discriminate) Z.lt_0_1 ltac:(right; rewrite N2, Q2; cbn; lia) ltac:(rewrite NB2; cbn; lia) V2) as (B2 & _ & _ & E2 & _).
  exists s, s1, s2, B, B1, B2. split; [exact H|]. split; [exact H1|]. split; [exact H2|]. split; [exact E|]. split; [exact E1|]. split; [exact E2|]. split; [exact L2|]. intros j t.
  destruct (C65_linear 2 1 c m1 m2 1 s s1 s2 1 _ _ _ _ _ _ _ _ _ _ _ _ _ _ _ B B1 B2 eq_refl eq_refl ltac:(intros p; cbn; lra) H H1 H2 W1 W2 (bg_area _ _ (exb_area _)) ltac:(discriminate) Z.lt_0_1 ltac:(right; rewrite N, Q; cbn; lia) ltac:(rewrite NB; cbn; lia) V0 V1 V2 E E1 E2) as (_ & _ & G).
  apply (G j).
Qed.
(** The wavefields of the second shot on the line, from two runs: with and without stored snapshots. *)
Example born_unique_example (w0 wsc0 : Z -> arr R_ops) : exists s (W1 V1 W2 V2 : nat -> st R_ops), let c := exb (SPint 8) in let m := born_medium c 1 s 1 in
  born_setup c 1 = Some s /\
  (forall k, (k < 12)%nat -> wave_step m (born_source c s 1 k) (W1 k) (W1 (S k)) /\ scatter_step m (born_scatter c 1 s 1) (born_source c s 1 k) (W1 k) (W1 (S k)) (V1 k) (V1 (S k))) /\
  (forall k, (k < 12)%nat -> wave_step m (born_source c s 1 k) (W2 k) (W2 (S k)) /\ scatter_step m (born_scatter c 1 s 1) (born_source c s 1 k) (W2 k) (W2 (S k)) (V2 k) (V2 (S k))) /\
  forall k, (k <= 12)%nat -> weq 1 (W1 k) (W2 k) /\ weq 1 (V1 k) (V2 k).
Proof.
  destruct exb_cut as (s & H & N & NB & Q & X & AC). destruct (exb_whole (SPint 8)) as [W1 W2].
  assert (Es : ksteps (n_opts (exb (SPint 8))) s = 12%nat) by (unfold ksteps; rewrite N, Q; reflexivity).
  destruct (C65_born_solves (exb (SPint 8)) 1 s 1 (all_cells s 1) false false w0 wsc0 H W1 W2 (bg_area _ _ (exb_area _)) ltac:(discriminate) Z.lt_0_1 ltac:(right; rewrite N, Q; cbn; lia) ltac:(rewrite NB; cbn; lia) ltac:(apply Permutation_refl))
    as (B & W & V & _ & ZW & ZV & Hst & _).
  destruct (C65_born_solves (exb (SPint 8)) 1 s 1 (all_cells s 1) true true w0 wsc0 H W1 W2 (bg_area _ _ (exb_area _)) ltac:(discriminate) Z.lt_0_1 ltac:(right; rewrite N, Q; cbn; lia) ltac:(rewrite NB; cbn; lia) ltac:(apply Permutation_refl))
    as (B' & W' & V' & _ & ZW' & ZV' & Hst' & _).
  rewrite Es in Hst, Hst'. exists s, W, V, W', V'. cbv zeta. split; [exact H|]. split; [exact Hst|]. split; [exact Hst'|].
  apply (C65_unique (born_medium (exb (SPint 8)) 1 s 1) (born_scatter (exb (SPint 8)) 1 s 1) (born_source (exb (SPint 8)) s 1) 12 W W' V V'); [| |exact Hst|exact Hst'].
  - intros x _. destruct (ZW O x) as (-> & -> & _). destruct (ZW' O x) as (-> & -> & _). split; [reflexivity|]. split; [reflexivity|]. intros d _. destruct (ZW d x) as (_ & _ & -> & ->). destruct (ZW' d x) as (_ & _ & -> & ->). split; reflexivity.
  - intros x _. destruct (ZV O x) as (-> & -> & _). destruct (ZV' O x) as (-> & -> & _). split; [reflexivity|]. split; [reflexivity|]. intros d _. destruct (ZV d x) as (_ & _ & -> & ->). destruct (ZV' d x) as (_ & _ & -> & ->). split; reflexivity.
Qed.
(** With [max_vel] of 2000 the step is a third of the user's. *)
Example born_time_step_example : exists s, born_setup (exb (SPint 8)) 1 = Some s /\ su_vel s = 2000%R /\ (su_dt s * 3 = 4 / 1000)%R /\
  (Rabs (su_dt s) <= 6 / 10 / (sqrt (1 / (5 ^ 2) + 0) * 2000))%R.
Proof.
  destruct exb_cut as (s & H & N & NB & Q & X & AC). destruct (C65_time_step _ _ _ H) as (A1 & _ & A3 & A4 & _). exists s. split; [exact H|]. rewrite Q in A1.
  assert (E : su_vel s = 2000%R) by (rewrite (A4 2000%R eq_refl); apply Rabs_right; lra). split; [exact E|]. split; [exact A1|]. rewrite E in A3. exact A3.
Qed.
