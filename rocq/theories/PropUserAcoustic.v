(** * What [acoustic] returns, in terms of the user's arguments: C57.

    [call_grid]: the grid and PML that the user means; [model_at], [source_at]: the user's models and sources; [acoustic_step]: one step of the
    acoustic equations in them. *)
From Coq Require Import List ZArith QArith Reals Lra Lia Bool Permutation.
From Verif Require Import Ops Sums Grid Stencil StencilOrder ScalarModel ScalarRefine ScalarFunc ScalarApi GeomModel Geom Geom2 GeomLocs SetupModel RealModel RealThm Resample ResampleThm
  Stag StagKernel StagRefine StagEqs EqsUser AcousticModel AcousticThm StagSetup UserModel UserThm UserCrop UserEqs UserStagModel UserStag UserAcoustic UserStagEx UserStep.
Import ListNotations.
Local Open Scope Z_scope.

(** C57: shot [b] of an accepted call solves the acoustic equations for the user's wavespeed, density, grid spacing, PML, pressure and velocity
    sources, from rest, in steps of [o_dt / su_ratio s]; the data of every kind are that wavefield at the user's receivers, resampled to [o_dt]
    (zero for an ignored receiver, and for the steps after the last whole storage interval, which are not made); the wavefields returned (here with
    their padding) are those after the last step.  The cells next to the velocity sources and receivers have to be in the survey area or its PML. *)
Theorem C57_acoustic_solves c nd s b rfmax visA visB kg bg store : acoustic_setup c nd = Some s ->
  let src := map (a_src c) (ac_allX nd) in let rec := map (a_rec c) (ac_allX nd) in let g := call_grid c nd s in let n := ksteps (a_opts c) s in
  locs_whole nd src -> locs_whole nd rec -> some_area (a_opts c) nd src rec -> o_freq (a_opts c) <> Some 0%R ->
  0 < o_interval (a_opts c) -> (su_nt s = 0 \/ o_interval (a_opts c) * su_ratio s <= su_nt s) -> Z.of_nat b < su_nb s ->
  (forall d, (d < nd)%nat -> half_inside g (a_src c (XV d)) b d /\ half_inside g (a_rec c (XV d)) b d) ->
  ac_fvis nd R_ops (acoustic_par nd s b) (pw_of (su_pw s)) true visA -> ac_fvis nd R_ops (acoustic_par nd s b) (pw_of (su_pw s)) false visB ->
  exists U R st (W : nat -> sst (ac_sys nd) R_ops),
    acoustic_run rfmax nd s b visA visB kg bg store = Some (U, R, st) /\
    (forall k e x, mn (W O) k x = 0%R /\ me (W O) e x = 0%R) /\
    (forall t, (t < n)%nat -> acoustic_step nd g rfmax (model_at nd (su_ext s) (a_v c) b) (model_at nd (su_ext s) (a_rho c) b)
       (fun k => source_at (a_opts c) (su_ratio s) (a_src c k) (a_amps c k) b t) (W t) (W (S t))) /\
    (forall k, In k (ac_allX nd) -> length (acoustic_data c s b R k) = length (match a_rec c k with Some l => nth b (lt_data l) [] | None => [] end) /\
       forall l qs j q, a_rec c k = Some l -> nth_error (lt_data l) b = Some qs -> nth_error qs j = Some q ->
         nth_error (acoustic_data c s b R k) j = Some (trace_at (a_opts c) (su_ratio s) (su_nt s) n (fun t => mn (W t) k) q)) /\
    (forall x, let q := map (fun d => coord d x - fst (gr_ext g d) + fst (gr_pw g d) + fd_pad (su_acc s)) (seq 0 nd) in
       (forall k, In k (ac_allX nd) -> mn U k q = mn (W n) k x) /\ (forall e, In e (allE (ac_sys nd)) -> me U e q = me (W n) e x)).
Proof. exact (acoustic_solves_user c nd s b rfmax visA visB kg bg store). Qed.
Print Assumptions C57_acoustic_solves.

(** C57: the function's check of the velocity locations is sufficient for that if [survey_pad] is [None], or with a PML at the far side. *)
Theorem C57_velocity_locations c nd s b : acoustic_setup c nd = Some s ->
  some_area (a_opts c) nd (map (a_src c) (ac_allX nd)) (map (a_rec c) (ac_allX nd)) ->
  forall d, (d < nd)%nat -> (o_sp (a_opts c) = SPnone \/ 0 < nth (2 * d + 1) (per_list (o_pw (a_opts c)) (2 * nd)) 0) ->
  half_inside (call_grid c nd s) (a_src c (XV d)) b d /\ half_inside (call_grid c nd s) (a_rec c (XV d)) b d.
Proof. exact (fun H => ac_half_inside c nd s b H). Qed.
Print Assumptions C57_velocity_locations.

(** C57: the internal time step divides the user's and obeys the stability bound for the speed [max_vel]; without [max_vel], for a speed that no
    cell of the user's velocity model exceeds. *)
Theorem C57_time_step c nd s : acoustic_setup c nd = Some s ->
  (su_dt s * IZR (su_ratio s) = o_dt (a_opts c))%R /\ 1 <= su_ratio s /\
  (Rabs (su_dt s) <= 6 / 10 / (sqrt (fold_right (fun g x => 1 / (g ^ 2) + x) 0 (per_list (o_gs (a_opts c)) nd)) * su_vel s))%R /\
  (forall v, o_max_vel (a_opts c) = Some v -> su_vel s = Rabs v) /\
  (o_max_vel (a_opts c) = None -> forall p, inb (abox (t_shape (a_v c))) p = true -> Rabs (t_at (a_v c) p) <= su_vel s)%R.
Proof. exact (@acoustic_step_user c nd s). Qed.
Print Assumptions C57_time_step.

(** Forty cells with speeds from 1610 to 2000: the speed of the last bounds the step, which is a third of the user's. *)
Example acoustic_time_step_example : exists s, acoustic_setup exan 1 = Some s /\ (2000 <= su_vel s)%R /\ (su_dt s * 3 = 4 / 1000)%R /\
  (Rabs (su_dt s) <= 6 / 10 / (sqrt (1 / (5 ^ 2) + 0) * su_vel s))%R.
Proof.
  destruct exan_setup as (s & H & N & B & Q & X & AC). destruct (C57_time_step _ _ _ H) as (A1 & _ & A3 & _ & A5). exists s. split; [exact H|]. rewrite Q in A1. repeat split; [|exact A1|exact A3].
  pose proof (A5 eq_refl [39] eq_refl) as G. cbn in G. rewrite Rabs_right in G by lra. lra.
Qed.

(** C57: it is not sufficient in general, because it compares with the model and not with the survey area: a velocity receiver in the last cell of
    the area, in the middle of the model, is accepted although the velocity there is never updated; a source there is multiplied with zero. *)
Theorem C57_velocity_locations_refuted : exists c s,
  acoustic_setup c 1 = Some s /\ locs_whole 1 (map (a_src c) (ac_allX 1)) /\ locs_whole 1 (map (a_rec c) (ac_allX 1)) /\
  some_area (a_opts c) 1 (map (a_src c) (ac_allX 1)) (map (a_rec c) (ac_allX 1)) /\
  t_shape (a_v c) = [40] /\ loc3 [a_rec c (XV 0)] 0 0 0 = Some [23] /\ nth_error (kind_row (su_rec s) 1 0) 0 = Some 6 /\
  ~ gcells (call_grid c 1 s) (Nat.eqb 0) [23] /\ ~ updated (acoustic_par 1 s 0) (Nat.eqb 0) [6] /\
  forall rfmax, (0 <= rfmax)%R -> acoustic_models rfmax s 0 (MB 0) 6 = 0%R.
Proof. exact exa_refuted. Qed.
Print Assumptions C57_velocity_locations_refuted.

(** The second shot on the line of forty cells, with eight cells around the locations: twelve steps, and the step of the equations without PML in
    the cells of the two sources (pressure in cell 18, velocity between cells 19 and 20). *)
Example acoustic_solves_example rfmax store : (0 <= rfmax < 1000)%R -> exists s U R st (W : nat -> sst (ac_sys 1) R_ops),
  let c := exa (SPint 8) 3 in let g := call_grid c 1 s in
  let f k t := source_at (a_opts c) (su_ratio s) (a_src c k) (a_amps c k) 1 t in
  acoustic_setup c 1 = Some s /\ su_ext s = [(10, 32)] /\ ksteps (a_opts c) s = 12%nat /\
  acoustic_run rfmax 1 s 1 (svisits (ac_sys 1) (ac_kern 1) R_ops (acoustic_par 1 s 1) (fpml_b _ _ (acoustic_par 1 s 1) (pw_of (su_pw s))) (fpml_e _ _ (acoustic_par 1 s 1) (pw_of (su_pw s))) true)
     (svisits (ac_sys 1) (ac_kern 1) R_ops (acoustic_par 1 s 1) (fpml_b _ _ (acoustic_par 1 s 1) (pw_of (su_pw s))) (fpml_e _ _ (acoustic_par 1 s 1) (pw_of (su_pw s))) false)
     false false store = Some (U, R, st) /\
  (forall t, (t < 12)%nat ->
     mn (W (S t)) (XV 0) [19] = (mn (W t) (XV 0) [19%Z] + gr_dt g * / (4039 / 2) * (f (XV 0%nat) t [19%Z] - gdx g true 0 (mn (W t) XP) [19%Z]))%R /\
     mn (W (S t)) XP [18] = (mn (W t) XP [18%Z] + gr_dt g * (2018 * 1680 ^ 2) * (f XP t [18%Z] - gdx g false 0 (mn (W (S t)) (XV 0)) [18%Z]))%R) /\
  length (acoustic_data c s 1 R XP) = 2%nat /\ length (acoustic_data c s 1 R (XV 0)) = 1%nat.
Proof.
  intros Hrf. destruct exa_cut as (s & H & N & B & Q & X & AC). destruct (exa_whole (SPint 8) 3) as [W1 W2].
  assert (HI : forall d, (d < 1)%nat -> half_inside (call_grid (exa (SPint 8) 3) 1 s) (a_src (exa (SPint 8) 3) (XV d)) 1 d /\ half_inside (call_grid (exa (SPint 8) 3) 1 s) (a_rec (exa (SPint 8) 3) (XV d)) 1 d).
  { intros d Hd. apply (C57_velocity_locations _ _ _ 1 H (exa_area _ _) d Hd). right. assert (d = O) by lia. subst d. cbn. lia. }
  destruct (C57_acoustic_solves (exa (SPint 8) 3) 1 s 1 rfmax _ _ false false store H W1 W2 (exa_area _ _) ltac:(discriminate) Z.lt_0_1 ltac:(right; rewrite N, Q; cbn; lia) ltac:(rewrite B; cbn; lia)
    HI (Permutation_refl _) (Permutation_refl _))
    as (U & R & st & W & Hrun & _ & Hst & Hda & _).
  assert (Es : ksteps (a_opts (exa (SPint 8) 3)) s = 12%nat) by (unfold ksteps; rewrite N, Q; reflexivity). rewrite Es in Hst.
  exists s, U, R, st, W. cbv zeta. split; [exact H|]. split; [exact X|]. split; [exact Es|]. split; [exact Hrun|].
  assert (C : forall h y, 10 <= y < 31 -> gcells (call_grid (exa (SPint 8) 3) 1 s) h [y]).
  { intros h y Hy. split; [reflexivity|]. intros d Hd. cbn in Hd. assert (d = O) by lia. subst d. cbn [gr_ext gr_pw call_grid opts_grid]. rewrite X. cbn. destruct (h O); lia. }
  split.
  - intros t Ht. specialize (Hst t Ht). split.
    + rewrite (as_v_box _ _ _ _ _ _ _ _ Hst 0 [19] Nat.lt_0_1 (C _ 19 ltac:(lia))) by (cbn; rewrite X; cbn; lia).
      assert (BU : buoyancy_at rfmax (model_at 1 (su_ext s) (a_rho (exa (SPint 8) 3)) 1) 0 [19] = (/ (4039 / 2))%R).
      { assert (E : ((model_at 1 (su_ext s) (a_rho (exa (SPint 8) 3)) 1 [19%Z] + model_at 1 (su_ext s) (a_rho (exa (SPint 8) 3)) 1 (shift 0 1 [19%Z])) / 2 = 4039 / 2)%R).
        { rewrite X. cbn. change (Z.min 19 (32 - 1)) with 19%Z. change (Z.min (Z.max (19 + 1) 10) (32 - 1)) with 20%Z. lra. }
        unfold buoyancy_at. cbv zeta. rewrite E. destruct (Rlt_dec _ _) as [_|C']; [reflexivity|]. rewrite Rabs_right in C' by lra. lra. }
      rewrite BU. reflexivity.
    + rewrite (as_p_box _ _ _ _ _ _ _ _ Hst [18] (C _ 18 ltac:(lia))) by (intros d Hd; assert (d = O) by lia; subst d; cbn; rewrite X; cbn; lia).
      assert (E1 : model_at 1 (su_ext s) (a_rho (exa (SPint 8) 3)) 1 [18] = 2018%R) by (rewrite X; cbn; change (Z.min 18 (32 - 1)) with 18%Z; lra).
      assert (E2 : model_at 1 (su_ext s) (a_v (exa (SPint 8) 3)) 1 [18] = 1680%R) by (rewrite X; cbn; change (Z.min 18 (32 - 1)) with 18%Z; lra).
      rewrite E1, E2. cbn [seq sumf]. rring.
  - split; [exact (proj1 (Hda XP (or_introl eq_refl)))|exact (proj1 (Hda (XV 0) (or_intror (or_introl eq_refl))))].
Qed.
