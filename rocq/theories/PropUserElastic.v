(** * What [elastic] returns, in terms of the user's arguments: C58.

    [ecall_grid]: the grid and PML that the user means; [model_at], [source_at]: the user's models and sources; [elastic_step]: one step of the
    elastic equations in them; [measured]: a velocity, or the pressure. *)
From Coq Require Import List ZArith QArith Reals Lra Lia Bool Permutation.
From Verif Require Import Ops Sums Grid Stencil StencilOrder ScalarModel ScalarRefine ScalarFunc ScalarApi GeomModel Geom Geom2 GeomLocs SetupModel RealModel RealThm Resample ResampleThm
  Stag StagKernel StagRefine StagEqs EqsUser ElasticModel ElasticThm StagSetup UserModel UserThm UserCrop UserEqs UserStagModel UserStag UserAcoustic UserElastic UserElasticEx UserStep.
Import ListNotations.
Local Open Scope Z_scope.

(** C58: shot [b] of an accepted call solves the elastic equations for the user's Lame parameters, buoyancy, grid spacing, PML, force and pressure
    sources, from rest, in steps of [o_dt / su_ratio s]; the data of every kind are the velocity, or minus the mean of the normal stresses, at the
    user's receivers, resampled to [o_dt] (zero for an ignored receiver, and for the steps after the last whole storage interval, which are not
    made); the wavefields returned (here with their padding) are those after the last step.  The cells next to the velocity sources and receivers
    have to be in the survey area or its PML. *)
Theorem C58_elastic_solves c nd s b rfmax visA visB lg mg bg store : elastic_setup c nd = Some s ->
  let src := map (e_src c) (el_allC nd) in let rec := map (e_rec c) (el_allC nd) in let g := ecall_grid c nd s in let n := ksteps (e_opts c) s in
  locs_whole nd src -> locs_whole nd rec -> some_area (e_opts c) nd src rec -> o_freq (e_opts c) <> Some 0%R ->
  0 < o_interval (e_opts c) -> (su_nt s = 0 \/ o_interval (e_opts c) * su_ratio s <= su_nt s) -> Z.of_nat b < su_nb s ->
  (forall d, (d < nd)%nat -> half_inside g (e_src c (CV d)) b d /\ half_inside g (e_rec c (CV d)) b d) ->
  el_fvis nd R_ops (elastic_par nd s b) (pw_of (su_pw s)) true visA -> el_fvis nd R_ops (elastic_par nd s b) (pw_of (su_pw s)) false visB ->
  exists U R st (W : nat -> sst (el_sys nd) R_ops),
    elastic_run rfmax nd s b visA visB lg mg bg store = Some (U, R, st) /\
    (forall k e x, mn (W O) k x = 0%R /\ me (W O) e x = 0%R) /\
    (forall t, (t < n)%nat -> elastic_step nd g rfmax (model_at nd (su_ext s) (e_lamb c) b) (model_at nd (su_ext s) (e_mu c) b) (model_at nd (su_ext s) (e_buoy c) b)
       (fun k => source_at (e_opts c) (su_ratio s) (e_src c k) (e_amps c k) b t) (W t) (W (S t))) /\
    (forall k, In k (el_allC nd) -> length (elastic_data c nd s b R k) = length (match e_rec c k with Some l => nth b (lt_data l) [] | None => [] end) /\
       forall l qs j q, e_rec c k = Some l -> nth_error (lt_data l) b = Some qs -> nth_error qs j = Some q ->
         nth_error (elastic_data c nd s b R k) j = Some (trace_at (e_opts c) (su_ratio s) (su_nt s) n (fun t => measured nd k (W t)) q)) /\
    (forall x, let q := map (fun d => coord d x - fst (gr_ext g d) + fst (gr_pw g d) + fd_pad (su_acc s)) (seq 0 nd) in
       (forall k, In k (allX (el_sys nd)) -> mn U k q = mn (W n) k x) /\ (forall e, In e (allE (el_sys nd)) -> me U e q = me (W n) e x)).
Proof. exact (elastic_solves_user c nd s b rfmax visA visB lg mg bg store). Qed.
Print Assumptions C58_elastic_solves.

(** C58: the function's check of the velocity locations is sufficient for that if [survey_pad] is [None], or with a PML at the far side. *)
Theorem C58_velocity_locations c nd s b : elastic_setup c nd = Some s ->
  some_area (e_opts c) nd (map (e_src c) (el_allC nd)) (map (e_rec c) (el_allC nd)) ->
  forall d, (d < nd)%nat -> (o_sp (e_opts c) = SPnone \/ 0 < nth (2 * d + 1) (per_list (o_pw (e_opts c)) (2 * nd)) 0) ->
  half_inside (ecall_grid c nd s) (e_src c (CV d)) b d /\ half_inside (ecall_grid c nd s) (e_rec c (CV d)) b d.
Proof. exact (fun H => el_half_inside c nd s b H). Qed.
Print Assumptions C58_velocity_locations.

(** C58: it is not sufficient in general, because it compares with the model and not with the survey area: a velocity receiver in the last cell of
    the area, in the middle of the model, is accepted although the velocity there is never updated. *)
Theorem C58_velocity_locations_refuted : exists c s,
  elastic_setup c 1 = Some s /\ locs_whole 1 (map (e_src c) (el_allC 1)) /\ locs_whole 1 (map (e_rec c) (el_allC 1)) /\
  some_area (e_opts c) 1 (map (e_src c) (el_allC 1)) (map (e_rec c) (el_allC 1)) /\
  t_shape (e_lamb c) = [40] /\ loc3 [e_rec c (CV 0)] 0 0 0 = Some [23] /\ nth_error (kind_row (su_rec s) 0 0) 0 = Some 6 /\
  ~ gcells (ecall_grid c 1 s) (on_v 0) [23] /\ ~ updated (elastic_par 1 s 0) (on_v 0) [6].
Proof. exact exe1_refuted. Qed.
Print Assumptions C58_velocity_locations_refuted.

(** C58: the internal time step divides the user's and obeys the stability bound for the speed [max_vel]; without [max_vel], for a speed that
    neither the shear waves nor the pressure waves exceed in any cell of any shot's model. *)
Theorem C58_time_step c nd s : elastic_setup c nd = Some s ->
  some_area (e_opts c) nd (map (e_src c) (el_allC nd)) (map (e_rec c) (el_allC nd)) ->
  (su_dt s * IZR (su_ratio s) = o_dt (e_opts c))%R /\ 1 <= su_ratio s /\
  (Rabs (su_dt s) <= 6 / 10 / (sqrt (fold_right (fun g x => 1 / (g ^ 2) + x) 0 (per_list (o_gs (e_opts c)) nd)) * su_vel s))%R /\
  (forall v, o_max_vel (e_opts c) = Some v -> su_vel s = Rabs v) /\
  (o_max_vel (e_opts c) = None -> forall b p, (0 <= b < su_nb s)%Z -> inb (abox (last_n nd (t_shape (e_lamb c)))) p = true ->
   let at_ m := mval nd m (if (mbatch nd m =? 1)%Z then 0%Z else b) p in
   (0 <= at_ (e_mu c) * at_ (e_buoy c))%R ->
   sqrt (at_ (e_mu c) * at_ (e_buoy c)) <= su_vel s /\ sqrt ((at_ (e_lamb c) + 2 * at_ (e_mu c)) * at_ (e_buoy c)) <= su_vel s)%R.
Proof. exact (@elastic_step_user c nd s). Qed.
Print Assumptions C58_time_step.

(** Two half spaces: the pressure waves of the second bound the step. *)
Example elastic_time_step_example : exists s, elastic_setup exen 1 = Some s /\ (2000 <= su_vel s)%R /\ (su_dt s * 3 = 4 / 1000)%R /\
  (Rabs (su_dt s) <= 6 / 10 / (sqrt (1 / (5 ^ 2) + 0) * su_vel s))%R.
Proof.
  destruct exen_setup as (s & H & N & B & Q & X & AC). destruct (C58_time_step _ _ _ H exen_area) as (A1 & _ & A3 & _ & A5). exists s. split; [exact H|]. rewrite Q in A1. repeat split; [|exact A1|exact A3].
  destruct (A5 eq_refl 1 [25] ltac:(rewrite B; lia) eq_refl) as [_ G]; [cbn; lra|]. cbn in G. replace ((2000000 + 2 * 1000000) * 1)%R with (2000 * 2000)%R in G by lra. rewrite sqrt_square in G by lra. exact G.
Qed.

(** The shot in twelve by ten cells: twelve steps; the steps of the equations without PML at the two sources (a force in row 6, pressure in the
    water), and of the shear stress in the rock and at the sea bed, where it stays zero. *)
Example elastic_solves_example rfmax store : (0 <= rfmax < 1 / 4)%R -> exists s U R st (W : nat -> sst (el_sys 2) R_ops),
  let g := ecall_grid exe 2 s in let f k t := source_at (e_opts exe) (su_ratio s) (e_src exe k) (e_amps exe k) 0 t in
  elastic_setup exe 2 = Some s /\ su_ext s = [(1, 11); (1, 9)] /\ ksteps (e_opts exe) s = 12%nat /\
  elastic_run rfmax 2 s 0 (svisits (el_sys 2) (el_kern 2) R_ops (elastic_par 2 s 0) (fpml_b _ _ (elastic_par 2 s 0) (pw_of (su_pw s))) (fpml_e _ _ (elastic_par 2 s 0) (pw_of (su_pw s))) true)
     (svisits (el_sys 2) (el_kern 2) R_ops (elastic_par 2 s 0) (fpml_b _ _ (elastic_par 2 s 0) (pw_of (su_pw s))) (fpml_e _ _ (elastic_par 2 s 0) (pw_of (su_pw s))) false)
     false false false store = Some (U, R, st) /\
  (forall t, (t < 12)%nat ->
     mn (W (S t)) (VL 0) [6; 5] = (mn (W t) (VL 0) [6; 5]%Z + gr_dt g * (1 / 2) * (f (CV 0%nat) t [6; 5]%Z + (gdx g true 0 (mn (W t) (Sg 0 0)) [6; 5]%Z + gdx g false 1 (mn (W t) (Sg 0 1)) [6; 5]%Z)))%R /\
     mn (W (S t)) (Sg 0 0) [3; 4] = (mn (W t) (Sg 0 0) [3; 4]%Z + gr_dt g * (4000 * (gdx g false 0 (mn (W (S t)) (VL 0)) [3; 4]%Z + gdx g false 1 (mn (W (S t)) (VL 1)) [3; 4]%Z) - f CP t [3; 4]%Z))%R /\
     mn (W (S t)) (Sg 0 1) [4; 4] = mn (W t) (Sg 0 1) [4; 4] /\
     mn (W (S t)) (Sg 0 1) [6; 4] = (mn (W t) (Sg 0 1) [6; 4]%Z + gr_dt g * (4 / (/ 1400 + / 1400 + / 1500 + / 1500)) * (gdx g true 1 (mn (W (S t)) (VL 0)) [6; 4]%Z + gdx g true 0 (mn (W (S t)) (VL 1)) [6; 4]%Z))%R) /\
  length (elastic_data exe 2 s 0 R CP) = 1%nat /\ length (elastic_data exe 2 s 0 R (CV 0)) = 2%nat /\ length (elastic_data exe 2 s 0 R (CV 1)) = 1%nat.
Proof.
  intros Hrf. destruct exe_setup as (s & H & N & B & Q & X & AC). destruct exe_whole as [W1 W2].
  assert (HI : forall d, (d < 2)%nat -> half_inside (ecall_grid exe 2 s) (e_src exe (CV d)) 0 d /\ half_inside (ecall_grid exe 2 s) (e_rec exe (CV d)) 0 d).
  { intros d Hd. apply (C58_velocity_locations _ _ _ 0 H exe_area d Hd). right. destruct d as [|[|d]]; cbn; lia. }
  destruct (C58_elastic_solves exe 2 s 0 rfmax _ _ false false false store H W1 W2 exe_area ltac:(discriminate) Z.lt_0_1 ltac:(right; rewrite N, Q; cbn; lia) ltac:(rewrite B; cbn; lia)
    HI (Permutation_refl _) (Permutation_refl _))
    as (U & R & st & W & Hrun & _ & Hst & Hda & _).
  assert (Es : ksteps (e_opts exe) s = 12%nat) by (unfold ksteps; rewrite N, Q; reflexivity). rewrite Es in Hst.
  exists s, U, R, st, W. cbv zeta. split; [exact H|]. split; [exact X|]. split; [exact Es|]. split; [exact Hrun|].
  assert (C : forall h y z, 1 <= y < 10 -> 1 <= z < 8 -> gcells (ecall_grid exe 2 s) h [y; z]).
  { intros h y z Hy Hz. split; [reflexivity|]. intros d Hd. cbn in Hd. cbn [gr_ext gr_pw ecall_grid opts_grid]. rewrite X. destruct d as [|[|d]]; [| |lia]; cbn; [destruct (h 0%nat)|destruct (h 1%nat)]; lia. }
  assert (BX : forall d y z e, 1 <= y < 10 -> 1 <= z < 8 -> (d < 2)%nat -> fst (gr_ext (ecall_grid exe 2 s) d) <= coord d [y; z] < snd (gr_ext (ecall_grid exe 2 s) d) - (if e : bool then 1 else 0)).
  { intros d y z e Hy Hz Hd. cbn [gr_ext ecall_grid opts_grid]. rewrite X. destruct d as [|[|d]]; [| |lia]; cbn; destruct e; lia. }
  assert (BU : forall x, model_at 2 (su_ext s) (e_buoy exe) 0 x = (1 / 2)%R) by (intros x; reflexivity).
  assert (MU : forall y z, 1 <= y < 11 -> 1 <= z < 9 -> model_at 2 (su_ext s) (e_mu exe) 0 [y; z] = (if y <? 5 then 0 else 1000 + 100 * IZR z)%R).
  { intros y z Hy Hz. rewrite X. cbn. replace (Z.min (Z.max y 1) (11 - 1)) with y by lia. replace (Z.min (Z.max z 1) (9 - 1)) with z by lia. reflexivity. }
  split; [|split; [|split]].
  - intros t Ht. specialize (Hst t Ht). split; [|split; [|split]].
    + rewrite (es_v_box _ _ _ _ _ _ _ _ _ Hst 0 [6; 5] Nat.lt_0_2 (C _ 6 5 ltac:(lia) ltac:(lia))) by (intros j Hj; apply BX; lia).
      assert (BE : buoyancy_at rfmax (density_at rfmax (model_at 2 (su_ext s) (e_buoy exe) 0)) 0 [6; 5] = (1 / 2)%R).
      { unfold buoyancy_at, density_at. rewrite !BU. cbv zeta. rewrite (Rabs_right (1 / 2)) by lra. destruct (Rlt_dec rfmax (1 / 2)) as [_|C']; [|lra].
        replace ((/ (1 / 2) + / (1 / 2)) / 2)%R with 2%R by lra. rewrite Rabs_right by lra. destruct (Rlt_dec _ _) as [_|C']; lra. }
      rewrite BE. cbn [seq sumf]. change (stress (W t) 0 0) with (mn (W t) (Sg 0 0)). change (stress (W t) 0 1) with (mn (W t) (Sg 0 1)). change (Nat.eqb 0 0) with true. change (Nat.eqb 0 1) with false. rring.
    + rewrite (es_n_box _ _ _ _ _ _ _ _ _ Hst 0 [3; 4] Nat.lt_0_2 (C _ 3 4 ltac:(lia) ltac:(lia))) by (intros j Hj; pose proof (BX j 3 4 false ltac:(lia) ltac:(lia) Hj); cbv iota in *; lia).
      rewrite (MU 3 4) by lia. change (model_at 2 (su_ext s) (e_lamb exe) 0 [3; 4]) with 4000%R. cbn [seq sumf]. change (3 <? 5) with true. cbv iota. rring.
    + rewrite (es_s _ _ _ _ _ _ _ _ _ Hst 0 1 [4; 4] ltac:(lia) (C _ 4 4 ltac:(lia) ltac:(lia))).
      assert (SE : shear_at rfmax (model_at 2 (su_ext s) (e_mu exe) 0) 0 1 [4; 4] = 0%R).
      { unfold shear_at. cbv zeta. rewrite (MU 4 4) by lia. change (4 <? 5) with true. cbv iota. rewrite Rabs_R0. destruct (Rlt_dec rfmax 0) as [C'|_]; [lra|]. reflexivity. }
      rewrite SE. rring.
    + rewrite (es_s_box _ _ _ _ _ _ _ _ _ Hst 0 1 [6; 4] ltac:(lia) (C _ 6 4 ltac:(lia) ltac:(lia))) by (intros d Hd; apply (BX d 6 4 true); lia).
      assert (SE : shear_at rfmax (model_at 2 (su_ext s) (e_mu exe) 0) 0 1 [6; 4] = (4 / (/ 1400 + / 1400 + / 1500 + / 1500))%R).
      { unfold shear_at. cbv zeta. change (shift 0 1 [6; 4]) with [7; 4]. change (shift 1 1 [6; 4]) with [6; 5]. change (shift 1 1 [7; 4]) with [7; 5].
        rewrite !MU by lia. change (6 <? 5) with false. change (7 <? 5) with false. cbv iota.
        replace (1000 + 100 * 4)%R with 1400%R by lra. replace (1000 + 100 * 5)%R with 1500%R by lra. rewrite !Rabs_right by lra.
        destruct (Rlt_dec rfmax 1400) as [_|C']; [|lra]. destruct (Rlt_dec rfmax 1500) as [_|C']; [|lra]. reflexivity. }
      rewrite SE. reflexivity.
  - exact (proj1 (Hda CP (or_intror (or_intror (or_introl eq_refl))))).
  - exact (proj1 (Hda (CV 0) (or_introl eq_refl))).
  - exact (proj1 (Hda (CV 1) (or_intror (or_introl eq_refl)))).
Qed.
