(** * The function [scalar] from the user's arguments to the data: C53, C54.

    [scalar_setup c nd = Some s]: none of the checks raises for the call [c] of dimension [nd].  [locs_whole]: a location is ignored in all of
    its coordinates or in none.  [area_ok]: the survey area is the whole model or there is a location to enclose. *)
From Coq Require Import List ZArith QArith Reals Lra Lia Bool Permutation.
From Verif Require Import Ops Sums Grid Stencil StencilOrder ScalarModel ScalarRefine ScalarFunc ScalarApi ScalarMore ScalarReach GeomModel Geom Geom2 GeomLocs SetupModel RealModel RealThm
  Resample ResampleThm UserModel UserThm UserCrop UserMain UserEx.
Import ListNotations.
Local Open Scope Z_scope.

(** C53: an accepted call gives the kernel a problem that satisfies its preconditions, with a time step within the stability limit for the
    user's spacing and the largest speed of the user's model. *)
Theorem C53_preconditions c nd s b : scalar_setup c nd = Some s ->
  locs_whole nd [c_src c] -> locs_whole nd [c_rec c] -> area_ok c nd -> c_freq c <> Some 0%R ->
  geom_ok R_ops (shot_par s b) (pw_of (su_pw s)) /\ Forall (loc_ok R_ops (shot_par s b)) (p_src (shot_par s b)) /\ Forall (loc_ok R_ops (shot_par s b)) (p_rec (shot_par s b)) /\
  (forall t, length (shot_amps s b t) = length (p_src (shot_par s b))) /\
  (exists n, su_nt s = n * su_ratio s /\ 0 <= n) /\ 1 <= su_ratio s /\ (su_dt s * IZR (su_ratio s) = c_dt c)%R /\
  (Rabs (su_dt s) <= 6 / 10 / (sqrt (fold_right (fun g x => 1 / (g ^ 2) + x) 0 (per_list (c_gs c) nd)) * su_vel s))%R /\
  (c_max_vel c = None -> forall x, In x (elems (c_v c)) -> Rabs x <= su_vel s)%R.
Proof. exact (accepted_preconditions c nd s b). Qed.
Print Assumptions C53_preconditions.

(** C53: it then runs, and returns one trace of the user's number of samples for each of the user's receivers, if the storage interval is
    positive and not longer than the run. *)
Theorem C53_runs c nd s b vis vrg store : scalar_setup c nd = Some s ->
  locs_whole nd [c_src c] -> locs_whole nd [c_rec c] -> area_ok c nd -> c_freq c <> Some 0%R -> 0 < c_interval c -> (su_nt s = 0 \/ c_interval c * su_ratio s <= su_nt s) ->
  Z.of_nat b < su_nb s -> fvis R_ops (shot_par s b) (pw_of (su_pw s)) vis ->
  exists U R S, shot_run s b vis vrg store = Some (U, R, S) /\
    forall l ps, c_rec c = Some l -> nth_error (lt_data l) b = Some ps ->
    length (shot_data c s b R) = length ps /\ Forall (fun tr => Z.of_nat (length tr) * su_ratio s = su_nt s) (shot_data c s b R).
Proof. exact (accepted_runs c nd s b vis vrg store). Qed.
Print Assumptions C53_runs.

(** An interval of zero passes the check, which only rejects negative ones, and then divides by zero. *)
Theorem C53_interval_zero_refuted : exists c s, call_ndim c = Some 1%nat /\ scalar_setup c 1 = Some s /\ c_interval c = 0 /\
  locs_whole 1 [c_src c] /\ locs_whole 1 [c_rec c] /\ area_ok c 1 /\ c_freq c <> Some 0%R /\
  forall b vis vrg store, shot_run s b vis vrg store = None.
Proof.
  destruct (exu_all 0 ltac:(lia)) as (s & H & _). exists (exu SPnone 0), s. split; [reflexivity|]. split; [exact H|]. split; [reflexivity|]. split; [apply exu_whole|]. split; [apply exu_whole|].
  split; [apply exu_area|]. split; [apply exu_freq|]. intros b vis vrg store. exact (interval_zero _ _ _ b vis vrg store H eq_refl).
Qed.
Print Assumptions C53_interval_zero_refuted.

(** C54: the value that receiver [j] records at the internal step [t] is the same for two survey areas, if these agree around every cell [p] on a
    way from a source to the receiver that can be travelled until then; [nth d (su_ext s)] is the survey area in dimension [d]. *)
Theorem C54_survey_area c nd sp' s1 s2 b vis1 vis2 vrg1 vrg2 store1 store2 U1 R1 S1 U2 R2 S2 :
  scalar_setup c nd = Some s1 -> scalar_setup (set_sp c sp') nd = Some s2 -> area_ok c nd -> area_ok (set_sp c sp') nd ->
  locs_whole nd [c_src c] -> locs_whole nd [c_rec c] -> c_freq c <> Some 0%R -> Z.of_nat b < su_nb s1 ->
  fvis R_ops (shot_par s1 b) (pw_of (su_pw s1)) vis1 -> fvis R_ops (shot_par s2 b) (pw_of (su_pw s2)) vis2 ->
  shot_run s1 b vis1 vrg1 store1 = Some (U1, R1, S1) -> shot_run s2 b vis2 vrg2 store2 = Some (U2, R2, S2) ->
  forall t j,
  (forall ks ps pr p, loc3 [c_src c] 0 b ks = Some ps -> active_pt nd ps -> loc3 [c_rec c] 0 b j = Some pr -> active_pt nd pr ->
     length p = nd -> dist ps p + dist p pr <= (t - 1) * (c_accuracy c / 2) ->
     forall d, (d < nd)%nat ->
       let (l1, h1) := nth d (su_ext s1) (0, 0) in let (l2, h2) := nth d (su_ext s2) (0, 0) in
       (l1 = l2 \/ Z.max l1 l2 + c_accuracy c / 2 <= coord d p) /\ (h1 = h2 \/ coord d p + c_accuracy c / 2 < Z.min h1 h2)) ->
  nth j (R1 t) 0%R = nth j (R2 t) 0%R.
Proof. exact (crop_main c nd sp' s1 s2 b vis1 vis2 vrg1 vrg2 store1 store2 U1 R1 S1 U2 R2 S2). Qed.
Print Assumptions C54_survey_area.

(** C54: two values of [survey_pad] give the same data for every shot, if each of their sides is [None] or at least half the number of cells
    that a wave crosses during the run. *)
Theorem C54_survey_pad c nd sp' s1 s2 m b vis1 vis2 vrg1 vrg2 store1 store2 U1 R1 S1 U2 R2 S2 :
  scalar_setup c nd = Some s1 -> scalar_setup (set_sp c sp') nd = Some s2 -> area_ok c nd -> area_ok (set_sp c sp') nd ->
  locs_whole nd [c_src c] -> locs_whole nd [c_rec c] -> c_freq c <> Some 0%R -> Z.of_nat b < su_nb s1 ->
  (forall k n, (k < 2 * nd)%nat -> sp_side (c_sp c) k = Some n -> m <= n) -> (forall k n, (k < 2 * nd)%nat -> sp_side sp' k = Some n -> m <= n) ->
  su_nt s1 * (c_accuracy c / 2) <= 2 * m ->
  fvis R_ops (shot_par s1 b) (pw_of (su_pw s1)) vis1 -> fvis R_ops (shot_par s2 b) (pw_of (su_pw s2)) vis2 ->
  shot_run s1 b vis1 vrg1 store1 = Some (U1, R1, S1) -> shot_run s2 b vis2 vrg2 store2 = Some (U2, R2, S2) ->
  shot_data c s1 b R1 = shot_data (set_sp c sp') s2 b R2.
Proof. exact (survey_pad_main c nd sp' s1 s2 m b vis1 vis2 vrg1 vrg2 store1 store2 U1 R1 S1 U2 R2 S2). Qed.
Print Assumptions C54_survey_pad.

(** Two shots on a line of forty cells, twelve internal steps of order two; with [survey_pad = 8] the area is [10, 34). *)
Example survey_pad_example : exists s1 s2, let c := exu SPnone 1 in
  scalar_setup c 1 = Some s1 /\ scalar_setup (set_sp c (SPint 8)) 1 = Some s2 /\ su_ext s1 = [(0, 40)] /\ su_ext s2 = [(10, 34)] /\ su_nt s1 = 12 /\
  forall b store, (b < 2)%nat -> exists U1 R1 S1 U2 R2 S2,
    shot_run s1 b (visits R_ops (shot_par s1 b) (pml_begin R_ops (shot_par s1 b) 2 (pw_of (su_pw s1))) (pml_end R_ops (shot_par s1 b) 2 (pw_of (su_pw s1)))) false store = Some (U1, R1, S1) /\
    shot_run s2 b (visits R_ops (shot_par s2 b) (pml_begin R_ops (shot_par s2 b) 2 (pw_of (su_pw s2))) (pml_end R_ops (shot_par s2 b) 2 (pw_of (su_pw s2)))) false store = Some (U2, R2, S2) /\
    shot_data c s1 b R1 = shot_data (set_sp c (SPint 8)) s2 b R2 /\ length (shot_data c s1 b R1) = 2%nat.
Proof.
  destruct (exu_all 1 ltac:(lia)) as (s1 & H1 & N1 & B1 & Q1 & X1). destruct (exu_cut 1 ltac:(lia)) as (s2 & H2 & N2 & B2 & Q2 & X2). destruct exu_whole as [W1 W2].
  exists s1, s2. cbv zeta. split; [exact H1|]. split; [exact H2|]. split; [exact X1|]. split; [exact X2|]. split; [exact N1|]. intros b store Hb.
  destruct (C53_runs _ _ _ b _ false store H1 W1 W2 (exu_area _ _) (exu_freq _ _) Z.lt_0_1 ltac:(right; rewrite N1, Q1; cbn; lia) ltac:(rewrite B1; lia) (Permutation_refl _)) as (U1 & R1 & S1 & E1 & L1).
  destruct (C53_runs _ _ _ b _ false store H2 W1 W2 (exu_area _ _) (exu_freq _ _) Z.lt_0_1 ltac:(right; rewrite N2, Q2; cbn; lia) ltac:(rewrite B2; lia) (Permutation_refl _)) as (U2 & R2 & S2 & E2 & _).
  exists U1, R1, S1, U2, R2, S2. split; [exact E1|]. split; [exact E2|]. split.
  - eapply (C54_survey_pad (exu SPnone 1) 1 (SPint 8) s1 s2 8 b); [exact H1|exact H2|apply exu_area|exact (exu_area (SPint 8) 1)|exact W1|exact W2|apply exu_freq|rewrite B1; lia| | | | | |exact E1|exact E2];
      try exact (Permutation_refl _).
    + discriminate.
    + intros k n _ E. cbn in E. assert (n = 8) by congruence. lia.
    + rewrite N1. change (c_accuracy (exu SPnone 1) / 2) with 1. lia.
  - destruct b as [|[|b]]; [| |lia]; [destruct (L1 exu_rec [[22]; [IGNORE]] eq_refl eq_refl) as [E _]|destruct (L1 exu_rec [[19]; [25]] eq_refl eq_refl) as [E _]]; exact E.
Qed.
