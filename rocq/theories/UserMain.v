(** * The statements about accepted calls, put together (proofs). *)
From Coq Require Import List ZArith QArith Reals Lra Lia Bool Permutation.
From Verif Require Import Ops Sums Grid Stencil StencilOrder ScalarModel ScalarRefine ScalarFunc ScalarApi ScalarMore ScalarReach GeomModel Geom Geom2 GeomLocs SetupModel RealModel RealThm
  Resample ResampleThm UserModel UserThm UserCrop.
Import ListNotations.
Local Open Scope Z_scope.

Lemma su_nt_ok c nd s : scalar_setup c nd = Some s -> 0 <= su_nt s.
Proof. intros H. destruct (setup_parts c nd s H) as (_ & _ & _ & _ & _ & _ & Hn & _). apply set_nt_spec in Hn. destruct Hn as (Hr & k & -> & Hk & _). nia. Qed.

Lemma accepted_preconditions c nd s b : scalar_setup c nd = Some s ->
  locs_whole nd [c_src c] -> locs_whole nd [c_rec c] -> area_ok c nd -> c_freq c <> Some 0%R ->
  geom_ok R_ops (shot_par s b) (pw_of (su_pw s)) /\ Forall (loc_ok R_ops (shot_par s b)) (p_src (shot_par s b)) /\ Forall (loc_ok R_ops (shot_par s b)) (p_rec (shot_par s b)) /\
  (forall t, length (shot_amps s b t) = length (p_src (shot_par s b))) /\
  (exists n, su_nt s = n * su_ratio s /\ 0 <= n) /\ 1 <= su_ratio s /\ (su_dt s * IZR (su_ratio s) = c_dt c)%R /\
  (Rabs (su_dt s) <= 6 / 10 / (sqrt (fold_right (fun g x => 1 / (g ^ 2) + x) 0 (per_list (c_gs c) nd)) * su_vel s))%R /\
  (c_max_vel c = None -> forall x, In x (elems (c_v c)) -> Rabs x <= su_vel s)%R.
Proof.
  intros H W1 W2 A F. split; [exact (su_geom c nd s H b A F)|]. split; [exact (su_src_ok c nd s H b W1 A)|]. split; [exact (su_rec_ok c nd s H b W2 A)|].
  split; [intros t; apply shot_amps_length|]. destruct (setup_parts c nd s H) as (_ & Hg & _ & _ & _ & _ & Hn & _ & _ & _ & (mv & Hm & Hv) & _).
  apply set_nt_spec in Hn. destruct Hn as (_ & k & Hk & Hk0 & _). apply set_grid_spacing_spec in Hg. destruct Hg as (_ & _ & Hg). destruct (su_cfl c nd s H) as (_ & _ & _ & _ & G1 & G2 & G3).
  split; [exists k; auto|]. split; [exact G1|]. split; [exact G2|]. split; [rewrite <- Hg; exact G3|].
  intros Hnone x Hx. unfold set_max_vel in Hv. rewrite Hnone in Hv. injection Hv as <-. unfold max_abs in Hm. destruct (map Rabs (elems (c_v c))) as [|y l] eqn:El; [discriminate|]. injection Hm as <-.
  assert (Hin : In (Rabs x) (y :: l)) by (rewrite <- El; apply in_map; exact Hx). clear -Hin.
  assert (G : forall l y, (y <= fold_left Rmax l y)%R /\ (forall z, In z l -> (z <= fold_left Rmax l y)%R)).
  { clear. induction l as [|a l IH]; intros y; cbn; [split; [lra|contradiction]|]. destruct (IH (Rmax y a)) as [I1 I2]. pose proof (Rmax_l y a). pose proof (Rmax_r y a).
    split; [lra|]. intros z [<-|Hz]; [lra|]. apply I2, Hz. }
  destruct (G l y) as [G1 G2]. destruct Hin as [<-|Hin]; [exact G1|apply G2, Hin].
Qed.

Lemma accepted_runs c nd s b vis vrg store : scalar_setup c nd = Some s ->
  locs_whole nd [c_src c] -> locs_whole nd [c_rec c] -> area_ok c nd -> c_freq c <> Some 0%R -> 0 < c_interval c -> (su_nt s = 0 \/ c_interval c * su_ratio s <= su_nt s) ->
  Z.of_nat b < su_nb s -> fvis R_ops (shot_par s b) (pw_of (su_pw s)) vis ->
  exists U R S, shot_run s b vis vrg store = Some (U, R, S) /\
    forall l ps, c_rec c = Some l -> nth_error (lt_data l) b = Some ps ->
    length (shot_data c s b R) = length ps /\ Forall (fun tr => Z.of_nat (length tr) * su_ratio s = su_nt s) (shot_data c s b R).
Proof.
  intros H W1 W2 A F Hi Hn Hb Hv. destruct (shot_runs c nd s H b vis vrg store W1 W2 A F Hi Hn Hv) as (U & R & S & Hr). exists U, R, S. split; [exact Hr|].
  intros l ps Hl Hps. unfold shot_data. rewrite map_length, seq_length. split.
  - assert (X : forall j, (nth_error (shot_row (su_rec s) b) j = None) <-> (nth_error ps j = None)).
    { intros j. assert (L : loc3 [c_rec c] 0 b j = nth_error ps j) by (unfold loc3; cbn; rewrite Hl, Hps; reflexivity). destruct (nth_error ps j) as [p|] eqn:Ej.
      - destruct (W2 O b j p L) as [Ha|Hg].
        + destruct (loc_at c nd s H A false b j p L Ha) as (G & _). cbv iota in G. rewrite G. split; discriminate.
        + pose proof (loc_ign c nd s H false b j p L Hg) as G. cbv iota in G. rewrite G. split; discriminate.
      - pose proof (loc_none c nd s H false b j L) as G. cbv iota in G. rewrite G. split; reflexivity. }
    destruct (Nat.lt_trichotomy (length (shot_row (su_rec s) b)) (length ps)) as [G|[G|G]]; [exfalso|exact G|exfalso].
    + pose proof (proj2 (nth_error_None _ _) (le_n (length (shot_row (su_rec s) b)))) as Y. apply X, nth_error_None in Y. lia.
    + pose proof (proj2 (nth_error_None _ _) (le_n (length ps))) as Y. apply X, nth_error_None in Y. lia.
  - apply Forall_forall. intros tr Htr. apply in_map_iff in Htr. destruct Htr as (j & <- & _).
    destruct (setup_parts c nd s H) as (_ & _ & _ & _ & _ & _ & Hnt & _). apply set_nt_spec in Hnt. destruct Hnt as (Hr1 & k & Hk & Hk0 & _).
    rewrite downsample_length by lia. rewrite map_length, seq_length, Hk. rewrite Z2Nat.inj_mul by lia. rewrite Nat.div_mul by lia. rewrite Z2Nat.id by lia. lia.
Qed.

Lemma interval_zero c nd s b vis vrg store : scalar_setup c nd = Some s -> c_interval c = 0 -> shot_run s b vis vrg store = None.
Proof.
  intros H Hi. destruct (setup_parts c nd s H) as (_ & _ & _ & _ & _ & _ & _ & Hint & _). unfold set_sampling_interval in Hint. destruct (_ <? 0); [discriminate|]. injection Hint as Hint.
  unfold shot_run. rewrite <- Hint, Hi, Z.mul_0_r. reflexivity.
Qed.

Lemma crop_main c nd sp' s1 s2 b vis1 vis2 vrg1 vrg2 store1 store2 U1 R1 S1 U2 R2 S2 :
  scalar_setup c nd = Some s1 -> scalar_setup (set_sp c sp') nd = Some s2 -> area_ok c nd -> area_ok (set_sp c sp') nd ->
  locs_whole nd [c_src c] -> locs_whole nd [c_rec c] -> c_freq c <> Some 0%R -> Z.of_nat b < su_nb s1 ->
  fvis R_ops (shot_par s1 b) (pw_of (su_pw s1)) vis1 -> fvis R_ops (shot_par s2 b) (pw_of (su_pw s2)) vis2 ->
  shot_run s1 b vis1 vrg1 store1 = Some (U1, R1, S1) -> shot_run s2 b vis2 vrg2 store2 = Some (U2, R2, S2) ->
  forall t j,
  (forall ks ps pr p, loc3 [c_src c] 0 b ks = Some ps -> active_pt nd ps -> loc3 [c_rec c] 0 b j = Some pr -> active_pt nd pr ->
     length p = nd -> dist ps p + dist p pr <= (t - 1) * (c_accuracy c / 2) ->
     forall d, (d < nd)%nat ->
       let (l1, h1) := nth d (su_ext s1) (0, 0) in let (l2, h2) := nth d (su_ext s2) (0, 0) in
       (l1 = l2 \/ Z.max l1 l2 + c_accuracy c / 2 <= coord d p) /\ (h1 = h2 \/ coord d p + c_accuracy c / 2 < Z.min h1 h2)) ->
  nth j (R1 t) 0%R = nth j (R2 t) 0%R.
Proof.
  intros H1 H2 A1 A2 W1 W2 F Hb V1 V2 Run1 Run2 t j Hp.
  apply (crop_data c nd sp' s1 s2 H1 H2 A1 A2 W1 W2 F b vis1 vis2 vrg1 vrg2 store1 store2 U1 R1 S1 U2 R2 S2 Hb (su_nt_ok c nd s1 H1) V1 V2 Run1 Run2).
  intros ks ps pr p G1 G2 G3 G4 G5 G6 d Hd. rewrite <- (su_fd c nd s1 H1) in G6 |- *. specialize (Hp ks ps pr p G1 G2 G3 G4 G5 G6 d Hd).
  unfold near_ok. destruct (nth d (su_ext s1) (0, 0)) as [l1 h1], (nth d (su_ext s2) (0, 0)) as [l2 h2]. exact Hp.
Qed.

Lemma survey_pad_main c nd sp' s1 s2 m b vis1 vis2 vrg1 vrg2 store1 store2 U1 R1 S1 U2 R2 S2 :
  scalar_setup c nd = Some s1 -> scalar_setup (set_sp c sp') nd = Some s2 -> area_ok c nd -> area_ok (set_sp c sp') nd ->
  locs_whole nd [c_src c] -> locs_whole nd [c_rec c] -> c_freq c <> Some 0%R -> Z.of_nat b < su_nb s1 ->
  (forall k n, (k < 2 * nd)%nat -> sp_side (c_sp c) k = Some n -> m <= n) -> (forall k n, (k < 2 * nd)%nat -> sp_side sp' k = Some n -> m <= n) ->
  su_nt s1 * (c_accuracy c / 2) <= 2 * m ->
  fvis R_ops (shot_par s1 b) (pw_of (su_pw s1)) vis1 -> fvis R_ops (shot_par s2 b) (pw_of (su_pw s2)) vis2 ->
  shot_run s1 b vis1 vrg1 store1 = Some (U1, R1, S1) -> shot_run s2 b vis2 vrg2 store2 = Some (U2, R2, S2) ->
  shot_data c s1 b R1 = shot_data (set_sp c sp') s2 b R2.
Proof.
  intros H1 H2 A1 A2 W1 W2 F Hb K1 K2 HK V1 V2 Run1 Run2.
  exact (survey_pad_data c nd sp' s1 s2 H1 H2 A1 A2 W1 W2 F m b vis1 vis2 vrg1 vrg2 store1 store2 U1 R1 S1 U2 R2 S2 Hb (su_nt_ok c nd s1 H1) K1 K2 HK V1 V2 Run1 Run2).
Qed.
