(** * What [scalar] returns, in terms of the user's arguments: C56.

    [call_medium], [call_source]: the medium and the source term that the user means; [wave_step]: one step of the wave equation in it. *)
From Coq Require Import List ZArith QArith Reals Lra Lia Bool Permutation.
From Verif Require Import Ops Sums Grid Stencil StencilOrder ScalarModel ScalarRefine ScalarFunc ScalarApi ScalarMore ScalarReach GeomModel Geom Geom2 GeomLocs SetupModel RealModel RealThm
  Resample ResampleThm UserModel UserThm UserCrop UserMain UserEx UserEqs PropUser.
Import ListNotations.
Local Open Scope Z_scope.

(** C56: shot [b] of an accepted call solves the wave equation for the user's model, grid spacing, PML and sources, from rest, in steps of
    [c_dt c / su_ratio s]; the data are the wavefield at the user's receivers, resampled to [c_dt c] (zero for an ignored receiver, and for the
    steps after the last whole storage interval, which are not made); the wavefields returned are those after the last step. *)
Theorem C56_scalar_solves c nd s b vis vrg store : scalar_setup c nd = Some s ->
  locs_whole nd [c_src c] -> locs_whole nd [c_rec c] -> area_ok c nd -> c_freq c <> Some 0%R -> 0 < c_interval c -> (su_nt s = 0 \/ c_interval c * su_ratio s <= su_nt s) ->
  Z.of_nat b < su_nb s -> fvis R_ops (shot_par s b) (pw_of (su_pw s)) vis ->
  exists l a ps U R S (W : nat -> st R_ops),
    c_src c = Some l /\ c_amps c = Some a /\ nth_error (lt_data l) b = Some ps /\ nth 1 (t_shape a) 0 = lt_count l /\ shot_run s b vis vrg store = Some (U, R, S) /\
    (forall d x, s_wfc R_ops (W O) x = 0 /\ s_wfp R_ops (W O) x = 0 /\ s_psi R_ops (W O) d x = 0 /\ s_zeta R_ops (W O) d x = 0)%R /\
    (forall k, (k < steps c s)%nat -> wave_step (call_medium c nd (su_ratio s) (su_acc s) (su_vel s) (su_ext s) b) (call_source c (su_ratio s) ps a b k) (W k) (W (Datatypes.S k))) /\
    (forall lr qs j q, c_rec c = Some lr -> nth_error (lt_data lr) b = Some qs -> nth_error qs j = Some q ->
       nth_error (shot_data c s b R) j = Some (downsample (Z.to_nat (su_ratio s)) (c_ft c) (c_tp c) (c_taper c) 0%R
         (map (fun t => if (negb (coord 0 q =? IGNORE) && (t <? steps c s)%nat)%bool then s_wfc R_ops (W t) q else 0%R) (seq 0 (Z.to_nat (su_nt s)))))) /\
    (forall x, domain (call_medium c nd (su_ratio s) (su_acc s) (su_vel s) (su_ext s) b) x ->
       let q := map (fun d => coord d x - fst (nth d (su_ext s) (0, 0)) + nth (2 * d) (per_list (c_pw c) (2 * nd)) 0) (seq 0 nd) in
       s_wfc R_ops U q = s_wfc R_ops (W (steps c s)) x /\ s_wfp R_ops U q = s_wfp R_ops (W (steps c s)) x /\
       forall d, (d < nd)%nat -> s_psi R_ops U d q = s_psi R_ops (W (steps c s)) d x /\ s_zeta R_ops U d q = s_zeta R_ops (W (steps c s)) d x).
Proof. exact (solves_user c nd s b vis vrg store). Qed.
Print Assumptions C56_scalar_solves.

(** The second shot on the line of forty cells, with eight cells around the locations: twelve steps, the source in cell 18, and the step of the
    wave equation without PML in its neighbour, cell 19. *)
Example scalar_solves_example store : exists s U R S (W : nat -> st R_ops), let c := exu (SPint 8) 1 in
  let m := call_medium c 1 (su_ratio s) (su_acc s) (su_vel s) (su_ext s) 1 in
  scalar_setup c 1 = Some s /\ su_ext s = [(10, 34)] /\ steps c s = 12%nat /\
  shot_run s 1 (visits R_ops (shot_par s 1) (pml_begin R_ops (shot_par s 1) 2 (pw_of (su_pw s))) (pml_end R_ops (shot_par s 1) 2 (pw_of (su_pw s)))) false store = Some (U, R, S) /\
  inner m [19%Z] /\ md_v m [19%Z] = 1690%R /\ md_v m [9] = 1600%R /\ md_v m [36] = 1830%R /\
  (forall k, (k < 12)%nat -> s_wfc R_ops (W (Datatypes.S k)) [19%Z] =
     (2 * s_wfc R_ops (W k) [19%Z] - s_wfp R_ops (W k) [19%Z] + 1690 ^ 2 * md_dt m ^ 2 * (sumf (K := R_ops) [0%nat] (fun d => dx2 m d (s_wfc R_ops (W k)) [19%Z])
        - call_source c (su_ratio s) [[18%Z]] (mktens [2; 1; 4]%Z (fun p => IZR (1 + coord 0 p + coord 2 p))) 1 k [19%Z]))%R) /\
  length (shot_data c s 1 R) = 2%nat.
Proof.
  destruct (exu_cut 1 ltac:(lia)) as (s & H & N & B & Q & X). destruct exu_whole as [W1 W2].
  destruct (C56_scalar_solves (exu (SPint 8) 1) 1 s 1 _ false store H W1 W2 (exu_area _ _) (exu_freq _ _) Z.lt_0_1 ltac:(right; rewrite N, Q; cbn; lia) ltac:(rewrite B; cbn; lia) (Permutation_refl _))
    as (l & a & ps & U & R & S & W & Hl & Ham & Hps & _ & Hrun & _ & Hst & _).
  injection Hl as <-. injection Ham as <-. injection Hps as <-.
  destruct (C53_runs (exu (SPint 8) 1) 1 s 1 _ false store H W1 W2 (exu_area _ _) (exu_freq _ _) Z.lt_0_1 ltac:(right; rewrite N, Q; cbn; lia) ltac:(rewrite B; cbn; lia) (Permutation_refl _)) as (U' & R' & S' & E' & L').
  assert (Es : steps (exu (SPint 8) 1) s = 12%nat) by (unfold steps; rewrite N, Q; reflexivity). rewrite Es in Hst.
  assert (Hin : inner (call_medium (exu (SPint 8) 1) 1 (su_ratio s) (su_acc s) (su_vel s) (su_ext s) 1) [19]).
  { split; [reflexivity|]. intros d Hd. cbn in Hd. assert (d = O) by lia. subst d. cbn [md_ext md_acc call_medium]. rewrite X. cbn. destruct (setup_parts _ _ _ H) as (_ & _ & _ & Hacc & _). cbn in Hacc. injection Hacc as <-. cbn. lia. }
  exists s, U, R, S, W. cbv zeta. split; [exact H|]. split; [exact X|]. split; [exact Es|]. split; [exact Hrun|]. split; [exact Hin|].
  assert (V : md_v (call_medium (exu (SPint 8) 1) 1 (su_ratio s) (su_acc s) (su_vel s) (su_ext s) 1) [19] = 1690%R) by (cbn; rewrite X; cbn; change (Z.min 19 (34 - 1)) with 19%Z; lra).
  split; [exact V|]. split; [cbn; rewrite X; cbn; change (Z.min 10 (34 - 1)) with 10%Z; lra|]. split; [cbn; rewrite X; cbn; change (Z.min 36 (34 - 1)) with 33%Z; lra|]. split.
  - intros k Hk. rewrite (ws_inner _ _ _ _ (Hst k Hk) [19] Hin), V. reflexivity.
  - assert (ER : shot_data (exu (SPint 8) 1) s 1 R = shot_data (exu (SPint 8) 1) s 1 R') by (rewrite Hrun in E'; injection E' as _ -> _; reflexivity).
    rewrite ER. destruct (L' exu_rec [[19]; [25]] eq_refl eq_refl) as [El _]. exact El.
Qed.
