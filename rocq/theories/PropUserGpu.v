(** * What [scalar] returns when its tensors are on a CUDA device, in terms of the user's arguments: C68.

    [dev_run]: the possible results of the batch on the device, [dev_data]: the receiver data given to the user (UserGpuModel.v); [call_medium],
    [call_source], [wave_step]: the user's problem, as in C56; [rect]: a tensor of locations has the same number of locations for all shots. *)
From Coq Require Import List ZArith QArith Reals Lra Lia Bool Permutation.
From Verif Require Import Ops Sums Grid Stencil StencilOrder ScalarModel ScalarRefine ScalarFunc ScalarApi ScalarPhys ScalarMore ScalarReach GeomModel Geom Geom2 GeomLocs SetupModel RealModel RealThm
  Resample ResampleThm Threads GpuModel UserModel UserThm UserCrop UserMain UserEx UserEqs UserGpuModel UserGpu.
Import ListNotations.
Local Open Scope Z_scope.

(** C68: the device gives every shot what the CPU gives it: data and wavefields are those of the CPU's run of the shot, with any order of the cells
    there and any interleaving of the threads here. *)
Theorem C68_device_is_cpu c nd s : scalar_setup c nd = Some s -> forall b vis vrg store store' U R St,
  locs_whole nd [c_src c] -> locs_whole nd [c_rec c] -> rect (c_src c) -> rect (c_rec c) -> area_ok c nd -> c_freq c <> Some 0%R -> 0 < c_interval c ->
  (su_nt s = 0 \/ c_interval c * su_ratio s <= su_nt s) -> (nd <= 3)%nat /\ Forall (fun m => m < 2 ^ 31) (su_shape s) /\ su_nb s < 2 ^ 31 ->
  Z.of_nat b < su_nb s -> Permutation (visits R_ops (shot_par s b) (pml_begin R_ops (shot_par s b) 2 (pw_of (su_pw s))) (pml_end R_ops (shot_par s b) 2 (pw_of (su_pw s)))) vis ->
  dev_run s vrg store (U, R, St) ->
  exists U1 R1 S1, shot_run s b vis vrg store' = Some (U1, R1, S1) /\ ueq R_ops (shot_par s b) (U (Z.of_nat b)) U1 /\
    dev_data c s b R = shot_data c s b R1.
Proof. exact (dev_shot c nd s). Qed.
Print Assumptions C68_device_is_cpu.

(** C68: shot [b] of an accepted call solves the wave equation for the user's model, grid spacing, PML and sources, from rest; the data are the
    wavefield at the user's receivers, resampled; the wavefields returned are those after the last step. *)
Theorem C68_device_solves c nd s : scalar_setup c nd = Some s -> forall b vrg store U R St,
  locs_whole nd [c_src c] -> locs_whole nd [c_rec c] -> rect (c_src c) -> rect (c_rec c) -> area_ok c nd -> c_freq c <> Some 0%R -> 0 < c_interval c ->
  (su_nt s = 0 \/ c_interval c * su_ratio s <= su_nt s) -> (nd <= 3)%nat /\ Forall (fun m => m < 2 ^ 31) (su_shape s) /\ su_nb s < 2 ^ 31 ->
  Z.of_nat b < su_nb s -> dev_run s vrg store (U, R, St) ->
  exists l a ps (W : nat -> st R_ops),
    c_src c = Some l /\ c_amps c = Some a /\ nth_error (lt_data l) b = Some ps /\ nth 1 (t_shape a) 0 = lt_count l /\
    (forall d x, s_wfc R_ops (W O) x = 0 /\ s_wfp R_ops (W O) x = 0 /\ s_psi R_ops (W O) d x = 0 /\ s_zeta R_ops (W O) d x = 0)%R /\
    (forall k, (k < steps c s)%nat -> wave_step (call_medium c nd (su_ratio s) (su_acc s) (su_vel s) (su_ext s) b) (call_source c (su_ratio s) ps a b k) (W k) (W (Datatypes.S k))) /\
    (forall lr qs j q, c_rec c = Some lr -> nth_error (lt_data lr) b = Some qs -> nth_error qs j = Some q ->
       nth_error (dev_data c s b R) j = Some (downsample (Z.to_nat (su_ratio s)) (c_ft c) (c_tp c) (c_taper c) 0%R
         (map (fun t => if (negb (coord 0 q =? IGNORE) && (t <? steps c s)%nat)%bool then s_wfc R_ops (W t) q else 0%R) (seq 0 (Z.to_nat (su_nt s)))))) /\
    (forall x, domain (call_medium c nd (su_ratio s) (su_acc s) (su_vel s) (su_ext s) b) x ->
       let q := map (fun d => coord d x - fst (nth d (su_ext s) (0, 0)) + nth (2 * d) (per_list (c_pw c) (2 * nd)) 0) (seq 0 nd) in
       s_wfc R_ops (U (Z.of_nat b)) q = s_wfc R_ops (W (steps c s)) x /\ s_wfp R_ops (U (Z.of_nat b)) q = s_wfp R_ops (W (steps c s)) x /\
       forall d, (d < nd)%nat -> s_psi R_ops (U (Z.of_nat b)) d q = s_psi R_ops (W (steps c s)) d x /\ s_zeta R_ops (U (Z.of_nat b)) d q = s_zeta R_ops (W (steps c s)) d x).
Proof. exact (dev_solves c nd s). Qed.
Print Assumptions C68_device_solves.

(** C68: the device runs an accepted call of at most 65535 shots whose grids CUDA accepts (65535 blocks in the second and third directions). *)
Theorem C68_runs c nd s : scalar_setup c nd = Some s -> forall vrg store, rect (c_src c) -> rect (c_rec c) -> 0 < c_interval c -> 0 < su_nb s < 2 ^ 16 ->
  let fd := fd_pad (su_acc s) in
  match su_shape s with
  | [nz; ny; nx] => 2 * fd < nx < 2 ^ 31 /\ 2 * fd < ny <= 2 * fd + 4 * 65535 /\ 2 * fd < nz <= 2 * fd + 65535
  | [ny; nx] => 2 * fd < nx < 2 ^ 31 /\ 2 * fd < ny <= 2 * fd + 4 * 65535
  | [nx] => 2 * fd < nx < 2 ^ 31
  | _ => False
  end -> exists out, dev_run s vrg store out.
Proof. exact (dev_exists c nd s). Qed.
Print Assumptions C68_runs.

(** The two shots on the line of forty cells of [UserEx], with eight cells around the locations: on the device the second shot has twelve steps of
    the wave equation, with the source in cell 18, and its first trace is the wavefield in cell 19. *)
Lemma exu_rect : rect (Some exu_src) /\ rect (Some exu_rec).
Proof. split; [exists 1%nat|exists 2%nat]; (split; [lia|repeat constructor]). Qed.
Example device_example store : exists s U R St (W : nat -> st R_ops), let c := exu (SPint 8) 1 in
  let m := call_medium c 1 (su_ratio s) (su_acc s) (su_vel s) (su_ext s) 1 in
  scalar_setup c 1 = Some s /\ su_shape s = [32] /\ dev_run s true store (U, R, St) /\ inner m [19%Z] /\
  (forall k, (k < 12)%nat -> s_wfc R_ops (W (Datatypes.S k)) [19%Z] =
     (2 * s_wfc R_ops (W k) [19%Z] - s_wfp R_ops (W k) [19%Z] + 1690 ^ 2 * md_dt m ^ 2 * (sumf (K := R_ops) [0%nat] (fun d => dx2 m d (s_wfc R_ops (W k)) [19%Z])
        - call_source c (su_ratio s) [[18%Z]] (mktens [2; 1; 4]%Z (fun p => IZR (1 + coord 0 p + coord 2 p))) 1 k [19%Z]))%R) /\
  nth_error (dev_data c s 1 R) 0 = Some (downsample 3 0 0 false 0%R (map (fun t => s_wfc R_ops (W t) [19]) (seq 0 12))).
Proof.
  destruct (exu_cut 1 ltac:(lia)) as (s & H & N & B & Q & X). destruct exu_whole as [W1 W2]. destruct exu_rect as [Q1 Q2].
  assert (Eacc : su_acc s = A2). { destruct (setup_parts _ _ _ H) as (_ & _ & _ & Hacc & _). cbn in Hacc. congruence. }
  assert (Epw : su_pw s = [3; 3]). { destruct (setup_parts _ _ _ H) as (_ & _ & _ & _ & Hw & _). cbn in Hw. congruence. }
  assert (Es : su_shape s = [32]). { rewrite (su_shape_eq _ _ _ H (exu_area _ _)), X, Epw. reflexivity. }
  destruct (C68_runs _ _ _ H true store Q1 Q2 Z.lt_0_1 ltac:(rewrite B; lia) ltac:(cbv zeta; rewrite Es, Eacc; cbn; lia)) as [[[U R] St] Hrun].
  assert (Hsz : (1 <= 3)%nat /\ Forall (fun m => m < 2 ^ 31) (su_shape s) /\ su_nb s < 2 ^ 31) by (rewrite Es, B; split; [lia|split; [repeat constructor; lia|lia]]).
  destruct (C68_device_solves _ _ _ H 1 true store U R St W1 W2 Q1 Q2 (exu_area _ _) (exu_freq _ _) Z.lt_0_1 ltac:(right; rewrite N, Q; cbn; lia) Hsz ltac:(rewrite B; cbn; lia) Hrun)
    as (l & a & ps & W & Hl & Ham & Hps & _ & _ & Hst & Hdat & _).
  injection Hl as <-. injection Ham as <-. injection Hps as <-.
  assert (Est : steps (exu (SPint 8) 1) s = 12%nat) by (unfold steps; rewrite N, Q; reflexivity). rewrite Est in Hst, Hdat.
  assert (Hin : inner (call_medium (exu (SPint 8) 1) 1 (su_ratio s) (su_acc s) (su_vel s) (su_ext s) 1) [19]).
  { split; [reflexivity|]. intros d Hd. cbn in Hd. assert (d = O) by lia. subst d. cbn [md_ext md_acc call_medium]. rewrite X, Eacc. cbn. lia. }
  exists s, U, R, St, W. cbv zeta. split; [exact H|]. split; [exact Es|]. split; [exact Hrun|]. split; [exact Hin|].
  assert (V : md_v (call_medium (exu (SPint 8) 1) 1 (su_ratio s) (su_acc s) (su_vel s) (su_ext s) 1) [19] = 1690%R) by (cbn; rewrite X; cbn; change (Z.min 19 (34 - 1)) with 19%Z; lra).
  split.
  - intros k Hk. rewrite (ws_inner _ _ _ _ (Hst k Hk) [19] Hin), V. reflexivity.
  - rewrite (Hdat exu_rec [[19]; [25]] O [19] eq_refl eq_refl eq_refl), N, Q. reflexivity.
Qed.
