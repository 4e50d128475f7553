(** * The scattered data that [scalar_born] returns are linear in the user's scattering potential. *)
From Coq Require Import List ZArith QArith Reals Lra Lia Bool Permutation.
From Verif Require Import Ops Sums Grid Stencil StencilOrder ScalarModel ScalarRefine ScalarForward ScalarFunc ScalarApi ScalarAdjoint ScalarGrad ScalarMore ScalarPhys ScalarReach ScalarEqs GeomModel Geom Geom2 GeomLocs SetupModel RealModel RealThm
  Resample ResampleThm EqsUser BornModel BornBack BornThm BornPy UserModel UserThm UserCrop UserMain UserEqs UserStagModel UserStag UserAcoustic UserStep UserBornModel UserRegular UserBorn UserUnique.
Import ListNotations.
Local Open Scope Z_scope.

Definition set_scatter (c : ncall) (m : tens R) : ncall := mkncall (n_v c) m (n_amps c) (n_src c) (n_bgrec c) (n_rec c) (n_opts c).

Section Lin.
Variables al be : R.
Notation lin x y := (al * x + be * y)%R.
Definition comb (r1 r2 : st R_ops) : st R_ops :=
  mkst R_ops (fun x => lin (s_wfc R_ops r1 x) (s_wfc R_ops r2 x)) (fun x => lin (s_wfp R_ops r1 x) (s_wfp R_ops r2 x))
    (fun d x => lin (s_psi R_ops r1 d x) (s_psi R_ops r2 d x)) (fun d x => lin (s_zeta R_ops r1 d x) (s_zeta R_ops r2 d x)).
Lemma dx1_lin m d f g x : dx1 m d (fun y => lin (f y) (g y)) x = lin (dx1 m d f x) (dx1 m d g x).
Proof. unfold dx1, D1. destruct (md_acc m); cbn; unfold Rdiv; ring. Qed.
Lemma dx2_lin m d f g x : dx2 m d (fun y => lin (f y) (g y)) x = lin (dx2 m d f x) (dx2 m d g x).
Proof. unfold dx2, D2. destruct (md_acc m); cbn; unfold Rdiv; ring. Qed.
Lemma stretched_lin m r1 r2 d x : stretched m (comb r1 r2) d x = lin (stretched m r1 d x) (stretched m r2 d x).
Proof.
  unfold stretched. cbn [comb s_wfc s_psi]. rewrite dx1_lin, dx2_lin.
  assert (E : dx1 m d (fun y => cpml_a m d (coord d y) * lin (s_psi R_ops r1 d y) (s_psi R_ops r2 d y))%R x
    = lin (dx1 m d (fun y => cpml_a m d (coord d y) * s_psi R_ops r1 d y)%R x) (dx1 m d (fun y => cpml_a m d (coord d y) * s_psi R_ops r2 d y)%R x)).
  { rewrite <- dx1_lin. unfold dx1, D1. apply (DIFF1_ext R_ops). intros k _ _. rring. }
  transitivity ((1 + cpml_b m d (coord d x)) * lin (dx2 m d (s_wfc R_ops r1) x) (dx2 m d (s_wfc R_ops r2) x) + cpml_db m d (coord d x) * lin (dx1 m d (s_wfc R_ops r1) x) (dx1 m d (s_wfc R_ops r2) x)
    + lin (dx1 m d (fun y => cpml_a m d (coord d y) * s_psi R_ops r1 d y)%R x) (dx1 m d (fun y => cpml_a m d (coord d y) * s_psi R_ops r2 d y)%R x))%R; [|ring].
  f_equal. exact E.
Qed.
Lemma sumf_lin l (f g h : nat -> R) : (forall d, In d l -> f d = lin (g d) (h d)) -> sumf (K := R_ops) l f = lin (sumf (K := R_ops) l g) (sumf (K := R_ops) l h).
Proof.
  intros H. rewrite <- !sumf_mul_l_R. rewrite (sumf_ext R_ops l f (fun d => lin (g d) (h d)) H). exact (sumf_add R_ops R_is_ring l (fun d => al * g d)%R (fun d => be * h d)%R).
Qed.
Lemma comb_step m sc sc1 sc2 q s s1 s2 t t1 t2 r r1 r2 u u1 u2 : (forall x, length x = md_nd m -> sc x = lin (sc1 x) (sc2 x)) ->
  weq (md_nd m) s s1 -> weq (md_nd m) s s2 -> weq (md_nd m) t t1 -> weq (md_nd m) t t2 -> weq (md_nd m) r (comb r1 r2) ->
  scatter_step m sc q s t r u -> scatter_step m sc1 q s1 t1 r1 u1 -> scatter_step m sc2 q s2 t2 r2 u2 -> weq (md_nd m) u (comb u1 u2).
Proof.
  intros Hsc S1 S2 T1 T2 H [P0 _ W0 A0 Z0 O0] [P1 _ W1 A1 Z1 O1] [P2 _ W2 A2 Z2 O2] x L. destruct (H x L) as (E1 & E2 & E3). cbn [comb s_wfc s_wfp s_psi s_zeta] in E1, E2, E3 |- *. rewrite P0, P1, P2. 
  destruct (domain_dec m x L) as [Hx|Hx].
  - assert (ES : forall d, (d < md_nd m)%nat -> stretched m r d x = lin (stretched m r1 d x) (stretched m r2 d x)) by (intros d Hd; rewrite (stretched_weq m r _ d x H Hd L); apply stretched_lin).
    assert (EZ : forall d, (d < md_nd m)%nat -> s_zeta R_ops u d x = lin (s_zeta R_ops u1 d x) (s_zeta R_ops u2 d x)).
    { intros d Hd. rewrite Z0, Z1, Z2 by assumption. rewrite (ES d Hd), (proj2 (E3 d Hd)). rring. }
    split; [|split; [exact E1|]].
    + rewrite (W0 x Hx), (W1 x Hx), (W2 x Hx), E1, E2, (Hsc x L).
      rewrite (sumf_lin _ (fun d => stretched m r d x + s_zeta R_ops u d x)%R (fun d => stretched m r1 d x + s_zeta R_ops u1 d x)%R (fun d => stretched m r2 d x + s_zeta R_ops u2 d x)%R)
        by (intros d Hd; apply in_seq in Hd; rewrite ES, EZ by lia; ring).
      assert (F1 : sumf (K := R_ops) (seq 0 (md_nd m)) (fun d => stretched m s1 d x + s_zeta R_ops t1 d x)%R = sumf (K := R_ops) (seq 0 (md_nd m)) (fun d => stretched m s d x + s_zeta R_ops t d x)%R).
      { apply sumf_ext. intros d Hd. apply in_seq in Hd. destruct (T1 x L) as (_ & _ & G). rewrite (stretched_weq m s s1 d x S1 ltac:(lia) L), (proj2 (G d ltac:(lia))). reflexivity. }
      assert (F2 : sumf (K := R_ops) (seq 0 (md_nd m)) (fun d => stretched m s2 d x + s_zeta R_ops t2 d x)%R = sumf (K := R_ops) (seq 0 (md_nd m)) (fun d => stretched m s d x + s_zeta R_ops t d x)%R).
      { apply sumf_ext. intros d Hd. apply in_seq in Hd. destruct (T2 x L) as (_ & _ & G). rewrite (stretched_weq m s s2 d x S2 ltac:(lia) L), (proj2 (G d ltac:(lia))). reflexivity. }
      rewrite F1, F2. rring.
    + intros d Hd. split; [|apply EZ, Hd]. rewrite A0, A1, A2 by assumption. rewrite (dx1_weq m d (s_wfc R_ops r) (s_wfc R_ops (comb r1 r2)) x L) by (intros y Hy; apply (H y Hy)).
      cbn [comb s_wfc]. rewrite dx1_lin, (proj1 (E3 d Hd)). rring.
  - destruct (O0 x L Hx) as [Q0 R0]. destruct (O1 x L Hx) as [Q1 R1]. destruct (O2 x L Hx) as [Q2 R2]. rewrite Q0, Q1, Q2. split; [rring|]. split; [exact E1|]. intros d Hd.
    destruct (R0 d Hd) as [-> ->]. destruct (R1 d Hd) as [-> ->]. destruct (R2 d Hd) as [-> ->]. split; rring.
Qed.
End Lin.

(** The setup depends on the scattering potential by the padded models only. *)
Lemma scatter_same c m nd s s' : born_setup c nd = Some s -> born_setup (set_scatter c m) nd = Some s' ->
  su_vel s' = su_vel s /\ su_ratio s' = su_ratio s /\ su_acc s' = su_acc s /\ su_nt s' = su_nt s /\ su_nb s' = su_nb s /\ su_ext s' = su_ext s /\ su_pw s' = su_pw s.
Proof.
  unfold born_setup. cbn [set_scatter n_v n_scatter n_amps n_src n_bgrec n_rec n_opts]. destruct (max_abs (n_v c)) as [vm|]; [|discriminate]. intros H G'.
  destruct (gs_parts _ _ _ _ _ _ _ _ _ _ _ H) as (B1 & B2 & B3 & B4 & B5 & _ & B7 & _ & _ & _ & B11 & _).
  destruct (gs_parts _ _ _ _ _ _ _ _ _ _ _ G') as (C1 & C2 & C3 & C4 & C5 & _ & C7 & _ & _ & _ & C11 & _).
  destruct (gs_run _ _ _ _ _ _ _ _ _ _ _ H) as (_ & _ & _ & BE & _). destruct (gs_run _ _ _ _ _ _ _ _ _ _ _ G') as (_ & _ & _ & CE & _). cbn [hd] in BE, CE.
  assert (E1 : su_vel s' = su_vel s) by congruence. assert (E2 : su_gs s' = su_gs s) by congruence. rewrite E1, E2 in C3. assert (E3 : su_ratio s' = su_ratio s) by congruence.
  rewrite E3 in C7. repeat split; congruence.
Qed.
Lemma scatter_linear al be c m1 m2 nd s s1 s2 b vis vrg srg w0 wsc0 vis1 vrg1 srg1 w1 wsc1 vis2 vrg2 srg2 w2 wsc2 B B1 B2 :
  t_shape m1 = t_shape (n_scatter c) -> t_shape m2 = t_shape (n_scatter c) -> (forall p, t_at (n_scatter c) p = al * t_at m1 p + be * t_at m2 p)%R ->
  born_setup c nd = Some s -> born_setup (set_scatter c m1) nd = Some s1 -> born_setup (set_scatter c m2) nd = Some s2 ->
  let src := [n_src c; n_src c] in let rec := [n_bgrec c; n_rec c] in
  locs_whole nd src -> locs_whole nd rec -> some_area (n_opts c) nd src rec -> o_freq (n_opts c) <> Some 0%R ->
  0 < o_interval (n_opts c) -> (su_nt s = 0 \/ o_interval (n_opts c) * su_ratio s <= su_nt s) -> Z.of_nat b < su_nb s ->
  fvis R_ops (born_par s b) (pw_of (su_pw s)) vis -> fvis R_ops (born_par s1 b) (pw_of (su_pw s1)) vis1 -> fvis R_ops (born_par s2 b) (pw_of (su_pw s2)) vis2 ->
  born_run s b vis vrg srg w0 wsc0 = Some B -> born_run s1 b vis1 vrg1 srg1 w1 wsc1 = Some B1 -> born_run s2 b vis2 vrg2 srg2 w2 wsc2 = Some B2 ->
  let D := born_data c s b B in let D1 := born_data (set_scatter c m1) s1 b B1 in let D2 := born_data (set_scatter c m2) s2 b B2 in
  length D1 = length D /\ length D2 = length D /\
  forall j, length (nth j D1 []) = length (nth j D []) /\ length (nth j D2 []) = length (nth j D []) /\
    forall t, nth t (nth j D []) 0%R = (al * nth t (nth j D1 []) 0 + be * nth t (nth j D2 []) 0)%R.
Proof.
  intros M1 M2 HM Hs Hs1 Hs2 src rec W1 W2 Ha Hf Hi Hn Hb Hv Hv1 Hv2 HB HB1 HB2 D D1 D2.
  destruct (scatter_same c m1 nd s s1 Hs Hs1) as (X1 & X2 & X3 & X4 & X5 & X6 & _). destruct (scatter_same c m2 nd s s2 Hs Hs2) as (Y1 & Y2 & Y3 & Y4 & Y5 & Y6 & _).
  destruct (born_solves_user c nd s b vis vrg srg w0 wsc0 Hs W1 W2 Ha Hf Hi Hn Hb Hv) as (B' & W & V & E0 & WZ & VZ & WS & _ & (DL & DD) & _). rewrite HB in E0. injection E0 as <-.
  destruct (born_solves_user (set_scatter c m1) nd s1 b vis1 vrg1 srg1 w1 wsc1 Hs1 W1 W2 Ha Hf Hi ltac:(rewrite X2, X4; exact Hn) ltac:(rewrite X5; exact Hb) Hv1) as (B' & Wa & Va & E0 & WZa & VZa & WSa & _ & (DLa & DDa) & _).
  rewrite HB1 in E0. injection E0 as <-.
  destruct (born_solves_user (set_scatter c m2) nd s2 b vis2 vrg2 srg2 w2 wsc2 Hs2 W1 W2 Ha Hf Hi ltac:(rewrite Y2, Y4; exact Hn) ltac:(rewrite Y5; exact Hb) Hv2) as (B' & Wb & Vb & E0 & WZb & VZb & WSb & _ & (DLb & DDb) & _).
  rewrite HB2 in E0. injection E0 as <-.
  set (n := ksteps (n_opts c) s) in *. set (m := born_medium c nd s b) in *.
  assert (N1 : ksteps (n_opts (set_scatter c m1)) s1 = n) by (unfold n, ksteps; rewrite X2, X4; reflexivity). assert (N2 : ksteps (n_opts (set_scatter c m2)) s2 = n) by (unfold n, ksteps; rewrite Y2, Y4; reflexivity).
  assert (Q1 : born_medium (set_scatter c m1) nd s1 b = m) by (unfold m, born_medium; rewrite X1, X2, X3, X6; reflexivity). assert (Q2 : born_medium (set_scatter c m2) nd s2 b = m) by (unfold m, born_medium; rewrite Y1, Y2, Y3, Y6; reflexivity).
  assert (F1 : forall k, born_source (set_scatter c m1) s1 b k = born_source c s b k) by (intros k; unfold born_source; rewrite X2; reflexivity).
  assert (F2 : forall k, born_source (set_scatter c m2) s2 b k = born_source c s b k) by (intros k; unfold born_source; rewrite Y2; reflexivity).
  rewrite N1, Q1 in *. rewrite N2, Q2 in *.
  assert (SC : forall x, born_scatter c nd s b x = (al * born_scatter (set_scatter c m1) nd s1 b x + be * born_scatter (set_scatter c m2) nd s2 b x)%R).
  { intros x. unfold born_scatter, scatter_at. cbn [set_scatter n_scatter]. rewrite X6, Y6, M1, M2. destruct (inb (su_ext s) x); [|ring]. destruct (_ =? nd)%nat; rewrite HM; reflexivity. }
  assert (WQ : forall k, (k <= n)%nat -> weq nd (W k) (Wa k) /\ weq nd (W k) (Wb k) /\ weq nd (V k) (comb al be (Va k) (Vb k))).
  { induction k as [|k IH]; intros Hk.
    - split; [|split]; intros x Hx; cbn [comb s_wfc s_wfp s_psi s_zeta].
      + destruct (WZ O x) as (-> & -> & _). destruct (WZa O x) as (-> & -> & _). split; [reflexivity|]. split; [reflexivity|]. intros d Hd. destruct (WZ d x) as (_ & _ & -> & ->). destruct (WZa d x) as (_ & _ & -> & ->). split; reflexivity.
      + destruct (WZ O x) as (-> & -> & _). destruct (WZb O x) as (-> & -> & _). split; [reflexivity|]. split; [reflexivity|]. intros d Hd. destruct (WZ d x) as (_ & _ & -> & ->). destruct (WZb d x) as (_ & _ & -> & ->). split; reflexivity.
      + destruct (VZ O x) as (-> & -> & _). destruct (VZa O x) as (-> & -> & _). destruct (VZb O x) as (-> & -> & _). split; [rring|]. split; [rring|]. intros d Hd.
        destruct (VZ d x) as (_ & _ & -> & ->). destruct (VZa d x) as (_ & _ & -> & ->). destruct (VZb d x) as (_ & _ & -> & ->). split; rring.
    - destruct (IH ltac:(lia)) as (I1 & I2 & I3). destruct (WS k ltac:(lia)) as [K1 K2]. destruct (WSa k ltac:(lia)) as [L1 L2]. destruct (WSb k ltac:(lia)) as [P1 P2]. rewrite F1 in L1, L2. rewrite F2 in P1, P2.
      pose proof (wave_step_unique m _ _ _ _ _ I1 K1 L1) as J1. pose proof (wave_step_unique m _ _ _ _ _ I2 K1 P1) as J2. split; [exact J1|]. split; [exact J2|].
      exact (comb_step al be m _ _ _ _ _ _ _ _ _ _ _ _ _ _ _ _ (fun x _ => SC x) I1 I2 J1 J2 I3 K2 L2 P2). }
  split; [unfold D1, D; rewrite DLa, DL; reflexivity|]. split; [unfold D2, D; rewrite DLb, DL; reflexivity|].
  assert (LD : length D1 = length D /\ length D2 = length D) by (unfold D1, D2, D; rewrite DLa, DLb, DL; split; reflexivity). destruct LD as [LD1 LD2].
  intros j. destruct (Nat.lt_ge_cases j (length D)) as [Hj|Hj]; [|rewrite !nth_overflow by lia; cbn; repeat split; intros [|t]; ring].
  pose proof Hj as Lj. unfold D in Lj. rewrite DL in Lj. destruct (n_rec c) as [lr|] eqn:Er; [|cbn in Lj; lia].
  destruct (nth_error (lt_data lr) b) as [qs|] eqn:Eq; [|rewrite nth_overflow in Lj by (apply nth_error_None; exact Eq); cbn in Lj; lia].
  rewrite (nth_error_nth _ _ _ Eq) in Lj. destruct (nth_error qs j) as [q|] eqn:Ez; [|apply nth_error_None in Ez; lia].
  pose proof (DD lr qs j q eq_refl Eq Ez) as T0. pose proof (DDa lr qs j q Er Eq Ez) as T1. pose proof (DDb lr qs j q Er Eq Ez) as T2.
  unfold D, D1, D2. rewrite (nth_error_nth _ _ _ T0), (nth_error_nth _ _ _ T1), (nth_error_nth _ _ _ T2). unfold trace_at. rewrite X2, X4, Y2, Y4. cbn [set_scatter n_opts].
  apply downsample_linear. apply lc_mk. intros t Ht. destruct (negb (coord 0 q =? IGNORE) && (t <? n)%nat)%bool eqn:Eb; [|ring]. apply andb_prop in Eb. destruct Eb as [_ Et]. apply Nat.ltb_lt in Et.
  destruct (WQ t ltac:(lia)) as (_ & _ & G). apply (G q).
  destruct (W2 1%nat b j q) as [[Lq _]|[Lq _]]; [unfold loc3; cbn; rewrite ?Er, Eq; exact Ez|exact Lq..].
Qed.

(** ** The internal time step *)
Lemma born_step_user c nd s : born_setup c nd = Some s ->
  (su_dt s * IZR (su_ratio s) = o_dt (n_opts c))%R /\ 1 <= su_ratio s /\
  (Rabs (su_dt s) <= 6 / 10 / (sqrt (fold_right (fun g x => 1 / (g ^ 2) + x) 0 (per_list (o_gs (n_opts c)) nd)) * su_vel s))%R /\
  (forall v, o_max_vel (n_opts c) = Some v -> su_vel s = Rabs v) /\
  (o_max_vel (n_opts c) = None -> forall p, inb (abox (t_shape (n_v c))) p = true -> Rabs (t_at (n_v c) p) <= su_vel s)%R.
Proof.
  intros H. unfold born_setup in H. destruct (max_abs (n_v c)) as [vm|] eqn:Em; [|discriminate].
  destruct (gs_parts _ _ _ _ _ _ _ _ _ _ _ H) as (_ & Hg & Hc & _ & _ & _ & _ & _ & _ & _ & Hv & _).
  apply cfl_thm in Hc; [|unfold cfl_eps; lra|unfold cfl_c_max; lra]. destruct Hc as (_ & _ & _ & _ & R1 & I1 & _ & B & _).
  apply set_grid_spacing_spec in Hg. destruct Hg as (_ & _ & Hg). split; [exact I1|]. split; [exact R1|]. split; [rewrite <- Hg; unfold cfl_c_max in B; exact B|].
  split; [intros v Hn|intros Hn]; unfold set_max_vel in Hv; rewrite Hn in Hv; [destruct (rle _ _) in Hv; [discriminate|]; congruence|]. assert (E : su_vel s = vm) by congruence. rewrite E.
  intros p Hp. exact (max_of_ge (elems (n_v c)) vm Em _ (in_map _ _ _ (proj2 (In_box_pts _ _) Hp))).
Qed.
