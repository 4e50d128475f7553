(** * What [elastic] returns, in terms of the user's arguments. *)
From Coq Require Import List ZArith QArith Qreals Reals Lra Lia Bool Permutation.
From Verif Require Import Ops Sums Grid Stencil StencilOrder ScalarModel ScalarRefine ScalarFunc ScalarApi GeomModel Geom Geom2 GeomLocs SetupModel RealModel RealThm Resample ResampleThm
  Stag StagKernel StagRefine StagEqs EqsUser ElasticModel ElasticThm StagSetup UserModel UserThm UserCrop UserEqs UserStagModel UserStag UserAcoustic.
Import ListNotations.
Local Open Scope Z_scope.

(** ** Specification *)
(** Density; buoyancy between [x] and the next cell along [d]: [buoyancy_at] of the density. *)
Definition density_at (rfmax : R) (bu : pt -> R) (x : pt) : R := if Rlt_dec rfmax (Rabs (bu x)) then (/ bu x)%R else 0%R.
(** Shear modulus in the middle of four cells: their harmonic mean, or zero. *)
Definition shear_at (rfmax : R) (mu : pt -> R) (i j : nat) (x : pt) : R :=
  let big y := if Rlt_dec rfmax (Rabs (mu y)) then true else false in
  if (big x && big (shift i 1 x) && big (shift j 1 x) && big (shift j 1 (shift i 1 x)))%bool
  then (4 / (/ mu x + / mu (shift i 1 x) + / mu (shift j 1 x) + / mu (shift j 1 (shift i 1 x))))%R else 0%R.
(** One step [W -> W'] of dv_i/dt = b_i (f_i + sum_j d_j sigma_ij), dsigma_ii/dt = lambda div v + 2 mu d_i v_i - q,
    dsigma_ij/dt = mu_ij (d_i v_j + d_j v_i) on a staggered grid in a box with PML; [f CP] is q. *)
Record elastic_step (nd : nat) (g : grid) (rfmax : R) (la mu bu : pt -> R) (f : eC -> pt -> R) (W W' : sst (el_sys nd) R_ops) : Prop := {
  es_mv : forall i j x, (i < nd)%nat -> (j < nd)%nat -> gcells g (on_v i) x ->
    me W' (DS i j) x = (gpml_b g j (gpos (Nat.eqb i j) j x) * gdx g (Nat.eqb i j) j (stress W i j) x + gpml_a g j (gpos (Nat.eqb i j) j x) * me W (DS i j) x)%R;
  es_v : forall i x, (i < nd)%nat -> gcells g (on_v i) x ->
    mn W' (VL i) x = (mn W (VL i) x + gr_dt g * buoyancy_at rfmax (density_at rfmax bu) i x *
      (f (CV i) x + sumf (K := R_ops) (seq 0 nd) (fun j => gdx g (Nat.eqb i j) j (stress W i j) x + me W' (DS i j) x)))%R;
  es_ms : forall i j x, (i < nd)%nat -> (j < nd)%nat -> gcells g (on_s i j) x ->
    me W' (DV i j) x = (gpml_b g j (gpos (negb (Nat.eqb i j)) j x) * gdx g (negb (Nat.eqb i j)) j (mn W' (VL i)) x + gpml_a g j (gpos (negb (Nat.eqb i j)) j x) * me W (DV i j) x)%R;
  es_n : forall i x, (i < nd)%nat -> gcells g (fun _ => false) x ->
    let strain l := (gdx g false l (mn W' (VL l)) x + me W' (DV l l) x)%R in
    mn W' (Sg i i) x = (mn W (Sg i i) x + gr_dt g * (la x * sumf (K := R_ops) (seq 0 nd) strain + 2 * mu x * strain i - f CP x))%R;
  es_s : forall i j x, (i < j < nd)%nat -> gcells g (on_s i j) x ->
    mn W' (Sg i j) x = (mn W (Sg i j) x + gr_dt g * shear_at rfmax mu i j x *
      ((gdx g true j (mn W' (VL i)) x + me W' (DV i j) x) + (gdx g true i (mn W' (VL j)) x + me W' (DV j i) x)))%R;
  (** without PML in the box *)
  es_v_box : forall i x, (i < nd)%nat -> gcells g (on_v i) x -> (forall j, (j < nd)%nat -> fst (gr_ext g j) <= coord j x < snd (gr_ext g j) - (if Nat.eqb i j then 1 else 0)) ->
    mn W' (VL i) x = (mn W (VL i) x + gr_dt g * buoyancy_at rfmax (density_at rfmax bu) i x * (f (CV i) x + sumf (K := R_ops) (seq 0 nd) (fun j => gdx g (Nat.eqb i j) j (stress W i j) x)))%R;
  es_n_box : forall i x, (i < nd)%nat -> gcells g (fun _ => false) x -> (forall j, (j < nd)%nat -> fst (gr_ext g j) <= coord j x < snd (gr_ext g j)) ->
    mn W' (Sg i i) x = (mn W (Sg i i) x + gr_dt g * (la x * sumf (K := R_ops) (seq 0 nd) (fun l => gdx g false l (mn W' (VL l)) x) + 2 * mu x * gdx g false i (mn W' (VL i)) x - f CP x))%R;
  es_s_box : forall i j x, (i < j < nd)%nat -> gcells g (on_s i j) x -> (forall d, d = i \/ d = j -> fst (gr_ext g d) <= coord d x < snd (gr_ext g d) - 1) ->
    mn W' (Sg i j) x = (mn W (Sg i j) x + gr_dt g * shear_at rfmax mu i j x * (gdx g true j (mn W' (VL i)) x + gdx g true i (mn W' (VL j)) x))%R;
  (** zero outside *)
  es_out : forall x, length x = nd -> (forall i, (i < nd)%nat -> ~ gcells g (on_v i) x -> mn W' (VL i) x = 0%R) /\
                                      (forall i j, (i <= j < nd)%nat -> ~ gcells g (on_s i j) x -> mn W' (Sg i j) x = 0%R)
}.
Definition ecall_grid (c : ecall) (nd : nat) (s : setup) : grid := opts_grid (e_opts c) nd (su_ratio s) (su_acc s) (su_vel s) (su_ext s).
(** What a receiver of each kind measures. *)
Definition measured (nd : nat) (k : eC) (W : sst (el_sys nd) R_ops) (x : pt) : R :=
  match k with CV d => mn W (VL d) x | CP => (- sumf (K := R_ops) (seq 0 nd) (fun i => mn W (Sg i i) x) / INR nd)%R end.

(** ** Proofs *)
Lemma map_scal_lc (c : R) x : lc c 0 (map (Rmult c) x) x x.
Proof. unfold lc. rewrite map_length. repeat split; try lia. intros j. pose proof (map_nth (Rmult c) x 0%R j) as Q. rewrite Rmult_0_r in Q. rewrite Q. lra. Qed.
Lemma downsample_scal r ft tp tt c x : downsample r ft tp tt 0%R (map (Rmult c) x) = map (Rmult c) (downsample r ft tp tt 0%R x).
Proof.
  pose proof (downsample_linear c 0 r ft tp tt 0%R _ _ _ (map_scal_lc c x)) as (L1 & L2 & H). apply (nth_ext _ _ 0%R 0%R); [rewrite map_length; lia|].
  intros j Hj. rewrite H. pose proof (map_nth (Rmult c) (downsample r ft tp tt 0%R x) 0%R j) as Q. rewrite Rmult_0_r in Q. rewrite Q. lra.
Qed.
Lemma data_scaled o s k b r c : map (map (Rmult c)) (kind_data o s k b r) = kind_data o s k b (fun t => map (Rmult c) (r t)).
Proof.
  unfold kind_data. rewrite map_map. apply map_ext. intros j. rewrite <- downsample_scal, map_map. f_equal. apply map_ext. intros t.
  rewrite <- (map_nth (Rmult c)). rewrite Rmult_0_r. reflexivity.
Qed.
Lemma oq_nd nd : (0 < nd)%nat -> oq R_ops (1 # Pos.of_nat nd) = (/ INR nd)%R.
Proof.
  intros H. cbn. unfold Q2R. cbn. rewrite Rmult_1_l. f_equal. rewrite INR_IZR_INZ. f_equal. destruct nd; [lia|]. lia.
Qed.

Section El.
Variables (c : ecall) (nd : nat) (s : setup) (b : nat) (rfmax : R).
Hypothesis Hset : elastic_setup c nd = Some s.
Notation src := (map (e_src c) (el_allC nd)).
Notation rec := (map (e_rec c) (el_allC nd)).
Notation G := (ecall_grid c nd s).
Notation S := (el_sys nd).
Notation P := (elastic_par nd s b).
Notation rl := (rel (su_ext s) (sum_pad (stag_fdp (o_accuracy (e_opts c)) nd) (su_pw s))).
Lemma el_Hs : exists vmin vmax nw, stag_setup [e_lamb c; e_mu c; e_buoy c] (e_opts c) (map (e_amps c) (el_allC nd)) src rec vmin vmax nw nd = Some s.
Proof.
  pose proof Hset as H. unfold elastic_setup in H. destruct (negb _) in H; [discriminate|]. destruct (max_of _) as [vp|] in H; [|discriminate]. destruct (max_of _) as [vs|] in H; [|discriminate].
  do 3 eexists. exact H.
Qed.
Lemma el_half d : (d < nd)%nat -> half_ok (e_lamb c) nd d (e_src c (CV d)) = true /\ half_ok (e_lamb c) nd d (e_rec c (CV d)) = true.
Proof.
  intros Hd. pose proof Hset as H. unfold elastic_setup in H. destruct (forallb _ _) eqn:E in H; [|discriminate].
  rewrite forallb_forall in E. specialize (E d ltac:(apply in_seq; lia)). apply andb_prop in E. exact E.
Qed.
Lemma In_elC k : In k (el_allC nd) <-> match k with CP => True | CV d => (d < nd)%nat end.
Proof.
  unfold el_allC. rewrite in_app_iff, in_map_iff. cbn [In]. split.
  - intros [(d & <- & H)|[<-|[]]]; [apply in_seq in H; lia|exact I].
  - destruct k as [d|]; intros H; [left; exists d; split; [reflexivity|apply in_seq; lia]|right; left; reflexivity].
Qed.
Lemma el_nth {A} (f : eC -> A) k : In k (el_allC nd) -> nth_error (map f (el_allC nd)) (el_pos nd k) = Some (f k).
Proof.
  intros Hk. apply map_nth_error. apply In_elC in Hk. unfold el_allC. destruct k as [d|]; cbn.
  - rewrite nth_error_app1 by (rewrite map_length, seq_length; exact Hk). rewrite nth_error_map, nth_error_seq_lt by exact Hk. reflexivity.
  - rewrite nth_error_app2 by (rewrite map_length, seq_length; lia). rewrite map_length, seq_length, Nat.sub_diag. reflexivity.
Qed.
Lemma el_loc3 (f : eC -> option loct) k j : In k (el_allC nd) -> loc3 (map f (el_allC nd)) (el_pos nd k) b j = loc3 [f k] 0 b j.
Proof. intros Hk. unfold loc3. rewrite (el_nth f k Hk). reflexivity. Qed.

Hypothesis W1 : locs_whole nd src.
Hypothesis W2 : locs_whole nd rec.
Hypothesis Ha : some_area (e_opts c) nd src rec.
Hypothesis Hf : o_freq (e_opts c) <> Some 0%R.
(** The check of the locations is sufficient for the whole model and if there is a PML. *)
Lemma el_half_inside d : (d < nd)%nat -> (o_sp (e_opts c) = SPnone \/ 0 < nth (2 * d + 1) (per_list (o_pw (e_opts c)) (2 * nd)) 0) ->
  half_inside G (e_src c (CV d)) b d /\ half_inside G (e_rec c (CV d)) b d.
Proof.
  intros Hd Hc. destruct el_Hs as (vmn & vmx & nw & Hs). destruct (el_half d Hd) as [H1 H2].
  assert (X : forall w : bool, half_ok (e_lamb c) nd d ((if w then e_src c else e_rec c) (CV d)) = true -> half_inside G ((if w then e_src c else e_rec c) (CV d)) b d).
  { intros w Hh j p Hl Hp. change (gr_nd G) with nd in Hp. pose proof (g_pw Hs d) as PWE. fold G in PWE.
    assert (P0 := gs_pw Hs d). change (snd (gr_ext G d)) with (snd (nth d (su_ext s) (0, 0))).
    assert (L3 : loc3 (if w then src else rec) (el_pos nd (CV d)) b j = Some p).
    { rewrite <- Hl. destruct w; apply el_loc3; apply In_elC; exact Hd. }
    destruct Hc as [Hc|Hc].
    - rewrite PWE, (gs_whole Hs d Hd Hc). cbn [hd]. unfold half_ok in Hh. unfold loc3 in Hl. cbn in Hl. destruct ((if w then e_src c else e_rec c) (CV d)) as [l|]; [|discriminate].
      destruct (nth_error (lt_data l) b) as [ps|] eqn:Eb; [|discriminate].
      assert (In (coord d p) (dim_locs d l)).
      { unfold dim_locs. apply filter_In. split.
        - apply in_map, in_concat. exists ps. split; [apply (nth_error_In _ _ Eb)|apply (nth_error_In _ _ Hl)].
        - destruct Hp as [_ Hp]. specialize (Hp d Hd). apply negb_true_iff, Z.eqb_neq. exact Hp. }
      destruct (lmax (dim_locs d l)) as [m|] eqn:Em; [|destruct (dim_locs d l); [contradiction|discriminate]].
      apply lmax_spec in Em. destruct Em as [_ Em]. specialize (Em _ H). apply Z.ltb_lt in Hh. lia.
    - destruct (kloc_at Hs Ha b w _ _ _ L3 Hp) as (_ & _ & Q). specialize (Q d Hd). change (snd (gr_pw G d)) with (nth (2 * d + 1) (per_list (o_pw (e_opts c)) (2 * nd)) 0). lia. }
  split; [exact (X true H1)|exact (X false H2)].
Qed.

Hypothesis Hin : forall d, (d < nd)%nat -> half_inside G (e_src c (CV d)) b d /\ half_inside G (e_rec c (CV d)) b d.
Lemma el_locs : locs_ok S R_ops P (sp_src P) /\ locs_ok S R_ops P (sp_rec P).
Proof.
  destruct el_Hs as (vmn & vmx & nw & Hs).
  assert (X : forall (w : bool) k, In k (allC S) -> Forall (sloc_ok S R_ops P k) (kind_row (if w then su_src s else su_rec s) (el_pos nd k) b)).
  { intros w k Hk. apply (k_sloc Hs Ha S (el_pos nd) b W1 W2). intros x Hx Hc w' j p Hl Hp d Hd Hh.
    assert (Hk' : In k (el_allC nd)) by exact Hk.
    destruct k as [e|], x as [e'|i i']; cbn in Hc; try discriminate.
    - apply Nat.eqb_eq in Hc. subst e'. cbn in Hh. apply Nat.eqb_eq in Hh. subst e.
      destruct (Hin d Hd) as [I1 I2]. pose proof (g_pw Hs d) as PWE. fold G in PWE. rewrite <- PWE. destruct w'.
      + rewrite (el_loc3 (e_src c) (CV d) j Hk') in Hl. exact (I1 j p Hl Hp).
      + rewrite (el_loc3 (e_rec c) (CV d) j Hk') in Hl. exact (I2 j p Hl Hp).
    - cbn in Hh. rewrite Hc in Hh. discriminate. }
  split; intros k Hk; [exact (X true k Hk)|exact (X false k Hk)].
Qed.

Hypothesis Hb : Z.of_nat b < su_nb s.
Definition el_user (W : sst S R_ops) : sst S R_ops := @mksst S R_ops (fun x p => mn W x (rl p)) (fun e p => me W e (rl p)).
Notation la := (model_at nd (su_ext s) (e_lamb c) b).
Notation mu := (model_at nd (su_ext s) (e_mu c) b).
Notation bu := (model_at nd (su_ext s) (e_buoy c) b).
Lemma el_mval k m x h : nth_error [e_lamb c; e_mu c; e_buoy c] k = Some m -> gcells G h x -> kind_model s k b (idx (su_shape s) (rl x)) = model_at nd (su_ext s) m b x.
Proof.
  intros Hk Hx. destruct el_Hs as (vmn & vmx & nw & Hs). exact (k_model Hs Ha b k m x Hb Hk (proj1 Hx) (g_arr Hs Ha h x Hx)).
Qed.
Lemma cells_next h x d : (d < nd)%nat -> h d = true -> gcells G h x -> gcells G (fun e => h e && negb (Nat.eqb e d))%bool (shift d 1 x).
Proof.
  intros Hd Hh [L Hx]. change (gr_nd G) with nd in *. split; [rewrite shift_length; exact L|]. intros e He. specialize (Hx e He). destruct (Nat.eq_dec d e) as [->|N].
  - rewrite coord_shift_same by lia. rewrite Nat.eqb_refl. rewrite Hh in Hx. cbn [negb andb]. rewrite andb_false_r. lia.
  - rewrite coord_shift_other by exact N. destruct (Nat.eqb_spec e d); [congruence|]. cbn [negb]. rewrite andb_true_r. exact Hx.
Qed.
Lemma cells_room h x d : (d < nd)%nat -> h d = true -> gcells G h x -> (coord d (rl x) + 1 <? nth d (su_shape s) 0) = true.
Proof.
  intros Hd Hh Hx. destruct el_Hs as (vmn & vmx & nw & Hs). pose proof (g_arr Hs Ha _ _ (cells_next h x d Hd Hh Hx)) as A. apply inb_abox in A. destruct A as [_ A]. rewrite (gs_rank Hs Ha) in A. specialize (A d Hd).
  rewrite (krl_shift Hs d 1 x (proj1 Hx) Hd), coord_shift_same in A by (rewrite (krl_length Hs); exact Hd). apply Z.ltb_lt. lia.
Qed.
Lemma safe_inv_spec x : safe_inv rfmax x = if Rlt_dec rfmax (Rabs x) then (/ x)%R else 0%R.
Proof. unfold safe_inv, above_rfmax. destruct (Rlt_dec _ _); [apply Rmult_1_l|reflexivity]. Qed.
Lemma el_b x d : (d < nd)%nat -> gcells G (on_v d) x -> elastic_models rfmax s b (EB d) (idx (su_shape s) (rl x)) = buoyancy_at rfmax (density_at rfmax bu) d x.
Proof.
  intros Hd Hx. destruct el_Hs as (vmn & vmx & nw & Hs). pose proof (g_arr Hs Ha _ x Hx) as A.
  pose proof (cells_next _ x d Hd (Nat.eqb_refl d) Hx) as Hx'.
  unfold elastic_models, prepare_parameters, buoyancy_at. rewrite unidx_idx by exact A. rewrite safe_inv_spec.
  assert (M : mean_next (su_shape s) (fun p => safe_inv rfmax (at_pt (su_shape s) (kind_model s 2 b) p)) d (rl x) = ((density_at rfmax bu x + density_at rfmax bu (shift d 1 x)) / 2)%R).
  { unfold mean_next, at_pt. rewrite <- (krl_shift Hs d 1 x (proj1 Hx) Hd). rewrite (cells_room _ x d Hd (Nat.eqb_refl d) Hx), !safe_inv_spec.
    rewrite (el_mval 2 (e_buoy c) x _ eq_refl Hx), (el_mval 2 (e_buoy c) _ _ eq_refl Hx'). reflexivity. }
  rewrite M. reflexivity.
Qed.
Lemma el_mu x i j : (i < j < nd)%nat -> gcells G (on_s i j) x -> elastic_models rfmax s b (MS i j) (idx (su_shape s) (rl x)) = shear_at rfmax mu i j x.
Proof.
  intros Hij Hx. destruct el_Hs as (vmn & vmx & nw & Hs). pose proof (g_arr Hs Ha _ x Hx) as A.
  assert (Hi : on_s i j i = true) by (unfold on_s; destruct (Nat.eqb_spec i j); [lia|]; rewrite Nat.eqb_refl; reflexivity).
  assert (Hj : on_s i j j = true) by (unfold on_s; destruct (Nat.eqb_spec i j); [lia|]; rewrite Nat.eqb_refl, orb_true_r; reflexivity).
  pose proof (cells_next _ x i ltac:(lia) Hi Hx) as Xi. pose proof (cells_next _ x j ltac:(lia) Hj Hx) as Xj.
  assert (Xij := cells_next (fun e => on_s i j e && negb (Nat.eqb e i))%bool (shift i 1 x) j ltac:(lia) ltac:(cbn beta; rewrite Hj; destruct (Nat.eqb_spec j i); [lia|reflexivity]) Xi).
  assert (L : length x = nd) by apply Hx.
  unfold elastic_models, prepare_parameters. rewrite unidx_idx by exact A. unfold mu_mean. rewrite (cells_room _ x i ltac:(lia) Hi Hx), (cells_room _ x j ltac:(lia) Hj Hx). cbn [andb].
  unfold four, mu_safe, at_pt. rewrite <- (krl_shift Hs i 1 x L ltac:(lia)), <- (krl_shift Hs j 1 x L ltac:(lia)), <- (krl_shift Hs j 1 (shift i 1 x) ltac:(rewrite shift_length; exact L) ltac:(lia)).
  cbn [forallb fold_right]. rewrite (el_mval 1 (e_mu c) x _ eq_refl Hx), (el_mval 1 (e_mu c) _ _ eq_refl Xi), (el_mval 1 (e_mu c) _ _ eq_refl Xj), (el_mval 1 (e_mu c) _ _ eq_refl Xij).
  unfold shear_at, above_rfmax. cbv zeta.
  destruct (Rlt_dec rfmax (Rabs (mu x))) as [R1|R1], (Rlt_dec rfmax (Rabs (mu (shift i 1 x)))) as [R2|R2], (Rlt_dec rfmax (Rabs (mu (shift j 1 x)))) as [R3|R3], (Rlt_dec rfmax (Rabs (mu (shift j 1 (shift i 1 x))))) as [R4|R4]; cbn [andb]; try reflexivity.
  unfold Rdiv. f_equal. f_equal. rewrite !Rmult_1_l. ring.
Qed.
Lemma el_step_user (W W' : sst S R_ops) t :
  elastic_eqs nd R_ops P (su_dt s) (elastic_models rfmax s b) (el_src (K := R_ops) P (su_dt s) (elastic_models rfmax s b) (fun k => kind_amps s (el_pos nd k) b (Z.of_nat t))) W W' ->
  elastic_step nd G rfmax la mu bu (fun k => source_at (e_opts c) (su_ratio s) (e_src c k) (e_amps c k) b t) (el_user W) (el_user W').
Proof.
  intros [Emv Ev Ems En Es Eout]. destruct el_Hs as (vmn & vmx & nw & Hs).
  assert (DT : gr_dt G = su_dt s) by exact (g_dt Hs Ha).
  assert (DE : forall half d (f : pt -> R) x, length x = nd -> (d < nd)%nat -> gdx G half d (fun p => f (rl p)) x = deriv P half d f (rl x)).
  { intros half d f x L Hd. apply (g_deriv Hs Ha S (el_pos nd) b); [exact L|exact Hd|reflexivity]. }
  assert (ST : forall i j, stress (el_user W) i j = (fun p => stress W i j (rl p))) by (intros i j; unfold stress; destruct (i <=? j)%nat; reflexivity).
  assert (PR : forall half d x, (d < nd)%nat -> sp_a P half d (coord d (rl x)) = gpml_a G d (gpos half d x) /\ sp_b P half d (coord d (rl x)) = gpml_b G d (gpos half d x)).
  { intros half d x Hd. pose proof (g_prof Hs Ha Hf S (el_pos nd) b half d (coord d (rl x)) Hd) as Q. rewrite (kcoord_krl Hs d x Hd) in Q. exact Q. }
  assert (UP : forall h x, gcells G h x -> updated P h (rl x)) by (intros h x Hx; apply (g_cells Hs Ha S (el_pos nd) b h x (proj1 Hx)); exact Hx).
  assert (AM : forall k h x, In k (el_allC nd) -> gcells G h x -> StagEqs.amp_at P (sp_src P k) (kind_amps s (el_pos nd k) b (Z.of_nat t)) (rl x) = source_at (e_opts c) (su_ratio s) (e_src c k) (e_amps c k) b t x).
  { intros k h x Hk Hx. apply (k_amp Hs Ha S (el_pos nd) b W1 W2 (el_pos nd k)); [apply (el_nth (e_src c)), Hk|apply (el_nth (e_amps c)), Hk|apply Hx|exact (g_arr Hs Ha h x Hx)]. }
  assert (Hmv : forall i j x, (i < nd)%nat -> (j < nd)%nat -> gcells G (on_v i) x ->
    me (el_user W') (DS i j) x = (gpml_b G j (gpos (Nat.eqb i j) j x) * gdx G (Nat.eqb i j) j (stress (el_user W) i j) x + gpml_a G j (gpos (Nat.eqb i j) j x) * me (el_user W) (DS i j) x)%R).
  { intros i j x Hi Hj Hx. rewrite ST. cbn [el_user mn me]. rewrite (Emv i j _ Hi Hj (UP _ _ Hx)). destruct (PR (Nat.eqb i j) j x Hj) as [-> ->]. rewrite DE by (apply Hx || exact Hj). reflexivity. }
  assert (Hv : forall i x, (i < nd)%nat -> gcells G (on_v i) x ->
    mn (el_user W') (VL i) x = (mn (el_user W) (VL i) x + gr_dt G * buoyancy_at rfmax (density_at rfmax bu) i x *
      (source_at (e_opts c) (su_ratio s) (e_src c (CV i)) (e_amps c (CV i)) b t x + sumf (K := R_ops) (seq 0 nd) (fun j => gdx G (Nat.eqb i j) j (stress (el_user W) i j) x + me (el_user W') (DS i j) x)))%R).
  { intros i x Hi Hx. cbn [el_user mn me]. rewrite (Ev i _ Hi (UP _ _ Hx)). unfold el_src. cbn [sp_shape elastic_par kind_par stag_par]. fold P.
    rewrite (el_b x i Hi Hx). rewrite (AM (CV i) _ x (proj2 (In_elC (CV i)) Hi) Hx). rewrite DT.
    rewrite (sumf_ext R_ops (seq 0 nd) (fun j => deriv P (Nat.eqb i j) j (stress W i j) (rl x) + me W' (DS i j) (rl x))%K (fun j => (gdx G (Nat.eqb i j) j (stress (el_user W) i j) x + me W' (DS i j) (rl x))%R)).
    2:{ intros j Hj. apply in_seq in Hj. rewrite ST, DE by (apply Hx || lia). reflexivity. }
    rring. }
  assert (Hms : forall i j x, (i < nd)%nat -> (j < nd)%nat -> gcells G (on_s i j) x ->
    me (el_user W') (DV i j) x = (gpml_b G j (gpos (negb (Nat.eqb i j)) j x) * gdx G (negb (Nat.eqb i j)) j (mn (el_user W') (VL i)) x + gpml_a G j (gpos (negb (Nat.eqb i j)) j x) * me (el_user W) (DV i j) x)%R).
  { intros i j x Hi Hj Hx. cbn [el_user mn me]. rewrite (Ems i j _ Hi Hj (UP _ _ Hx)). destruct (PR (negb (Nat.eqb i j)) j x Hj) as [-> ->]. rewrite DE by (apply Hx || exact Hj). reflexivity. }
  assert (Hn : forall i x, (i < nd)%nat -> gcells G (fun _ => false) x ->
    let strain l := (gdx G false l (mn (el_user W') (VL l)) x + me (el_user W') (DV l l) x)%R in
    mn (el_user W') (Sg i i) x = (mn (el_user W) (Sg i i) x + gr_dt G * (la x * sumf (K := R_ops) (seq 0 nd) strain + 2 * mu x * strain i - source_at (e_opts c) (su_ratio s) (e_src c CP) (e_amps c CP) b t x))%R).
  { intros i x Hi Hx strain. cbn [el_user mn me]. pose proof (En i _ Hi (UP _ _ Hx)) as Q. cbv zeta in Q. rewrite Q. unfold el_src. cbn [sp_shape elastic_par kind_par stag_par]. fold P.
    change (elastic_models rfmax s b ML) with (kind_model s 0 b). change (elastic_models rfmax s b MMU) with (kind_model s 1 b).
    rewrite (el_mval 0 (e_lamb c) x _ eq_refl Hx), (el_mval 1 (e_mu c) x _ eq_refl Hx).
    rewrite (AM CP _ x (proj2 (In_elC CP) I) Hx). rewrite DT.
    rewrite (sumf_ext R_ops (seq 0 nd) (fun l => deriv P false l (mn W' (VL l)) (rl x) + me W' (DV l l) (rl x))%K strain).
    2:{ intros l Hl. apply in_seq in Hl. unfold strain. cbn [el_user mn me]. rewrite DE by (apply Hx || lia). reflexivity. }
    assert (SI : strain i = (deriv P false i (mn W' (VL i)) (rl x) + me W' (DV i i) (rl x))%K) by (unfold strain; cbn [el_user mn me]; rewrite DE by (apply Hx || exact Hi); reflexivity).
    rewrite SI. rring. }
  assert (Hsh : forall i j x, (i < j < nd)%nat -> gcells G (on_s i j) x ->
    mn (el_user W') (Sg i j) x = (mn (el_user W) (Sg i j) x + gr_dt G * shear_at rfmax mu i j x *
      ((gdx G true j (mn (el_user W') (VL i)) x + me (el_user W') (DV i j) x) + (gdx G true i (mn (el_user W') (VL j)) x + me (el_user W') (DV j i) x)))%R).
  { intros i j x Hij Hx. cbn [el_user mn me]. rewrite (Es i j _ Hij (UP _ _ Hx)). cbn [sp_shape elastic_par kind_par stag_par]. fold P. rewrite (el_mu x i j Hij Hx), DT. rewrite !DE by (apply Hx || lia). reflexivity. }
  assert (BX : forall half d x, fst (gr_ext G d) <= coord d x < snd (gr_ext G d) - (if half : bool then 1 else 0) -> gpml_a G d (gpos half d x) = 0%R /\ gpml_b G d (gpos half d x) = 0%R)
    by (intros half d x Hx; apply gpml_inside, gdepth_box, Hx).
  split; try assumption.
  - intros i x Hi Hx Hbx. rewrite (Hv i x Hi Hx). f_equal. f_equal. f_equal. apply sumf_ext. intros j Hj. apply in_seq in Hj. rewrite (Hmv i j x) by (lia || exact Hx).
    destruct (BX (Nat.eqb i j) j x (Hbx j ltac:(lia))) as [-> ->]. rring.
  - intros i x Hi Hx Hbx. assert (Z0 : forall l, (l < nd)%nat -> me (el_user W') (DV l l) x = 0%R).
    { intros l Hl. rewrite (Hms l l x Hl Hl). 2:{ destruct Hx as [Lx Hx]. split; [exact Lx|]. intros d Hd. specialize (Hx d Hd). unfold on_s. rewrite Nat.eqb_refl. exact Hx. }
      rewrite Nat.eqb_refl. cbn [negb]. destruct (BX false l x ltac:(cbv iota; rewrite Z.sub_0_r; apply Hbx; lia)) as [-> ->]. rring. }
    rewrite (Hn i x Hi Hx). cbv zeta. rewrite (Z0 i Hi), Rplus_0_r.
    rewrite (sumf_ext R_ops (seq 0 nd) _ (fun l => gdx G false l (mn (el_user W') (VL l)) x)); [reflexivity|]. intros l Hl. apply in_seq in Hl. rewrite (Z0 l) by lia. apply Rplus_0_r.
  - intros i j x Hij Hx Hbx. assert (NE : forall a b, (a < b)%nat -> Nat.eqb a b = false /\ Nat.eqb b a = false) by (intros a e Hab; split; apply Nat.eqb_neq; lia).
    destruct (NE i j ltac:(lia)) as [N1 N2]. rewrite (Hsh i j x Hij Hx). rewrite (Hms i j x) by (lia || exact Hx). rewrite (Hms j i x); [|lia|lia|].
    2:{ destruct Hx as [Lx Hx]. split; [exact Lx|]. intros d Hd. specialize (Hx d Hd). unfold on_s in *. rewrite N2. rewrite N1 in Hx. rewrite (orb_comm (Nat.eqb d j)). exact Hx. }
    rewrite N1, N2. cbn [negb]. destruct (BX true j x (Hbx j (or_intror eq_refl))) as [-> ->]. destruct (BX true i x (Hbx i (or_introl eq_refl))) as [-> ->]. rring.
  - intros x L. destruct (Eout (rl x)) as [O1 O2]. split.
    + intros i Hi Hx. apply (O1 i Hi). intros U. apply Hx. apply (g_cells Hs Ha S (el_pos nd) b _ x L). exact U.
    + intros i j Hij Hx. apply (O2 i j Hij). intros U. apply Hx. apply (g_cells Hs Ha S (el_pos nd) b _ x L). exact U.
Qed.
End El.

Lemma elastic_solves_user c nd s b rfmax visA visB lg mg bg store : elastic_setup c nd = Some s ->
  let src := map (e_src c) (el_allC nd) in let rec := map (e_rec c) (el_allC nd) in let g := ecall_grid c nd s in let n := ksteps (e_opts c) s in
  locs_whole nd src -> locs_whole nd rec -> some_area (e_opts c) nd src rec -> o_freq (e_opts c) <> Some 0%R ->
  0 < o_interval (e_opts c) -> (su_nt s = 0 \/ o_interval (e_opts c) * su_ratio s <= su_nt s) -> Z.of_nat b < su_nb s ->
  (forall d, (d < nd)%nat -> half_inside g (e_src c (CV d)) b d /\ half_inside g (e_rec c (CV d)) b d) ->
  el_fvis nd R_ops (elastic_par nd s b) (pw_of (su_pw s)) true visA -> el_fvis nd R_ops (elastic_par nd s b) (pw_of (su_pw s)) false visB ->
  exists U R st (W : nat -> sst (el_sys nd) R_ops),
    elastic_run rfmax nd s b visA visB lg mg bg store = Some (U, R, st) /\
    (forall k e x, mn (W O) k x = 0%R /\ me (W O) e x = 0%R) /\
    (forall t, (t < n)%nat -> elastic_step nd g rfmax (model_at nd (su_ext s) (e_lamb c) b) (model_at nd (su_ext s) (e_mu c) b) (model_at nd (su_ext s) (e_buoy c) b)
       (fun k => source_at (e_opts c) (su_ratio s) (e_src c k) (e_amps c k) b t) (W t) (W (S t))) /\
    (forall k, In k (el_allC nd) -> length (elastic_data c nd s b R k) = length (match e_rec c k with Some l => nth b (lt_data l) [] | None => [] end) /\
       forall l qs j q, e_rec c k = Some l -> nth_error (lt_data l) b = Some qs -> nth_error qs j = Some q ->
         nth_error (elastic_data c nd s b R k) j = Some (trace_at (e_opts c) (su_ratio s) (su_nt s) n (fun t => measured nd k (W t)) q)) /\
    (forall x, let q := map (fun d => coord d x - fst (gr_ext g d) + fst (gr_pw g d) + fd_pad (su_acc s)) (seq 0 nd) in
       (forall k, In k (allX (el_sys nd)) -> mn U k q = mn (W n) k x) /\ (forall e, In e (allE (el_sys nd)) -> me U e q = me (W n) e x)).
Proof.
  intros Hset src rec g n W1 W2 Ha Hf Hi Hn Hb Hin VA VB. destruct (el_Hs c nd s Hset) as (vmn & vmx & nw & Hs).
  destruct (gs_cfl Hs Ha) as (_ & _ & _ & _ & Hr & _). destruct (el_locs c nd s b Hset W1 W2 Ha Hin) as [L1 L2].
  pose proof (gs_interval Hs) as Hint. pose proof (gs_nd Hs) as Hnd.
  destruct (elastic_user0 nd R_ops R_is_ring R_is_qalg (elastic_par nd s b) (pw_of (su_pw s)) (gs_rank Hs Ha) Hnd L1 L2 (g_geom Hs Ha Hf (el_sys nd) (el_pos nd) b)
    (su_dt s) (elastic_models rfmax s b) (fun t k => kind_amps s (el_pos nd k) b t) (zero_sst (el_sys nd)) (su_nt s) (su_ratio s * su_interval s) visA visB lg mg bg None store VA VB) as (U & R & st & W & E & (E0 & EZ) & EU & _ & EQ & _ & ER).
  { rewrite Hint. repeat split; nia. }
  assert (NS : StagRefine.nsteps (su_nt s) (su_ratio s * su_interval s) = Z.of_nat n).
  { unfold n, ksteps, StagRefine.nsteps. rewrite Hint, (Z.mul_comm (su_ratio s)), Z2Nat.id; [reflexivity|]. apply Z.mul_nonneg_nonneg; [apply Z.div_pos; nia|nia]. }
  rewrite NS in *.
  assert (ED : forall k, elastic_data c nd s b R k = kind_data (e_opts c) s (el_pos nd k) b (fun t => el_post (K := R_ops) nd R t k)).
  { intros [d|]; cbn [elastic_data el_post]; [reflexivity|].
    transitivity (map (map (Rmult (- / INR nd))) (kind_data (e_opts c) s (el_pos nd CP) b (fun t => R t CP))).
    - apply map_ext. intros l. apply map_ext. intros x. unfold Rdiv. ring.
    - rewrite data_scaled. unfold kind_data. apply map_ext. intros j. f_equal. apply map_ext. intros t. f_equal. apply map_ext. intros x. rewrite (oq_nd nd Hnd). rring. }
  exists U, R, st, (fun t => el_user c nd s (W (Z.of_nat t))). split.
  { unfold elastic_run. destruct (Z.eqb_spec (su_ratio s * su_interval s) 0) as [Q|_]; [rewrite Hint in Q; nia|]. exact E. }
  split. { intros k e x. cbn [Z.of_nat el_user mn me]. rewrite E0. cbn. split; match goal with |- (if ?e then _ else _) = _ => destruct e end; reflexivity. }
  split. { intros t Ht. replace (Z.of_nat (Datatypes.S t)) with (Z.of_nat t + 1) by lia. apply (el_step_user c nd s b rfmax Hset W1 W2 Ha Hf Hb). apply EQ. lia. }
  split.
  - intros k Hk. rewrite ED. split.
    + rewrite (k_data_length Hs Ha b W1 W2). unfold rec. rewrite (el_nth nd (e_rec c) k Hk). destruct (e_rec c k); reflexivity.
    + intros l qs j q Hl Hqs Hq.
      set (w := fun t => match k with CV d => mn (W (Z.of_nat t)) (VL d) | CP => pressure (W (Z.of_nat t)) end : field R_ops).
      rewrite (k_data Hs Ha (el_sys nd) (el_pos nd) b W2 (el_pos nd k) l qs j q (fun t => el_post (K := R_ops) nd R t k) w n); [|unfold rec; rewrite (el_nth nd (e_rec c) k Hk), Hl; reflexivity|exact Hqs|exact Hq|..].
      * f_equal. unfold trace_at. f_equal. apply map_ext. intros t. destruct (_ && _)%bool; [|reflexivity]. unfold w, measured. destruct k as [d|]; [reflexivity|]. unfold pressure. rewrite (oq_nd nd Hnd). cbn [el_user mn]. unfold Rdiv. rring.
      * intros t Ht. destruct (ER (Z.of_nat t) ltac:(lia)) as [RP RV]. unfold w. destruct k as [d|]; [|exact RP]. apply RV. apply In_elC in Hk. exact Hk.
      * intros t Ht i. destruct k as [d|]; cbn [el_post]; rewrite EZ by (exact Hk || lia).
        -- generalize i. induction (sp_rec (elastic_par nd s b) (CV d)) as [|y r IH]; intros [|m]; cbn; auto.
        -- rewrite map_map. clear ER. generalize i. induction (sp_rec (elastic_par nd s b) CP) as [|y r IH]; intros [|m]; cbn [map nth]; try reflexivity; try apply IH; rring.
  - intros x q. assert (Q : q = rel (su_ext s) (sum_pad (stag_fdp (o_accuracy (e_opts c)) nd) (su_pw s)) x).
    { apply (pt_ext nd); [unfold q; rewrite map_length, seq_length; reflexivity|apply (krl_length Hs)|]. intros d Hd. unfold q. rewrite coord_map_seq by exact Hd. rewrite (coord_krl Hs d x Hd). pose proof (g_pw Hs d) as PWE. 
      change (opts_grid (e_opts c) nd (su_ratio s) (su_acc s) (su_vel s) (su_ext s)) with g in PWE. rewrite PWE. change (gr_ext g d) with (nth d (su_ext s) (0, 0)). lia. }
    rewrite Q. destruct EU as [U1 U2]. split; [intros k Hk; apply U1, Hk|intros e He; apply U2, He].
Qed.
