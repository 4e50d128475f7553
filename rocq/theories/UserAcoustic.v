(** * What [acoustic] returns, in terms of the user's arguments. *)
From Coq Require Import List ZArith QArith Reals Lra Lia Bool Permutation.
From Verif Require Import Ops Sums Grid Stencil StencilOrder ScalarModel ScalarRefine ScalarFunc ScalarApi GeomModel Geom Geom2 GeomLocs SetupModel RealModel RealThm Resample ResampleThm
  Stag StagKernel StagRefine StagEqs EqsUser AcousticModel AcousticThm StagSetup UserModel UserThm UserCrop UserEqs UserStagModel UserStag.
Import ListNotations.
Local Open Scope Z_scope.

(** ** Specification *)
(** Buoyancy between [x] and the next cell along [d]. *)
Definition buoyancy_at (rfmax : R) (rho : pt -> R) (d : nat) (x : pt) : R :=
  let m := ((rho x + rho (shift d 1 x)) / 2)%R in if Rlt_dec rfmax (Rabs m) then (/ m)%R else 0%R.
(** One step [W -> W'] of dv/dt = -b (grad p - f), dp/dt = -k (div v - q) with k = rho c^2, on a staggered grid in a box with PML: [f XP] is q. *)
Record acoustic_step (nd : nat) (g : grid) (rfmax : R) (c rho : pt -> R) (f : aX -> pt -> R) (W W' : sst (ac_sys nd) R_ops) : Prop := {
  as_psi : forall d x, (d < nd)%nat -> gcells g (Nat.eqb d) x ->
    me W' (EV d) x = (gpml_b g d (gpos true d x) * gdx g true d (mn W XP) x + gpml_a g d (gpos true d x) * me W (EV d) x)%R;
  as_v : forall d x, (d < nd)%nat -> gcells g (Nat.eqb d) x ->
    mn W' (XV d) x = (mn W (XV d) x + gr_dt g * buoyancy_at rfmax rho d x * (f (XV d) x - (gdx g true d (mn W XP) x + me W' (EV d) x)))%R;
  as_phi : forall d x, (d < nd)%nat -> gcells g (fun _ => false) x ->
    me W' (EP d) x = (gpml_b g d (gpos false d x) * gdx g false d (mn W' (XV d)) x + gpml_a g d (gpos false d x) * me W (EP d) x)%R;
  as_p : forall x, gcells g (fun _ => false) x ->
    mn W' XP x = (mn W XP x + gr_dt g * (rho x * c x ^ 2) * (f XP x - sumf (K := R_ops) (seq 0 nd) (fun d => gdx g false d (mn W' (XV d)) x + me W' (EP d) x)))%R;
  (** without PML in the box *)
  as_v_box : forall d x, (d < nd)%nat -> gcells g (Nat.eqb d) x -> fst (gr_ext g d) <= coord d x < snd (gr_ext g d) - 1 ->
    mn W' (XV d) x = (mn W (XV d) x + gr_dt g * buoyancy_at rfmax rho d x * (f (XV d) x - gdx g true d (mn W XP) x))%R;
  as_p_box : forall x, gcells g (fun _ => false) x -> (forall d, (d < nd)%nat -> fst (gr_ext g d) <= coord d x < snd (gr_ext g d)) ->
    mn W' XP x = (mn W XP x + gr_dt g * (rho x * c x ^ 2) * (f XP x - sumf (K := R_ops) (seq 0 nd) (fun d => gdx g false d (mn W' (XV d)) x)))%R;
  (** zero outside *)
  as_out : forall x, length x = nd -> (forall d, (d < nd)%nat -> ~ gcells g (Nat.eqb d) x -> mn W' (XV d) x = 0%R) /\ (~ gcells g (fun _ => false) x -> mn W' XP x = 0%R)
}.
(** The grid that the user asks for. *)
Definition call_grid (c : acall) (nd : nat) (s : setup) : grid := opts_grid (a_opts c) nd (su_ratio s) (su_acc s) (su_vel s) (su_ext s).
(** The cells next to the locations in direction [d] are in the box or its PML. *)
Definition half_inside (g : grid) (l : option loct) (b d : nat) : Prop :=
  forall j p, loc3 [l] 0 b j = Some p -> active_pt (gr_nd g) p -> coord d p + 1 < snd (gr_ext g d) + snd (gr_pw g d).
Definition some_area (o : opts) (nd : nat) (src rec : list (option loct)) : Prop := o_sp o = SPnone \/ some_active nd src \/ some_active nd rec.

(** ** Proofs *)
Section Ac.
Variables (c : acall) (nd : nat) (s : setup) (b : nat) (rfmax : R).
Hypothesis Hset : acoustic_setup c nd = Some s.
Notation src := (map (a_src c) (ac_allX nd)).
Notation rec := (map (a_rec c) (ac_allX nd)).
Notation G := (call_grid c nd s).
Notation S := (ac_sys nd).
Notation P := (acoustic_par nd s b).
Notation rl := (rel (su_ext s) (sum_pad (stag_fdp (o_accuracy (a_opts c)) nd) (su_pw s))).
Lemma ac_Hs : exists vmax, stag_setup [a_v c; a_rho c] (a_opts c) (map (a_amps c) (ac_allX nd)) src rec (min_nonzero (a_v c)) vmax (1 + 3 * nd) nd = Some s.
Proof. pose proof Hset as H. unfold acoustic_setup in H. destruct (max_abs (a_v c)) as [v|]; [|discriminate]. destruct (negb _) in H; [discriminate|]. exists v. exact H. Qed.
Lemma ac_half d : (d < nd)%nat -> half_ok (a_v c) nd d (a_src c (XV d)) = true /\ half_ok (a_v c) nd d (a_rec c (XV d)) = true.
Proof.
  intros Hd. pose proof Hset as H. unfold acoustic_setup in H. destruct (max_abs (a_v c)) as [v|]; [|discriminate]. destruct (forallb _ _) eqn:E in H; [|discriminate].
  rewrite forallb_forall in E. specialize (E d ltac:(apply in_seq; lia)). apply andb_prop in E. exact E.
Qed.
Lemma ac_nth {A} (f : aX -> A) k : In k (ac_allX nd) -> nth_error (map f (ac_allX nd)) (ac_pos k) = Some (f k).
Proof.
  intros Hk. apply map_nth_error. destruct k as [|d]; [reflexivity|]. cbn in Hk. destruct Hk as [Hk|Hk]; [discriminate|]. apply in_map_iff in Hk. destruct Hk as (e & He & Hk). injection He as ->. apply in_seq in Hk.
  cbn. rewrite nth_error_map, nth_error_seq_lt by lia. reflexivity.
Qed.
Lemma ac_loc3 (f : aX -> option loct) k j : In k (ac_allX nd) -> loc3 (map f (ac_allX nd)) (ac_pos k) b j = loc3 [f k] 0 b j.
Proof. intros Hk. unfold loc3. rewrite (ac_nth f k Hk). reflexivity. Qed.
Lemma In_acX k : In k (ac_allX nd) <-> match k with XP => True | XV d => (d < nd)%nat end.
Proof.
  cbn. destruct k as [|d]; [split; auto|]. rewrite in_map_iff. split; [intros [H|(e & H & He)]; [discriminate|]; injection H as <-; apply in_seq in He; lia|]. intros H. right. exists d. split; [reflexivity|]. apply in_seq. lia.
Qed.

Hypothesis W1 : locs_whole nd src.
Hypothesis W2 : locs_whole nd rec.
Hypothesis Ha : some_area (a_opts c) nd src rec.
Hypothesis Hf : o_freq (a_opts c) <> Some 0%R.
(** The check of the locations is sufficient for the whole model and if there is a PML. *)
Lemma ac_half_inside d : (d < nd)%nat -> (o_sp (a_opts c) = SPnone \/ 0 < nth (2 * d + 1) (per_list (o_pw (a_opts c)) (2 * nd)) 0) ->
  half_inside G (a_src c (XV d)) b d /\ half_inside G (a_rec c (XV d)) b d.
Proof.
  intros Hd Hc. destruct ac_Hs as [vm Hs]. destruct (ac_half d Hd) as [H1 H2].
  assert (X : forall w : bool, half_ok (a_v c) nd d ((if w then a_src c else a_rec c) (XV d)) = true -> half_inside G ((if w then a_src c else a_rec c) (XV d)) b d).
  { intros w Hh j p Hl Hp. change (gr_nd G) with nd in Hp. pose proof (g_pw Hs d) as PWE. fold G in PWE.
    assert (P0 := gs_pw Hs d). change (snd (gr_ext G d)) with (snd (nth d (su_ext s) (0, 0))).
    assert (L3 : loc3 (if w then src else rec) (ac_pos (XV d)) b j = Some p).
    { rewrite <- Hl. destruct w; apply ac_loc3; apply In_acX; exact Hd. }
    destruct Hc as [Hc|Hc].
    - rewrite PWE, (gs_whole Hs d Hd Hc). cbn [hd]. unfold half_ok in Hh. unfold loc3 in Hl. cbn in Hl. destruct ((if w then a_src c else a_rec c) (XV d)) as [l|]; [|discriminate].
      destruct (nth_error (lt_data l) b) as [ps|] eqn:Eb; [|discriminate].
      assert (In (coord d p) (dim_locs d l)).
      { unfold dim_locs. apply filter_In. split.
        - apply in_map, in_concat. exists ps. split; [apply (nth_error_In _ _ Eb)|apply (nth_error_In _ _ Hl)].
        - destruct Hp as [_ Hp]. specialize (Hp d Hd). apply negb_true_iff, Z.eqb_neq. exact Hp. }
      destruct (lmax (dim_locs d l)) as [m|] eqn:Em; [|destruct (dim_locs d l); [contradiction|discriminate]].
      apply lmax_spec in Em. destruct Em as [_ Em]. specialize (Em _ H). apply Z.ltb_lt in Hh. lia.
    - destruct (kloc_at Hs Ha b w _ _ _ L3 Hp) as (_ & _ & Q). specialize (Q d Hd). change (snd (gr_pw G d)) with (nth (2 * d + 1) (per_list (o_pw (a_opts c)) (2 * nd)) 0). lia. }
  split; [exact (X true H1)|exact (X false H2)].
Qed.

Hypothesis Hin : forall d, (d < nd)%nat -> half_inside G (a_src c (XV d)) b d /\ half_inside G (a_rec c (XV d)) b d.
Lemma ac_locs : locs_ok S R_ops P (sp_src P) /\ locs_ok S R_ops P (sp_rec P).
Proof.
  destruct ac_Hs as [vm Hs].
  assert (X : forall (w : bool) k, In k (allC S) -> Forall (sloc_ok S R_ops P k) (kind_row (if w then su_src s else su_rec s) (ac_pos k) b)).
  { intros w k Hk. apply (k_sloc Hs Ha S ac_pos b W1 W2). intros x Hx Hc w' j p Hl Hp d Hd Hh. 
    assert (Hk' : In k (ac_allX nd)) by exact Hk.
    assert (E : x = k) by (cbn in Hc; destruct (aX_dec k x); congruence).
    subst x. destruct k as [|e]; [discriminate|]. cbn in Hh. apply Nat.eqb_eq in Hh. subst e.
    destruct (Hin d Hd) as [I1 I2]. pose proof (g_pw Hs d) as PWE. fold G in PWE. rewrite <- PWE. destruct w'.
    - rewrite (ac_loc3 (a_src c) (XV d) j Hk') in Hl. exact (I1 j p Hl Hp).
    - rewrite (ac_loc3 (a_rec c) (XV d) j Hk') in Hl. exact (I2 j p Hl Hp). }
  split; intros k Hk; [exact (X true k Hk)|exact (X false k Hk)].
Qed.

Hypothesis Hb : Z.of_nat b < su_nb s.
Definition ac_user (W : sst S R_ops) : sst S R_ops := @mksst S R_ops (fun x p => mn W x (rl p)) (fun e p => me W e (rl p)).
Lemma ac_k x h : gcells G h x -> acoustic_models rfmax s b MK (idx (su_shape s) (rl x)) = (model_at nd (su_ext s) (a_rho c) b x * model_at nd (su_ext s) (a_v c) b x ^ 2)%R.
Proof.
  intros Hx. destruct ac_Hs as [vm Hs]. pose proof (g_arr Hs Ha h x Hx) as A. destruct Hx as [L _]. unfold acoustic_models, prepare_models.
  rewrite (k_model Hs Ha b 0 (a_v c) x Hb eq_refl L A), (k_model Hs Ha b 1 (a_rho c) x Hb eq_refl L A). reflexivity.
Qed.
Lemma ac_b x d : (d < nd)%nat -> gcells G (Nat.eqb d) x -> acoustic_models rfmax s b (MB d) (idx (su_shape s) (rl x)) = buoyancy_at rfmax (model_at nd (su_ext s) (a_rho c) b) d x.
Proof.
  intros Hd Hx. destruct ac_Hs as [vm Hs]. pose proof (g_arr Hs Ha _ x Hx) as A.
  assert (L : length x = nd) by apply Hx. assert (A' : inb (abox (su_shape s)) (rl (shift d 1 x)) = true).
  { apply (g_arr Hs Ha (fun _ => false)). destruct Hx as [_ Hx]. split; [rewrite shift_length; exact L|]. intros e He. specialize (Hx e He). destruct (Nat.eq_dec d e) as [->|N].
    - rewrite coord_shift_same by lia. rewrite Nat.eqb_refl in Hx. fold G. lia.
    - rewrite coord_shift_other by exact N. destruct (Nat.eqb_spec d e) in Hx; [contradiction|]. fold G. lia. }
  unfold acoustic_models, prepare_models, buoyancy_at. rewrite unidx_idx by exact A.
  assert (M : mean_next (su_shape s) (at_pt (su_shape s) (kind_model s 1 b)) d (rl x) = ((model_at nd (su_ext s) (a_rho c) b x + model_at nd (su_ext s) (a_rho c) b (shift d 1 x)) / 2)%R).
  { unfold mean_next, at_pt. rewrite <- (krl_shift Hs d 1 x L Hd).
    rewrite (k_model Hs Ha b 1 (a_rho c) x Hb eq_refl L A), (k_model Hs Ha b 1 (a_rho c) _ Hb eq_refl ltac:(rewrite shift_length; exact L) A').
    destruct (Z.ltb_spec (coord d (rl x) + 1) (nth d (su_shape s) 0)) as [_|C]; [reflexivity|]. exfalso.
    apply inb_abox in A'. destruct A' as [_ A']. specialize (A' d). rewrite (gs_rank Hs Ha) in A'. rewrite (krl_shift Hs d 1 x L Hd), coord_shift_same in A' by (rewrite (krl_length Hs); exact Hd).
    specialize (A' Hd). lia. }
  cbv zeta. unfold safe_inv. rewrite M. unfold above_rfmax. destruct (Rlt_dec _ _); [apply Rmult_1_l|reflexivity].
Qed.
Lemma ac_step_user (W W' : sst S R_ops) t :
  acoustic_eqs nd R_ops P (su_dt s) (acoustic_models rfmax s b) (ac_src (K := R_ops) P (su_dt s) (acoustic_models rfmax s b) (fun k => kind_amps s (ac_pos k) b (Z.of_nat t))) W W' ->
  acoustic_step nd G rfmax (model_at nd (su_ext s) (a_v c) b) (model_at nd (su_ext s) (a_rho c) b) (fun k => source_at (a_opts c) (su_ratio s) (a_src c k) (a_amps c k) b t) (ac_user W) (ac_user W').
Proof.
  intros [Epsi Ev Ephi Ep Eout]. destruct ac_Hs as [vm Hs].
  assert (DT : gr_dt G = su_dt s) by exact (g_dt Hs Ha).
  assert (DE : forall half d (f : pt -> R) x, length x = nd -> (d < nd)%nat -> gdx G half d (fun p => f (rl p)) x = deriv P half d f (rl x)).
  { intros half d f x L Hd. apply (g_deriv Hs Ha S ac_pos b); [exact L|exact Hd|reflexivity]. }
  assert (PR : forall half d x, (d < nd)%nat -> sp_a P half d (coord d (rl x)) = gpml_a G d (gpos half d x) /\ sp_b P half d (coord d (rl x)) = gpml_b G d (gpos half d x)).
  { intros half d x Hd. pose proof (g_prof Hs Ha Hf S ac_pos b half d (coord d (rl x)) Hd) as Q. rewrite (kcoord_krl Hs d x Hd) in Q. exact Q. }
  assert (UP : forall h x, gcells G h x -> updated P h (rl x)) by (intros h x Hx; apply (g_cells Hs Ha S ac_pos b h x (proj1 Hx)); exact Hx).
  assert (AM : forall k h x, In k (ac_allX nd) -> gcells G h x -> StagEqs.amp_at P (sp_src P k) (kind_amps s (ac_pos k) b (Z.of_nat t)) (rl x) = source_at (a_opts c) (su_ratio s) (a_src c k) (a_amps c k) b t x).
  { intros k h x Hk Hx. apply (k_amp Hs Ha S ac_pos b W1 W2 (ac_pos k)); [apply (ac_nth (a_src c)), Hk|apply (ac_nth (a_amps c)), Hk|apply Hx|exact (g_arr Hs Ha h x Hx)]. }
  assert (Hpsi : forall d x, (d < nd)%nat -> gcells G (Nat.eqb d) x -> me (ac_user W') (EV d) x = (gpml_b G d (gpos true d x) * gdx G true d (mn (ac_user W) XP) x + gpml_a G d (gpos true d x) * me (ac_user W) (EV d) x)%R).
  { intros d x Hd Hx. cbn [ac_user mn me]. rewrite (Epsi d _ Hd (UP _ _ Hx)). destruct (PR true d x Hd) as [-> ->]. rewrite DE by (apply Hx || exact Hd). reflexivity. }
  assert (Hv : forall d x, (d < nd)%nat -> gcells G (Nat.eqb d) x ->
    mn (ac_user W') (XV d) x = (mn (ac_user W) (XV d) x + gr_dt G * buoyancy_at rfmax (model_at nd (su_ext s) (a_rho c) b) d x * (source_at (a_opts c) (su_ratio s) (a_src c (XV d)) (a_amps c (XV d)) b t x - (gdx G true d (mn (ac_user W) XP) x + me (ac_user W') (EV d) x)))%R).
  { intros d x Hd Hx. cbn [ac_user mn me]. rewrite (Ev d _ Hd (UP _ _ Hx)). unfold ac_src. cbn [sp_shape acoustic_par kind_par stag_par]. fold P.
    rewrite (ac_b x d Hd Hx). rewrite (AM (XV d) _ x (proj2 (In_acX (XV d)) Hd) Hx). rewrite DE by (apply Hx || exact Hd). rewrite DT. rring. }
  assert (Hphi : forall d x, (d < nd)%nat -> gcells G (fun _ => false) x -> me (ac_user W') (EP d) x = (gpml_b G d (gpos false d x) * gdx G false d (mn (ac_user W') (XV d)) x + gpml_a G d (gpos false d x) * me (ac_user W) (EP d) x)%R).
  { intros d x Hd Hx. cbn [ac_user mn me]. rewrite (Ephi d _ Hd (UP _ _ Hx)). destruct (PR false d x Hd) as [-> ->]. rewrite DE by (apply Hx || exact Hd). reflexivity. }
  assert (Hp : forall x, gcells G (fun _ => false) x ->
    mn (ac_user W') XP x = (mn (ac_user W) XP x + gr_dt G * (model_at nd (su_ext s) (a_rho c) b x * model_at nd (su_ext s) (a_v c) b x ^ 2) * (source_at (a_opts c) (su_ratio s) (a_src c XP) (a_amps c XP) b t x - sumf (K := R_ops) (seq 0 nd) (fun d => gdx G false d (mn (ac_user W') (XV d)) x + me (ac_user W') (EP d) x)))%R).
  { intros x Hx. cbn [ac_user mn me]. rewrite (Ep _ (UP _ _ Hx)). unfold ac_src. cbn [sp_shape acoustic_par kind_par stag_par]. fold P.
    rewrite (ac_k x _ Hx). rewrite (AM XP _ x (proj2 (In_acX XP) I) Hx). rewrite DT.
    rewrite (sumf_ext R_ops (seq 0 nd) (fun d => deriv P false d (mn W' (XV d)) (rl x) + me W' (EP d) (rl x))%K (fun d => (gdx G false d (fun p => mn W' (XV d) (rl p)) x + me W' (EP d) (rl x))%R)).
    2:{ intros d Hd. apply in_seq in Hd. rewrite DE by (apply Hx || lia). reflexivity. }
    rring. }
  split; try assumption.
  - intros d x Hd Hx Hbx. rewrite (Hv d x Hd Hx), (Hpsi d x Hd Hx). destruct (gpml_inside G d (gpos true d x) (gdepth_box G d true x Hbx)) as [-> ->]. rring.
  - intros x Hx Hbx. rewrite (Hp x Hx). f_equal. f_equal. f_equal. apply sumf_ext. intros d Hd. apply in_seq in Hd. rewrite (Hphi d x) by (lia || exact Hx).
    destruct (gpml_inside G d (gpos false d x) (gdepth_box G d false x ltac:(cbv iota; rewrite Z.sub_0_r; apply Hbx; lia))) as [-> ->]. rring.
  - intros x L. destruct (Eout (rl x)) as [O1 O2]. split.
    + intros d Hd Hx. apply (O1 d Hd). intros U. apply Hx. apply (g_cells Hs Ha S ac_pos b _ x L). exact U.
    + intros Hx. apply O2. intros U. apply Hx. apply (g_cells Hs Ha S ac_pos b _ x L). exact U.
Qed.
End Ac.

Lemma acoustic_solves_user c nd s b rfmax visA visB kg bg store : acoustic_setup c nd = Some s ->
  let src := map (a_src c) (ac_allX nd) in let rec := map (a_rec c) (ac_allX nd) in let g := call_grid c nd s in let n := ksteps (a_opts c) s in
  locs_whole nd src -> locs_whole nd rec -> some_area (a_opts c) nd src rec -> o_freq (a_opts c) <> Some 0%R ->
  0 < o_interval (a_opts c) -> (su_nt s = 0 \/ o_interval (a_opts c) * su_ratio s <= su_nt s) -> Z.of_nat b < su_nb s ->
  (forall d, (d < nd)%nat -> half_inside g (a_src c (XV d)) b d /\ half_inside g (a_rec c (XV d)) b d) ->
  ac_fvis nd R_ops (acoustic_par nd s b) (pw_of (su_pw s)) true visA -> ac_fvis nd R_ops (acoustic_par nd s b) (pw_of (su_pw s)) false visB ->
  exists U R st (W : nat -> sst (ac_sys nd) R_ops),
    acoustic_run rfmax nd s b visA visB kg bg store = Some (U, R, st) /\
    (forall k e x, mn (W O) k x = 0%R /\ me (W O) e x = 0%R) /\
    (forall t, (t < n)%nat -> acoustic_step nd g rfmax (model_at nd (su_ext s) (a_v c) b) (model_at nd (su_ext s) (a_rho c) b)
       (fun k => source_at (a_opts c) (su_ratio s) (a_src c k) (a_amps c k) b t) (W t) (W (S t))) /\
    (forall k, In k (ac_allX nd) -> length (acoustic_data c s b R k) = length (match a_rec c k with Some l => nth b (lt_data l) [] | None => [] end) /\
       forall l qs j q, a_rec c k = Some l -> nth_error (lt_data l) b = Some qs -> nth_error qs j = Some q ->
         nth_error (acoustic_data c s b R k) j = Some (trace_at (a_opts c) (su_ratio s) (su_nt s) n (fun t => mn (W t) k) q)) /\
    (forall x, let q := map (fun d => coord d x - fst (gr_ext g d) + fst (gr_pw g d) + fd_pad (su_acc s)) (seq 0 nd) in
       (forall k, In k (ac_allX nd) -> mn U k q = mn (W n) k x) /\ (forall e, In e (allE (ac_sys nd)) -> me U e q = me (W n) e x)).
Proof.
  intros Hset src rec g n W1 W2 Ha Hf Hi Hn Hb Hin VA VB. destruct (ac_Hs c nd s Hset) as [vm Hs].
  destruct (gs_cfl Hs Ha) as (_ & _ & _ & _ & Hr & _). destruct (ac_locs c nd s b Hset W1 W2 Ha Hin) as [L1 L2].
  pose proof (gs_interval Hs) as Hint.
  destruct (acoustic_user0 nd R_ops R_is_ring (acoustic_par nd s b) (pw_of (su_pw s)) (gs_rank Hs Ha) L1 L2 (g_geom Hs Ha Hf (ac_sys nd) ac_pos b)
    (su_dt s) (acoustic_models rfmax s b) (fun t k => kind_amps s (ac_pos k) b t) (zero_sst (ac_sys nd)) (su_nt s) (su_ratio s * su_interval s) visA visB kg bg None store VA VB) as (U & R & st & W & E & (E0 & EZ) & EU & _ & EQ & ER).
  { rewrite Hint. repeat split; nia. }
  assert (NS : StagRefine.nsteps (su_nt s) (su_ratio s * su_interval s) = Z.of_nat n).
  { unfold n, ksteps, StagRefine.nsteps. rewrite Hint, (Z.mul_comm (su_ratio s)), Z2Nat.id; [reflexivity|]. apply Z.mul_nonneg_nonneg; [apply Z.div_pos; nia|nia]. }
  rewrite NS in *.
  exists U, R, st, (fun t => ac_user c nd s (W (Z.of_nat t))). split.
  { unfold acoustic_run. destruct (Z.eqb_spec (su_ratio s * su_interval s) 0) as [Q|_]; [rewrite Hint in Q; nia|]. exact E. }
  split. { intros k e x. cbn [Z.of_nat ac_user mn me]. rewrite E0. cbn. split; match goal with |- (if ?e then _ else _) = _ => destruct e end; reflexivity. }
  split. { intros t Ht. replace (Z.of_nat (Datatypes.S t)) with (Z.of_nat t + 1) by lia. apply (ac_step_user c nd s b rfmax Hset W1 W2 Ha Hf Hb). apply EQ. lia. }
  split.
  - intros k Hk. split.
    + unfold acoustic_data. rewrite (k_data_length Hs Ha b W1 W2). unfold rec. rewrite (ac_nth nd (a_rec c) k Hk). destruct (a_rec c k); reflexivity.
    + intros l qs j q Hl Hqs Hq. unfold acoustic_data.
      apply (k_data Hs Ha (ac_sys nd) ac_pos b W2 (ac_pos k) l qs j q (fun t => R t k) (fun t => mn (W (Z.of_nat t)) k) n); [unfold rec; rewrite (ac_nth nd (a_rec c) k Hk), Hl; reflexivity|exact Hqs|exact Hq|..].
      * intros t Ht. destruct (ER (Z.of_nat t) ltac:(lia)) as [RP RV]. destruct k as [|d]; [exact RP|]. apply RV. apply In_acX in Hk. exact Hk.
      * intros t Ht i. rewrite EZ by (exact Hk || lia). generalize i. induction (sp_rec (acoustic_par nd s b) k) as [|y r IH]; intros [|m]; cbn; auto.
  - intros x q. assert (Q : q = rel (su_ext s) (sum_pad (stag_fdp (o_accuracy (a_opts c)) nd) (su_pw s)) x).
    { apply (pt_ext nd); [unfold q; rewrite map_length, seq_length; reflexivity|apply (krl_length Hs)|]. intros d Hd. unfold q. rewrite coord_map_seq by exact Hd. rewrite (coord_krl Hs d x Hd). pose proof (g_pw Hs d) as PWE. fold g in PWE. 
      change (opts_grid (a_opts c) nd (su_ratio s) (su_acc s) (su_vel s) (su_ext s)) with g in PWE. rewrite PWE. change (gr_ext g d) with (nth d (su_ext s) (0, 0)). lia. }
    rewrite Q. destruct EU as [U1 U2]. split; [intros k Hk; apply U1, Hk|intros e He; apply U2, He].
Qed.
