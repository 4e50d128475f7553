(** * What a call of [scalar_born] computes, in the user's coordinates: specification and proof. *)
From Coq Require Import List ZArith QArith Reals Lra Lia Bool Permutation.
From Verif Require Import Ops Sums Grid Stencil StencilOrder ScalarModel ScalarRefine ScalarForward ScalarFunc ScalarApi ScalarAdjoint ScalarGrad ScalarMore ScalarPhys ScalarReach ScalarEqs GeomModel Geom Geom2 GeomLocs SetupModel RealModel RealThm
  Resample ResampleThm EqsUser BornModel BornBack BornThm BornPy UserModel UserThm UserCrop UserMain UserEqs UserStagModel UserStag UserAcoustic UserBornModel UserRegular.
Import ListNotations.
Local Open Scope Z_scope.

(** ** Specification: the wave equation linearised in the wavespeed.

    [sc]: the perturbation of the wavespeed of [m]; [q]: the source term; [s], [s']: the background before and after the step, that solves
    [wave_step]; [r], [r']: the scattered wavefield. *)
Record scatter_step (m : medium) (sc q : pt -> R) (s s' r r' : st R_ops) : Prop := {
  bs_prev : forall x, s_wfp R_ops r' x = s_wfc R_ops r x;
  bs_inner : forall x, inner m x ->
    (s_wfc R_ops r' x = 2 * s_wfc R_ops r x - s_wfp R_ops r x
       + md_v m x ^ 2 * md_dt m ^ 2 * sumf (K := R_ops) (seq 0 (md_nd m)) (fun d => dx2 m d (s_wfc R_ops r) x)
       + 2 * md_v m x * sc x * md_dt m ^ 2 * (sumf (K := R_ops) (seq 0 (md_nd m)) (fun d => dx2 m d (s_wfc R_ops s) x) - q x))%R;
  bs_wave : forall x, domain m x ->
    (s_wfc R_ops r' x = 2 * s_wfc R_ops r x - s_wfp R_ops r x
       + md_v m x ^ 2 * md_dt m ^ 2 * sumf (K := R_ops) (seq 0 (md_nd m)) (fun d => stretched m r d x + s_zeta R_ops r' d x)
       + 2 * md_v m x * sc x * md_dt m ^ 2 * (sumf (K := R_ops) (seq 0 (md_nd m)) (fun d => stretched m s d x + s_zeta R_ops s' d x) - q x))%R;
  bs_psi : forall d x, (d < md_nd m)%nat -> domain m x ->
    (s_psi R_ops r' d x = cpml_b m d (coord d x) * dx1 m d (s_wfc R_ops r) x + cpml_a m d (coord d x) * s_psi R_ops r d x)%R;
  bs_zeta : forall d x, (d < md_nd m)%nat -> domain m x ->
    (s_zeta R_ops r' d x = cpml_b m d (coord d x) * stretched m r d x + cpml_a m d (coord d x) * s_zeta R_ops r d x)%R;
  bs_out : forall x, length x = md_nd m -> ~ domain m x ->
    s_wfc R_ops r' x = 0%R /\ forall d, (d < md_nd m)%nat -> s_psi R_ops r' d x = 0%R /\ s_zeta R_ops r' d x = 0%R }.

(** The medium, the scattering potential and the source term that the user of [scalar_born] means. *)
Definition born_medium (c : ncall) (nd : nat) (s : setup) (b : nat) : medium :=
  opts_medium (n_opts c) nd (su_ratio s) (su_acc s) (su_vel s) (su_ext s) (model_at nd (su_ext s) (n_v c) b).
Definition born_scatter (c : ncall) (nd : nat) (s : setup) (b : nat) : pt -> R := scatter_at nd (su_ext s) (n_scatter c) b.
Definition born_source (c : ncall) (s : setup) (b t : nat) : pt -> R := source_at (n_opts c) (su_ratio s) (n_src c) (n_amps c) b t.

(** ** Lemmas *)
(** Away from the PML nothing is stretched. *)
Lemma depth_inside pw e x : fst e <= x < snd e -> depth pw e x = 0%R.
Proof. intros H. unfold depth. destruct (Z.ltb_spec x (fst e)); [lia|]. destruct (Z.leb_spec (snd e) x); [lia|]. reflexivity. Qed.
Lemma cpml_inside m d x : fst (md_ext m d) <= x < snd (md_ext m d) -> cpml_a m d x = 0%R /\ cpml_b m d x = 0%R.
Proof.
  intros H. unfold cpml_a, cpml_b, damping. rewrite (depth_inside _ _ _ H). destruct (Req_EM_T 0 0); [|lra]. split; [reflexivity|].
  replace (3 * md_vel m * ln 1000 / (2 * thickest m) * 0 ^ 2)%R with 0%R by ring. unfold Rdiv. rewrite Rmult_0_l, Rmult_0_l. reflexivity.
Qed.
Lemma DIFF1_zero a rd (f : Z -> R) : (forall k, - fd_pad a <= k <= fd_pad a -> f k = 0%R) -> DIFF1 (K := R_ops) a rd f = 0%R.
Proof.
  intros H. rewrite (DIFF1_ext R_ops a rd f (fun _ => 0%R)) by (intros k H1 H2; apply H; lia). destruct a; cbn; ring.
Qed.
Lemma inner_stretched m s d x : inner m x -> (d < md_nd m)%nat -> stretched m s d x = dx2 m d (s_wfc R_ops s) x.
Proof.
  intros [L H] Hd. specialize (H d Hd). pose proof (fd_pad_pos (md_acc m)). unfold stretched.
  rewrite (proj2 (cpml_inside m d (coord d x) ltac:(lia))).
  assert (D : cpml_db m d (coord d x) = 0%R).
  { unfold cpml_db. apply DIFF1_zero. intros k Hk. apply cpml_inside. lia. }
  assert (D1' : dx1 m d (fun y => (cpml_a m d (coord d y) * s_psi R_ops s d y)%R) x = 0%R).
  { unfold dx1, D1. apply DIFF1_zero. intros k Hk. rewrite coord_shift_same by lia. rewrite (proj1 (cpml_inside m d (coord d x + k) ltac:(lia))). ring. }
  rewrite D, D1'. ring.
Qed.
Lemma inner_zeta m d x : inner m x -> (d < md_nd m)%nat -> forall u z : R, (cpml_b m d (coord d x) * u + cpml_a m d (coord d x) * z = 0)%R.
Proof.
  intros [L H] Hd u z. specialize (H d Hd). pose proof (fd_pad_pos (md_acc m)). destruct (cpml_inside m d (coord d x) ltac:(lia)) as [-> ->]. ring.
Qed.

(** The equations depend on the memory variables of the [nd] dimensions only. *)
Lemma wave_step_ext m q s s1 s2 : steq (md_nd m) s1 s2 -> wave_step m q s s1 -> wave_step m q s s2.
Proof.
  intros (E1 & E2 & E3 & E4) [Q1 Q2 Q3 Q4 Q5 Q6]. split.
  - intros x. rewrite <- E2. apply Q1.
  - intros x Hx. rewrite <- E1. apply Q2, Hx.
  - intros x Hx. rewrite <- E1, (Q3 x Hx). f_equal. f_equal. f_equal. apply sumf_ext. intros d Hd. apply in_seq in Hd. rewrite E4 by lia. reflexivity.
  - intros d x Hd Hx. rewrite <- E3 by exact Hd. apply Q4; assumption.
  - intros d x Hd Hx. rewrite <- E4 by exact Hd. apply Q5; assumption.
  - intros x L Hx. destruct (Q6 x L Hx) as [A B]. split; [rewrite <- E1; exact A|]. intros d Hd. rewrite <- E3, <- E4 by exact Hd. apply B, Hd.
Qed.
Lemma scatter_step_ext m sc q s s1 s2 r r1 r2 : steq (md_nd m) s1 s2 -> steq (md_nd m) r1 r2 -> scatter_step m sc q s s1 r r1 -> scatter_step m sc q s s2 r r2.
Proof.
  intros (S1 & S2 & S3 & S4) (E1 & E2 & E3 & E4) [Q1 Q2 Q3 Q4 Q5 Q6]. split.
  - intros x. rewrite <- E2. apply Q1.
  - intros x Hx. rewrite <- E1. apply Q2, Hx.
  - intros x Hx. rewrite <- E1, (Q3 x Hx). f_equal; [f_equal; f_equal|f_equal; f_equal]; apply sumf_ext; intros d Hd; apply in_seq in Hd; rewrite ?E4, ?S4 by lia; reflexivity.
  - intros d x Hd Hx. rewrite <- E3 by exact Hd. apply Q4; assumption.
  - intros d x Hd Hx. rewrite <- E4 by exact Hd. apply Q5; assumption.
  - intros x L Hx. destruct (Q6 x L Hx) as [A B]. split; [rewrite <- E1; exact A|]. intros d Hd. rewrite <- E3, <- E4 by exact Hd. apply B, Hd.
Qed.

Section Born.
Variables (c : ncall) (nd : nat) (s : setup) (b : nat) (vmin vmax : R) (nw : nat).
Notation o := (n_opts c).
Notation amps := [n_amps c; n_amps c].
Notation src := [n_src c; n_src c].
Notation rec := [n_bgrec c; n_rec c].
Notation models := [n_v c; n_scatter c].
Notation modes := [Replicate; Constant].
Notation M := (born_medium c nd s b).
Notation SC := (born_scatter c nd s b).
Notation P := (born_par s b).
Notation PW := (pw_of (su_pw s)).
Notation pad := (sum_pad (repeat (o_accuracy o / 2) (2 * nd)) (su_pw s)).
Notation rl := (rel (su_ext s) pad).
Notation MV := (model_at nd (su_ext s) (n_v c) b).
Notation U := (ust o nd s).
Hypothesis Hs : reg_setup models modes o amps src rec vmin vmax nw nd = Some s.
Hypothesis W1 : locs_whole nd src.
Hypothesis W2 : locs_whole nd rec.
Hypothesis Ha : some_area o nd src rec.
Hypothesis Hf : o_freq o <> Some 0%R.
Hypothesis Hb : Z.of_nat b < su_nb s.
Notation RG f := (f models modes o amps src rec vmin vmax nw nd s Hs) (only parsing).

Lemma bn_int x : domain M x -> interior R_ops P (rl x) = true.
Proof. intros Hx. apply (RG domain_int Ha MV _ _ x (proj1 Hx)). exact Hx. Qed.
Lemma bn_arr x : domain M x -> inb (abox (su_shape s)) (rl x) = true.
Proof. intros Hx. apply (inint_arr R_ops P). apply bn_int, Hx. Qed.
Lemma bn_v x : domain M x -> kind_model s 0 b (idx (su_shape s) (rl x)) = md_v M x.
Proof. intros Hx. exact (RG k_model Ha b 0%nat (n_v c) Replicate x Hb eq_refl eq_refl (proj1 Hx) (bn_arr x Hx)). Qed.
Lemma bn_sc x : domain M x -> kind_model s 1 b (idx (su_shape s) (rl x)) = SC x.
Proof. intros Hx. exact (RG k_model Ha b 1%nat (n_scatter c) Constant x Hb eq_refl eq_refl (proj1 Hx) (bn_arr x Hx)). Qed.
Lemma bn_dt2 : p_dt2 P = (md_dt M ^ 2)%R.
Proof. pose proof (RG m_dt Ha MV) as H. change (md_dt M) with (md_dt (opts_medium o nd (su_ratio s) (su_acc s) (su_vel s) (su_ext s) MV)). rewrite H. reflexivity. Qed.
Lemma bn_rows : kind_row (su_src s) 1 b = kind_row (su_src s) 0 b.
Proof. exact (RG rows_same Ha b W1 W2 true 1%nat 0%nat eq_refl). Qed.
Lemma bn_amp t x : domain M x -> amp_in P (p_src P) (born_f s b (Z.of_nat t)) (rl x) = (- (md_v M x ^ 2 * md_dt M ^ 2 * born_source c s b t x))%R.
Proof.
  intros Hx. pose proof (RG k_amp Ha b (kind_row (su_src s) 0 b) (kind_row (su_rec s) 0 b) W1 W2 (fun i => (- (kind_model s 0 b i * kind_model s 0 b i) * p_dt2 P)%R) 0%nat (n_src c) (n_amps c) t x eq_refl eq_refl (proj1 Hx) (bn_arr x Hx)) as H.
  cbv beta in H. rewrite (bn_v x Hx), bn_dt2 in H. unfold born_source. transitivity (- (md_v M x * md_v M x) * md_dt M ^ 2 * source_at o (su_ratio s) (n_src c) (n_amps c) b t x)%R; [|rring]. rewrite <- H.
  unfold born_f, scale_amps. change (p_src P) with (kind_row (su_src s) 0 b). apply (f_equal (fun l => amp_in P (kind_row (su_src s) 0 b) l (rl x))). apply map_ext. intros [l a]. cbn [fst snd]. rewrite bn_dt2. rring.
Qed.
Lemma bn_ampsc t x : domain M x -> amp_in P (p_src P) (born_fsc s b (Z.of_nat t)) (rl x) = (- (2 * md_v M x * SC x * md_dt M ^ 2 * born_source c s b t x))%R.
Proof.
  intros Hx. pose proof (RG k_amp Ha b (kind_row (su_src s) 0 b) (kind_row (su_rec s) 0 b) W1 W2 (fun i => (- 2 * kind_model s 0 b i * kind_model s 1 b i * p_dt2 P)%R) 1%nat (n_src c) (n_amps c) t x eq_refl eq_refl (proj1 Hx) (bn_arr x Hx)) as H.
  cbv beta in H. rewrite (bn_v x Hx), (bn_sc x Hx), bn_dt2 in H. unfold born_source. transitivity (- 2 * md_v M x * SC x * md_dt M ^ 2 * source_at o (su_ratio s) (n_src c) (n_amps c) b t x)%R; [|rring]. rewrite <- H.
  unfold born_fsc, scale_amps_sc. change (p_src P) with (kind_row (su_src s) 0 b). rewrite bn_rows. apply (f_equal (fun l => amp_in P (kind_row (su_src s) 0 b) l (rl x))). apply map_ext. intros [l a]. cbn [fst snd]. rewrite bn_dt2. rring.
Qed.
Lemma bn_geom : geom_ok R_ops P PW.
Proof. exact (RG r_geom Ha Hf _ _). Qed.
Lemma bn_src : Forall (loc_ok R_ops P) (p_src P).
Proof. exact (RG r_loc Ha b (kind_row (su_src s) 0 b) (kind_row (su_rec s) 0 b) W1 W2 true 0%nat). Qed.
Lemma bn_rec k : Forall (loc_ok R_ops P) (kind_row (su_rec s) k b).
Proof. exact (RG r_loc Ha b (kind_row (su_src s) 0 b) (kind_row (su_rec s) 0 b) W1 W2 false k). Qed.
Lemma bn_out amps' g x : length x = nd -> ~ domain M x -> inject R_ops P (p_src P) amps' g (rl x) = g (rl x) /\ interior R_ops P (rl x) = false.
Proof.
  intros L Hn. assert (Hi : interior R_ops P (rl x) = false).
  { destruct (interior R_ops P (rl x)) eqn:Ei; [|reflexivity]. exfalso. apply Hn. apply (RG domain_int Ha MV (kind_row (su_src s) 0 b) (kind_row (su_rec s) 0 b) x L). exact Ei. }
  split; [|exact Hi]. exact (RG r_inject_out Ha b (kind_row (su_src s) 0 b) (kind_row (su_rec s) 0 b) W1 W2 0%nat amps' g (rl x) eq_refl Hi).
Qed.

Lemma bn_tmp u d x : (d < nd)%nat -> domain M x -> stretched M (U u) d x = tmpf R_ops P (s_wfc R_ops u) (s_psi R_ops u d) d (rl x).
Proof. exact (RG tmp_user Ha Hf MV (kind_row (su_src s) 0 b) (kind_row (su_rec s) 0 b) u d x). Qed.
Lemma bn_d1 u d x : (d < nd)%nat -> domain M x -> dx1 M d (s_wfc R_ops (U u)) x = d1 R_ops P d (s_wfc R_ops u) (rl x).
Proof. intros Hd Hx. exact (RG dx1_user Ha MV (kind_row (su_src s) 0 b) (kind_row (su_rec s) 0 b) d (s_wfc R_ops (U u)) (s_wfc R_ops u) x (proj1 Hx) Hd (fun _ => eq_refl)). Qed.
(** The sum of the kernels is that of the specification. *)
Lemma bn_wsum u z x : domain M x -> (forall d, (d < nd)%nat -> z d = (p_b P d (coord d (rl x)) * tmpf R_ops P (s_wfc R_ops u) (s_psi R_ops u d) d (rl x) + p_a P d (coord d (rl x)) * s_zeta R_ops u d (rl x))%R) ->
  wsum R_ops P u (rl x) = sumf (K := R_ops) (seq 0 nd) (fun d => stretched M (U u) d x + z d)%R.
Proof.
  intros Hx Hz. unfold wsum, dims. change (p_shape P) with (su_shape s). rewrite (RG gs_rank Ha). apply sumf_ext. intros d Hd. apply in_seq in Hd.
  rewrite Hz by lia. rewrite (bn_tmp u d x ltac:(lia) Hx). unfold pb, pa. rring.
Qed.
Lemma bn_psi u d x : (d < nd)%nat -> domain M x ->
  (p_b P d (coord d (rl x)) * d1 R_ops P d (s_wfc R_ops u) (rl x) + p_a P d (coord d (rl x)) * s_psi R_ops u d (rl x)
   = cpml_b M d (coord d x) * dx1 M d (s_wfc R_ops (U u)) x + cpml_a M d (coord d x) * s_psi R_ops (U u) d x)%R.
Proof.
  intros Hd Hx. pose proof (RG prof_user Ha Hf MV (kind_row (su_src s) 0 b) (kind_row (su_rec s) 0 b) d (coord d (rl x)) Hd) as [E1 E2].
  rewrite (RG ucoord_rl d x Hd) in E1, E2. 
  change (p_a P d (coord d (rl x)) = cpml_a M d (coord d x)) in E1. change (p_b P d (coord d (rl x)) = cpml_b M d (coord d x)) in E2. rewrite E1, E2.
  rewrite (bn_d1 u d x Hd Hx). reflexivity.
Qed.
Lemma bn_zeta u d x : (d < nd)%nat -> domain M x ->
  (p_b P d (coord d (rl x)) * tmpf R_ops P (s_wfc R_ops u) (s_psi R_ops u d) d (rl x) + p_a P d (coord d (rl x)) * s_zeta R_ops u d (rl x)
   = cpml_b M d (coord d x) * stretched M (U u) d x + cpml_a M d (coord d x) * s_zeta R_ops (U u) d x)%R.
Proof.
  intros Hd Hx. pose proof (RG prof_user Ha Hf MV (kind_row (su_src s) 0 b) (kind_row (su_rec s) 0 b) d (coord d (rl x)) Hd) as [E1 E2].
  rewrite (RG ucoord_rl d x Hd) in E1, E2.
  change (p_a P d (coord d (rl x)) = cpml_a M d (coord d x)) in E1. change (p_b P d (coord d (rl x)) = cpml_b M d (coord d x)) in E2. rewrite E1, E2.
  rewrite (bn_tmp u d x Hd Hx). reflexivity.
Qed.
Lemma bn_mask g x : domain M x -> mask R_ops P g (rl x) = g (rl x).
Proof. intros Hx. unfold mask. rewrite (bn_int x Hx). reflexivity. Qed.

Notation VF := (fun p => kind_model s 0 b (idx (su_shape s) p)).
Notation SF := (fun p => kind_model s 1 b (idx (su_shape s) p)).
Lemma bn_bg_step t u : wave_step M (born_source c s b t) (U u) (U (step R_ops P VF (born_f s b (Z.of_nat t)) u)).
Proof.
  assert (Z0 : forall d x, (d < nd)%nat -> domain M x -> s_zeta R_ops (U (step R_ops P VF (born_f s b (Z.of_nat t)) u)) d x =
     (cpml_b M d (coord d x) * stretched M (U u) d x + cpml_a M d (coord d x) * s_zeta R_ops (U u) d x)%R).
  { intros d x Hd Hx. rewrite <- (bn_zeta u d x Hd Hx). cbn [ust s_zeta step]. rewrite (bn_mask _ x Hx). reflexivity. }
  assert (WV : forall x, domain M x -> (s_wfc R_ops (U (step R_ops P VF (born_f s b (Z.of_nat t)) u)) x = 2 * s_wfc R_ops (U u) x - s_wfp R_ops (U u) x
       + md_v M x ^ 2 * md_dt M ^ 2 * (sumf (K := R_ops) (seq 0 nd) (fun d => stretched M (U u) d x + s_zeta R_ops (U (step R_ops P VF (born_f s b (Z.of_nat t)) u)) d x) - born_source c s b t x))%R).
  { intros x Hx. rewrite <- (bn_wsum u (fun d => s_zeta R_ops (U (step R_ops P VF (born_f s b (Z.of_nat t)) u)) d x) x Hx) by (intros d Hd; rewrite (bn_zeta u d x Hd Hx); apply Z0; assumption).
    cbn [ust s_wfc s_wfp step]. rewrite (inject_amp R_ops P bn_src) by apply bn_arr, Hx. rewrite (bn_amp t x Hx), (bn_mask _ x Hx). cbv beta. rewrite (bn_v x Hx), bn_dt2. rring. }
  split.
  - intros x. reflexivity.
  - intros x Hx. pose proof (RG r_inner_domain MV x Hx) as Hd. rewrite (WV x Hd). f_equal. f_equal. f_equal. apply sumf_ext. intros d Hd'. apply in_seq in Hd'; change (md_nd M) with nd in Hd'; assert (Hn : (d < nd)%nat) by lia.
    rewrite (inner_stretched M (U u) d x Hx Hn). rewrite (Z0 d x Hn Hd), (inner_zeta M d x Hx Hn). rring.
  - exact WV.
  - intros d x Hd Hx. rewrite <- (bn_psi u d x Hd Hx). cbn [ust s_psi step]. rewrite (bn_mask _ x Hx). reflexivity.
  - exact Z0.
  - intros x L Hn. cbn [ust s_wfc s_psi s_zeta step]. destruct (bn_out (born_f s b (Z.of_nat t)) (mask R_ops P (fun p => omul R_ops (omul R_ops (omul R_ops (VF p) (VF p)) (p_dt2 P)) (wsum R_ops P u p) + two * s_wfc R_ops u p - s_wfp R_ops u p)%K) x L Hn) as [E0 Hi].
    split; [etransitivity; [exact E0|]; unfold mask; rewrite Hi; reflexivity|]. intros d _. unfold mask. rewrite Hi. split; reflexivity.
Qed.
Lemma bn_sc_step t u r u' : u' = step R_ops P VF (born_f s b (Z.of_nat t)) u ->
  scatter_step M SC (born_source c s b t) (U u) (U u') (U r) (U (tstep R_ops P VF SF (born_fsc s b (Z.of_nat t)) u r)).
Proof.
  intros Hu'. pose proof (bn_bg_step t u) as BG. rewrite <- Hu' in BG. destruct BG as [_ _ _ _ BZ _].
  assert (Z0 : forall d x, (d < nd)%nat -> domain M x -> s_zeta R_ops (U (tstep R_ops P VF SF (born_fsc s b (Z.of_nat t)) u r)) d x =
     (cpml_b M d (coord d x) * stretched M (U r) d x + cpml_a M d (coord d x) * s_zeta R_ops (U r) d x)%R).
  { intros d x Hd Hx. rewrite <- (bn_zeta r d x Hd Hx). cbn [ust s_zeta tstep]. rewrite (bn_mask _ x Hx). reflexivity. }
  assert (WV : forall x, domain M x -> (s_wfc R_ops (U (tstep R_ops P VF SF (born_fsc s b (Z.of_nat t)) u r)) x = 2 * s_wfc R_ops (U r) x - s_wfp R_ops (U r) x
       + md_v M x ^ 2 * md_dt M ^ 2 * sumf (K := R_ops) (seq 0 nd) (fun d => stretched M (U r) d x + s_zeta R_ops (U (tstep R_ops P VF SF (born_fsc s b (Z.of_nat t)) u r)) d x)
       + 2 * md_v M x * SC x * md_dt M ^ 2 * (sumf (K := R_ops) (seq 0 nd) (fun d => stretched M (U u) d x + s_zeta R_ops (U u') d x) - born_source c s b t x))%R).
  { intros x Hx. rewrite <- (bn_wsum r (fun d => s_zeta R_ops (U (tstep R_ops P VF SF (born_fsc s b (Z.of_nat t)) u r)) d x) x Hx) by (intros d Hd; rewrite (bn_zeta r d x Hd Hx); apply Z0; assumption).
    rewrite <- (bn_wsum u (fun d => s_zeta R_ops (U u') d x) x Hx) by (intros d Hd; rewrite (bn_zeta u d x Hd Hx); apply BZ; assumption).
    cbn [ust s_wfc s_wfp tstep]. rewrite (inject_amp R_ops P bn_src) by apply bn_arr, Hx. rewrite (bn_ampsc t x Hx), (bn_mask _ x Hx). cbv beta. rewrite (bn_v x Hx), (bn_sc x Hx), bn_dt2. rring. }
  split.
  - intros x. reflexivity.
  - intros x Hx. pose proof (RG r_inner_domain MV x Hx) as Hd. rewrite (WV x Hd). f_equal; [f_equal; f_equal|f_equal; f_equal]; apply sumf_ext; intros d Hd'; apply in_seq in Hd'; change (md_nd M) with nd in Hd'; assert (Hn : (d < nd)%nat) by lia.
    + rewrite (inner_stretched M (U r) d x Hx Hn). rewrite (Z0 d x Hn Hd), (inner_zeta M d x Hx Hn). rring.
    + rewrite (inner_stretched M (U u) d x Hx Hn). rewrite (BZ d x Hn Hd), (inner_zeta M d x Hx Hn). rring.
  - exact WV.
  - intros d x Hd Hx. rewrite <- (bn_psi r d x Hd Hx). cbn [ust s_psi tstep]. rewrite (bn_mask _ x Hx). reflexivity.
  - exact Z0.
  - intros x L Hn. cbn [ust s_wfc s_psi s_zeta tstep].
    destruct (bn_out (born_fsc s b (Z.of_nat t)) (mask R_ops P (fun p => VF p * VF p * p_dt2 P * wsum R_ops P r p + SF p * (two * VF p * p_dt2 P * wsum R_ops P u p) + two * s_wfc R_ops r p - s_wfp R_ops r p)%K) x L Hn) as [E0 Hi].
    split; [etransitivity; [exact E0|]; unfold mask; rewrite Hi; reflexivity|]. intros d _. unfold mask. rewrite Hi. split; reflexivity.
Qed.
End Born.

Lemma born_solves_user c nd s b vis vrg srg w0 wsc0 : born_setup c nd = Some s ->
  let src := [n_src c; n_src c] in let rec := [n_bgrec c; n_rec c] in let m := born_medium c nd s b in let n := ksteps (n_opts c) s in
  locs_whole nd src -> locs_whole nd rec -> some_area (n_opts c) nd src rec -> o_freq (n_opts c) <> Some 0%R ->
  0 < o_interval (n_opts c) -> (su_nt s = 0 \/ o_interval (n_opts c) * su_ratio s <= su_nt s) -> Z.of_nat b < su_nb s ->
  fvis R_ops (born_par s b) (pw_of (su_pw s)) vis ->
  exists B (W V : nat -> st R_ops),
    born_run s b vis vrg srg w0 wsc0 = Some B /\
    (forall d x, s_wfc R_ops (W O) x = 0 /\ s_wfp R_ops (W O) x = 0 /\ s_psi R_ops (W O) d x = 0 /\ s_zeta R_ops (W O) d x = 0)%R /\
    (forall d x, s_wfc R_ops (V O) x = 0 /\ s_wfp R_ops (V O) x = 0 /\ s_psi R_ops (V O) d x = 0 /\ s_zeta R_ops (V O) d x = 0)%R /\
    (forall k, (k < n)%nat -> wave_step m (born_source c s b k) (W k) (W (S k)) /\ scatter_step m (born_scatter c nd s b) (born_source c s b k) (W k) (W (S k)) (V k) (V (S k))) /\
    (length (born_bgdata c s b B) = length (match n_bgrec c with Some l => nth b (lt_data l) [] | None => [] end) /\
       forall l qs j q, n_bgrec c = Some l -> nth_error (lt_data l) b = Some qs -> nth_error qs j = Some q ->
         nth_error (born_bgdata c s b B) j = Some (trace_at (n_opts c) (su_ratio s) (su_nt s) n (fun t => s_wfc R_ops (W t)) q)) /\
    (length (born_data c s b B) = length (match n_rec c with Some l => nth b (lt_data l) [] | None => [] end) /\
       forall l qs j q, n_rec c = Some l -> nth_error (lt_data l) b = Some qs -> nth_error qs j = Some q ->
         nth_error (born_data c s b B) j = Some (trace_at (n_opts c) (su_ratio s) (su_nt s) n (fun t => s_wfc R_ops (V t)) q)) /\
    (forall x, domain m x ->
       let q := map (fun d => coord d x - fst (nth d (su_ext s) (0, 0)) + nth (2 * d) (per_list (o_pw (n_opts c)) (2 * nd)) 0) (seq 0 nd) in
       forall u w, (u = bo_u R_ops B /\ w = W n) \/ (u = bo_usc R_ops B /\ w = V n) ->
       s_wfc R_ops u q = s_wfc R_ops w x /\ s_wfp R_ops u q = s_wfp R_ops w x /\
       forall d, (d < nd)%nat -> s_psi R_ops u d q = s_psi R_ops w d x /\ s_zeta R_ops u d q = s_zeta R_ops w d x).
Proof.
  intros Hset src rec m n W1 W2 Ha Hf Hi Hn Hb Hv. unfold born_setup in Hset. destruct (max_abs (n_v c)) as [vm|]; [|discriminate].
  rename Hset into Hs. destruct (gs_cfl _ _ _ _ _ _ _ _ _ _ _ Hs Ha) as (_ & _ & _ & _ & Hr & _). pose proof (gs_interval _ _ _ _ _ _ _ _ _ _ _ Hs) as Hint.
  assert (LF : forall t, length (born_fsc s b t) = length (born_f s b t)).
  { intros t. unfold born_fsc, born_f, scale_amps_sc, scale_amps, kind_amps. rewrite !map_length, !combine_length, !map_length, !seq_length.
    rewrite (bn_rows c nd s b _ _ _ Hs W1 W2 Ha). reflexivity. }
  set (F := fun t => dlist (K := R_ops) (born_f s b t) (born_fsc s b t)).
  assert (F1 : forall t, lre (F t) = born_f s b t) by (intros t; apply (lre_dlist (K := R_ops)); symmetry; apply LF).
  assert (F2 : forall t, lep (F t) = born_fsc s b t) by (intros t; apply (lep_dlist (K := R_ops)); symmetry; apply LF).
  destruct (born_forward_spec R_ops R_is_ring (born_par s b) (born_recsc s b) (pw_of (su_pw s)) (bn_geom c nd s b _ _ _ Hs Ha Hf) (bn_src c nd s b _ _ _ Hs W1 W2 Ha) (bn_rec c nd s b _ _ _ Hs W1 W2 Ha 0%nat)
    (bn_rec c nd s b _ _ _ Hs W1 W2 Ha 1%nat) (kind_model s 0 b) (kind_model s 1 b) vis vrg srg (su_ratio s * su_interval s) F (born_f s b) (born_fsc s b) (su_nt s) None w0 wsc0 (zero_st R_ops) (zero_st R_ops) Hv) as (B & HB & U1 & U2 & HR & HZ).
  { rewrite Hint. nia. }
  { rewrite Hint. cbn. lia. }
  { intros t. symmetry. apply F1. }
  { intros t. symmetry. apply F2. }
  assert (NS : nsteps (su_nt s) (su_ratio s * su_interval s) = n) by (unfold nsteps, n, ksteps; rewrite Hint, (Z.mul_comm (su_ratio s)); reflexivity). rewrite NS in *.
  set (D := dstt R_ops (born_par s b) (pw_of (su_pw s)) (kind_model s 0 b) (kind_model s 1 b) F (dstate (zero_st R_ops) (zero_st R_ops))) in *.
  exists B, (fun k => ust (n_opts c) nd s (sre (D k))), (fun k => ust (n_opts c) nd s (sep (D k))).
  split. { unfold born_run. destruct (Z.eqb_spec (su_ratio s * su_interval s) 0) as [Q|_]; [rewrite Hint in Q; nia|]. exact HB. }
  split. { intros d x. cbn. unfold fre. repeat split; repeat match goal with |- fst (if ?e then _ else _) = _ => destruct e end; reflexivity. }
  split. { intros d x. cbn. unfold fep. repeat split; repeat match goal with |- snd (if ?e then _ else _) = _ => destruct e end; reflexivity. }
  split.
  { intros k Hk.
    assert (DS : D (S k) = step (dual R_ops) (dpar (born_par s b)) (fun p => perturb (kind_model s 0 b) (kind_model s 1 b) (idx (su_shape s) p)) (F (Z.of_nat k)) (D k)).
    { unfold D, dstt. rewrite state_S_last. replace (0 + Z.of_nat k) with (Z.of_nat k) by lia. reflexivity. }
    pose proof (sre_step R_ops (born_par s b) (fun p => perturb (kind_model s 0 b) (kind_model s 1 b) (idx (su_shape s) p)) (F (Z.of_nat k)) (D k)) as E1.
    pose proof (sep_step R_ops R_is_ring (born_par s b) (fun p => perturb (kind_model s 0 b) (kind_model s 1 b) (idx (su_shape s) p)) (F (Z.of_nat k)) (D k)) as E2.
    rewrite <- DS in E1, E2.
    rewrite F1 in E1. rewrite F2 in E2.
    assert (UE : forall r1 r2, steq (length (p_shape (born_par s b))) r1 r2 -> steq (md_nd m) (ust (n_opts c) nd s r2) (ust (n_opts c) nd s r1)).
    { intros r1 r2 (G1 & G2 & G3 & G4). change (p_shape (born_par s b)) with (su_shape s) in G3, G4. rewrite (gs_rank _ _ _ _ _ _ _ _ _ _ _ Hs Ha) in G3, G4. change (md_nd m) with nd.
      repeat split; intros; cbn [ust s_wfc s_wfp s_psi s_zeta]; symmetry; auto. }
    split.
    - apply (wave_step_ext m _ _ _ _ (UE _ _ E1)). exact (bn_bg_step c nd s b _ _ _ Hs W1 W2 Ha Hf Hb k (sre (D k))).
    - apply (scatter_step_ext m _ _ _ _ _ _ _ _ (UE _ _ E1) (UE _ _ E2)). exact (bn_sc_step c nd s b _ _ _ Hs W1 W2 Ha Hf Hb k (sre (D k)) (sep (D k)) _ eq_refl). }
  assert (ZL : forall l : list Z, forall i, nth i (map (fun _ => 0%R) l) 0%R = 0%R) by (induction l as [|y l IH]; intros [|i]; cbn; auto).
  split; [|split].
  - split; [exact (k_data_length _ _ _ _ _ _ _ _ _ _ _ Hs Ha b W1 W2 0%nat (bo_r R_ops B))|]. intros l qs j q Hl Hqs Hq.
    apply (k_data _ _ _ _ _ _ _ _ _ _ _ Hs Ha b (kind_row (su_src s) 0 b) (kind_row (su_rec s) 0 b) W2 0%nat l qs j q (bo_r R_ops B) (fun t => s_wfc R_ops (sre (D t))) n); [unfold rec; cbn; rewrite Hl; reflexivity|exact Hqs|exact Hq|..].
    + intros t Ht. exact (proj1 (HR t Ht)).
    + intros t Ht i. rewrite (proj1 (HZ (Z.of_nat t) ltac:(lia))). apply ZL.
  - split; [exact (k_data_length _ _ _ _ _ _ _ _ _ _ _ Hs Ha b W1 W2 1%nat (bo_rsc R_ops B))|]. intros l qs j q Hl Hqs Hq.
    apply (k_data _ _ _ _ _ _ _ _ _ _ _ Hs Ha b (kind_row (su_src s) 0 b) (kind_row (su_rec s) 0 b) W2 1%nat l qs j q (bo_rsc R_ops B) (fun t => s_wfc R_ops (sep (D t))) n); [unfold rec; cbn; rewrite Hl; reflexivity|exact Hqs|exact Hq|..].
    + intros t Ht. exact (proj2 (HR t Ht)).
    + intros t Ht i. rewrite (proj2 (HZ (Z.of_nat t) ltac:(lia))). apply ZL.
  - intros x Hx q u w Huw. pose proof Hx as [Lx Hx']. change (md_nd m) with nd in Lx.
    assert (Tq : topad R_ops (born_par s b) q = rel (su_ext s) (sum_pad (repeat (o_accuracy (n_opts c) / 2) (2 * nd)) (su_pw s)) x).
    { assert (Lq : length q = nd) by (unfold q; rewrite map_length, seq_length; reflexivity).
      apply (pt_ext nd); [unfold topad; rewrite map_length; exact Lq|apply (rl_length _ _ _ _ _ _ _ _ _ _ _ Hs)|]. intros d Hd. rewrite coord_topad by lia. rewrite (coord_rl _ _ _ _ _ _ _ _ _ _ _ Hs d x Hd).
      unfold q. rewrite coord_map_seq by exact Hd. destruct (gs_parts _ _ _ _ _ _ _ _ _ _ _ Hs) as (_ & _ & _ & _ & Hw & _). apply set_pml_width_spec in Hw. destruct Hw as (_ & _ & Hw). rewrite Hw. cbn. lia. }
    assert (Hu : In q (upts R_ops (born_par s b))) by (apply In_upts; rewrite Tq; apply (bn_int c nd s b _ _ _ Hs Ha); assumption).
    destruct (U1 q Hu) as (A1 & A2 & A3). destruct (U2 q Hu) as (C1 & C2 & C3). cbn [ucrop s_wfc s_wfp s_psi s_zeta] in A1, A2, A3, C1, C2, C3. rewrite Tq in A1, A2, A3, C1, C2, C3.
    change (p_shape (born_par s b)) with (su_shape s) in A3, C3. rewrite (gs_rank _ _ _ _ _ _ _ _ _ _ _ Hs Ha) in A3, C3.
    destruct Huw as [[-> ->]|[-> ->]]; (split; [assumption|]; split; [assumption|]); intros d Hd; [apply A3|apply C3]; exact Hd.
Qed.
