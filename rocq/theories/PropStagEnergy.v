(** * Properties C48, C49: energy conservation and stability of the acoustic and elastic propagators. *)
From Coq Require Import List ZArith QArith Qcanon Reals Lra Lia Bool Permutation.
From Verif Require Import Ops Sums Grid Stencil StencilOrder DualNum ScalarModel ScalarRefine ScalarAdjoint ScalarApi ScalarEx RealModel RealThm EnergyReal
  Stag StagAdj StagKernel StagCell StagRefine StagGrad AcousticModel AcousticThm AcousticEx ElasticModel ElasticThm StagEqs StagRun StagRunInst
  StagEnergy StagSetup StagStable StagUnstable StagEnergyEx PropReal.
Import ListNotations.
Local Open Scope R_scope.

(** C48: without PML and with zero source amplitudes the acoustic propagator returns wavefields of the same energy
    [<p, p/K> + <v, v/B> - dt <v, grad p>] as the ones it was given, in any ring, in every dimension, shape and
    accuracy, for every number of steps, storage interval and splitting by callbacks.  In every cell the bulk modulus
    and the buoyancies have inverses [wk], [wb], or are zero and the wavefield is zero there. *)
Theorem C48_conserved (nd : nat) (K : ops) (Kr : is_ring K) (P : spar (ac_sys nd) K) (pw : nat -> Z * Z) :
  length (sp_shape P) = nd -> locs_ok (ac_sys nd) K P (sp_src P) -> locs_ok (ac_sys nd) K P (sp_rec P) ->
  sgeom (ac_sys nd) K P pw -> no_layers nd pw ->
  forall (dt : K) (kb : aM -> arr K) (wk : field K) (wb : nat -> field K) f u nt sr visA visB kg bg cb store U Rc st,
  ac_fvis nd K P pw true visA -> ac_fvis nd K P pw false visB -> nt_ok nt sr cb ->
  (forall t c, (0 <= t)%Z -> Forall (fun x => x = o0 K) (f t c)) ->
  ac_cells nd K P kb wk wb u ->
  acoustic_forward nd K P pw dt kb visA visB kg bg sr f nt cb store u = Some (U, Rc, st) ->
  acoustic_energy nd K P dt wk wb U = acoustic_energy nd K P dt wk wb u /\ ac_cells nd K P kb wk wb U.
Proof. exact (acoustic_conserved nd K Kr P pw). Qed.
Print Assumptions C48_conserved.

Example na_conserved nt : (0 <= nt)%Z -> exists U R S, na_run nt = Some (U, R, S) /\
  acoustic_energy 2 Qc_ops naP (qq 1 2) na_wk na_wb U = acoustic_energy 2 Qc_ops naP (qq 1 2) na_wk na_wb na_u /\ na_check = true.
Proof.
  intros Hnt. destruct (na_some nt Hnt) as (U & R & S & E). exists U, R, S. split; [exact E|]. split; [|exact na_check_ok].
  refine (proj1 (C48_conserved 2 Qc_ops Qc_is_ring naP npw eq_refl na_src na_rec na_geom npw_none (qq 1 2) na_kb na_wk na_wb na_f na_u nt 1
    (na_vis true) (na_vis false) false false None (fun _ _ _ => qz 0) U R S (Permutation_refl _) (Permutation_refl _) _ na_zero na_cells E)).
  split; [lia|]. split; [exact Hnt|lia].
Qed.

(** C48: with positive densities of limited contrast, velocities bounded by [vmax], the prepared models and the time step
    chosen by [cfl_condition_n], that energy lies between 1/25 and 49/25 of the positive quantity
    [sum p^2 / (rho v^2) + sum rho_mean v_d^2]. *)
Theorem C48_positive (nd : nat) (ac : acc) (shape : list Z) (pw : nat -> Z * Z) (gs : list R) (dt vmax inner_dt freq rfmax : R) (ratio : Z)
    (src rec : sC (ac_sys nd) -> list Z) :
  let P := stag_par (ac_sys nd) ac shape pw inner_dt gs vmax freq src rec in
  cfl_condition_n gs dt vmax cfl_eps cfl_c_max = Some (inner_dt, ratio) -> length shape = nd -> length gs = nd ->
  forall v rho : arr R_ops, let vq := fun q => v (idx shape q) in let rq := fun q => rho (idx shape q) in
  densities_ok rfmax ac shape rq ->
  forall s : sst (ac_sys nd) R_ops,
  (forall q, updated P (fun _ => false) q -> Rabs (vq q) <= vmax) ->
  (forall q, updated P (fun _ => false) q -> vq q = 0 -> mn s XP q = 0) ->
  let E := acoustic_energy nd R_ops P inner_dt (fun q => / (rq q * vq q ^ 2)) (fun d q => (rq q + rq (shift d 1 q)) / 2) s in
  0 <= acoustic_size nd P vq rq s /\ acoustic_size nd P vq rq s <= 25 * E /\ 25 * E <= 49 * acoustic_size nd P vq rq s.
Proof. exact (run_norm nd ac shape pw gs dt vmax inner_dt freq rfmax ratio src rec). Qed.
Print Assumptions C48_positive.

(** C48 (partial: the densities of cells less than [accuracy / 2] apart may differ at most by the factor [contrast], which is
    no restriction for accuracy 2 and 100, 36, 16 for accuracies 4, 6, 8): with the models prepared by [prepare_models] and the
    time step chosen by [cfl_condition_n], a run of any length without PML and with zero source amplitudes returns
    wavefields at most 49 times as large as the given ones. *)
Theorem C48_stable_partial (nd : nat) (ac : acc) (shape : list Z) (pw : nat -> Z * Z) (gs : list R) (dt vmax inner_dt freq rfmax : R) (ratio : Z)
    (src rec : sC (ac_sys nd) -> list Z) :
  let P := stag_par (ac_sys nd) ac shape pw inner_dt gs vmax freq src rec in
  cfl_condition_n gs dt vmax cfl_eps cfl_c_max = Some (inner_dt, ratio) -> length shape = nd -> length gs = nd ->
  no_layers nd pw -> (forall d, (d < nd)%nat -> (2 * fd_pad ac - 1 < nth d shape 0)%Z) -> 0 < freq ->
  locs_ok (ac_sys nd) R_ops P src -> locs_ok (ac_sys nd) R_ops P rec ->
  forall v rho : arr R_ops, let vq := fun q => v (idx shape q) in let rq := fun q => rho (idx shape q) in
  densities_ok rfmax ac shape rq ->
  forall f (u : sst (ac_sys nd) R_ops) nt sr visA visB kg bg cb store U Rc st,
  (forall q, updated P (fun _ => false) q -> Rabs (vq q) <= vmax) ->
  (forall q, updated P (fun _ => false) q -> vq q = 0 -> mn u XP q = 0) ->
  ac_fvis nd R_ops P pw true visA -> ac_fvis nd R_ops P pw false visB -> nt_ok nt sr cb ->
  (forall t c, (0 <= t)%Z -> Forall (fun x => x = 0) (f t c)) ->
  acoustic_forward nd R_ops P pw inner_dt (prepare_models rfmax shape v rho) visA visB kg bg sr f nt cb store u = Some (U, Rc, st) ->
  acoustic_size nd P vq rq U <= 49 * acoustic_size nd P vq rq u.
Proof. exact (run_stable nd ac shape pw gs dt vmax inner_dt freq rfmax ratio src rec). Qed.
Print Assumptions C48_stable_partial.

(** The chosen time step for 10 m and 5900 m/s. *)
Example sa_cfl : cfl_condition_n [10] (1 / 1000) 5900 cfl_eps cfl_c_max = Some (1 / 1000, 1%Z).
Proof.
  assert (He : 0 <= cfl_eps) by (unfold cfl_eps; lra). assert (Hc : 0 < cfl_c_max) by (unfold cfl_c_max; lra).
  destruct (C25_returns [10] (1 / 1000) 5900 cfl_eps cfl_c_max) as (inner & ratio & E); try assumption; try lra; try discriminate.
  { repeat constructor; lra. }
  destruct (C25_cfl _ _ _ _ _ _ _ He Hc E) as (_ & _ & _ & _ & R1 & I1 & I2 & B & M). rewrite E.
  assert (S : sqrt (fold_right (fun g s => 1 / (g ^ 2) + s) 0 [10]) = 1 / 10).
  { cbn [fold_right]. replace (1 / 10 ^ 2 + 0) with ((1 / 10) * (1 / 10)) by lra. apply sqrt_square. lra. }
  rewrite S in B, M. replace (cfl_c_max / (1 / 10 * 5900)) with (6 / 5900) in B, M by (unfold cfl_c_max; lra).
  assert (Hr : (ratio = 1)%Z).
  { assert (U : (ratio < 2)%Z).
    { destruct (Z_lt_ge_dec ratio 2) as [|G]; [assumption|exfalso]. specialize (M 1%Z ltac:(lia)).
      rewrite Rabs_right in M by lra. unfold cfl_eps in M. lra. }
    lia. }
  subst ratio. do 2 f_equal. lra.
Qed.

(** Rock and water: a contrast of 2.5 at accuracy 4. *)
Definition rw_v : arr R_ops := fun i => if in_air i then 1500 else 5900.
Definition rw_rho : arr R_ops := fun i => if in_air i then 1000 else 2500.
Definition sa_f : krec (ac_sys 1) R_ops := fun _ _ => [].
Definition sa_vis A := svisits (ac_sys 1) (ac_kern 1) R_ops sa_P (fpml_b _ _ sa_P sa_pw) (fpml_e _ _ sa_P sa_pw) A.
Example rw_stable (nt : Z) : (0 <= nt)%Z -> exists U Rc st,
  acoustic_forward 1 R_ops sa_P sa_pw (1 / 1000) (prepare_models (1 / 10) sa_shape rw_v rw_rho) (sa_vis true) (sa_vis false) true true 1
    sa_f nt None (fun _ _ _ => 0) sa_u = Some (U, Rc, st) /\
  acoustic_size 1 sa_P (fun q => rw_v (idx sa_shape q)) (fun q => rw_rho (idx sa_shape q)) U
  <= 49 * acoustic_size 1 sa_P (fun q => rw_v (idx sa_shape q)) (fun q => rw_rho (idx sa_shape q)) sa_u.
Proof.
  intros Hnt. assert (Hok : nt_ok nt 1 None) by (split; [lia|]; split; [exact Hnt|lia]).
  destruct (run_some (ac_sys 1) (ac_kern 1) R_ops R_is_ring sa_P (ac_num 1 R_ops (1 / 1000) (prepare_models (1 / 10) sa_shape rw_v rw_rho))
    (ac_kc (K := R_ops) (1 / 1000) (prepare_models (1 / 10) sa_shape rw_v rw_rho)) sa_pw (ac_sys_ok 1) (ac_kern_ok 1)
    (ac_num_ok 1 R_ops R_is_ring (1 / 1000) (prepare_models (1 / 10) sa_shape rw_v rw_rho)) sa_locs sa_locs sa_geom
    (sa_vis true) (sa_vis false) (ac_flag true true) 1 sa_f nt None (fun _ _ _ => 0) sa_u (Permutation_refl _) (Permutation_refl _) Hok) as (U & Rc & st & E).
  exists U, Rc, st. split; [exact E|].
  refine (C48_stable_partial 1 A4 sa_shape sa_pw [10] (1 / 1000) 5900 (1 / 1000) 25 (1 / 10) 1 sa_none sa_none sa_cfl eq_refl eq_refl sa_layers _ _ sa_locs sa_locs
    rw_v rw_rho _ sa_f sa_u nt 1 (sa_vis true) (sa_vis false) true true None (fun _ _ _ => 0) U Rc st _ _ (Permutation_refl _) (Permutation_refl _) Hok _ E).
  - intros d Hd. replace d with 0%nat by lia. cbn. lia.
  - lra.
  - split; unfold rw_rho; [intros q _; destruct (in_air _); lra|]. cbn [contrast]. intros d j q _ _ _ _.
    destruct (in_air (idx sa_shape (shift d j q))), (in_air (idx sa_shape q)); lra.
  - intros q _. unfold rw_v. destruct (in_air _); rewrite Rabs_right; lra.
  - intros q _. unfold rw_v. destruct (in_air _); lra.
  - intros t c _. constructor.
Qed.

(** C48 is false without a bound on the contrast: steel and air (densities 7800 and 1.2, velocities 5900 and 340) at accuracy 4,
    one dimension, 10 m, 1 ms, no sources.  [cfl_condition_n] accepts the time step and the pressure grows at least sixfold in
    every step. *)
Theorem C48_refuted :
  cfl_condition_n [10] (1 / 1000) 5900 cfl_eps cfl_c_max = Some (1 / 1000, 1%Z) /\
  (forall i, Rabs (sa_v i) <= 5900 /\ 1 < sa_rho i) /\
  forall (rfmax : R), rfmax < 1 ->
  forall f visA visB kg bg cb store (n : nat),
  ac_fvis 1 R_ops sa_P sa_pw true visA -> ac_fvis 1 R_ops sa_P sa_pw false visB -> nt_ok (Z.of_nat n) 1 cb ->
  exists U Rc st, acoustic_forward 1 R_ops sa_P sa_pw (1 / 1000) (prepare_models rfmax sa_shape sa_v sa_rho) visA visB kg bg 1 f (Z.of_nat n) cb store sa_u = Some (U, Rc, st) /\
    6 ^ n <= Rabs (mn U XP [2%Z]).
Proof.
  split; [exact sa_cfl|]. split; [|exact sa_grows].
  intros i. unfold sa_v, sa_rho. destruct (in_air i); (split; [rewrite Rabs_right; lra|lra]).
Qed.
Print Assumptions C48_refuted.

(** C49: the elastic propagator, without PML and with zero source amplitudes, conserves
    [<v, v/B> + <strain, stress> + dt <v, div stress>]: whatever fields are strains of the given and of the returned stresses
    ([sigma_ii = lambda tr e + 2 mu e_ii], [sigma_ij = mu_ij e_ij]); the returned stresses have strains if the given ones do.
    Any ring, dimension, accuracy, heterogeneous moduli, fluids (zero shear moduli) included. *)
Theorem C49_conserved (nd : nat) (K : ops) (Kr : is_ring K) (P : spar (el_sys nd) K) (pw : nat -> Z * Z) :
  length (sp_shape P) = nd -> (0 < nd)%nat -> locs_ok (el_sys nd) K P (sp_src P) -> locs_ok (el_sys nd) K P (sp_rec P) ->
  sgeom (el_sys nd) K P pw -> no_layers nd pw ->
  forall (dt : K) (md : eM -> arr K) (wb : nat -> field K) (en : nat -> field K) (es : nat -> nat -> field K) (en' : nat -> field K) (es' : nat -> nat -> field K)
    f u nt sr visA visB lg mg bg cb store U Rc st,
  el_fvis nd K P pw true visA -> el_fvis nd K P pw false visB -> nt_ok nt sr cb ->
  (forall t c, (0 <= t)%Z -> Forall (fun x => x = o0 K) (f t c)) ->
  el_cells nd K P md wb u -> strain_of nd K P md u en es -> strain_of nd K P md U en' es' ->
  elastic_forward nd K P pw dt md visA visB lg mg bg sr f nt cb store u = Some (U, Rc, st) ->
  elastic_energy nd K P dt wb U en' es' = elastic_energy nd K P dt wb u en es.
Proof. exact (elastic_conserved_all nd K Kr P pw). Qed.
Print Assumptions C49_conserved.

Theorem C49_strain (nd : nat) (K : ops) (Kr : is_ring K) (P : spar (el_sys nd) K) (pw : nat -> Z * Z) :
  length (sp_shape P) = nd -> (0 < nd)%nat -> locs_ok (el_sys nd) K P (sp_src P) -> locs_ok (el_sys nd) K P (sp_rec P) ->
  sgeom (el_sys nd) K P pw -> no_layers nd pw ->
  forall (dt : K) (md : eM -> arr K) (wb : nat -> field K) (en : nat -> field K) (es : nat -> nat -> field K)
    f u nt sr visA visB lg mg bg cb store U Rc st,
  el_fvis nd K P pw true visA -> el_fvis nd K P pw false visB -> nt_ok nt sr cb ->
  (forall t c, (0 <= t)%Z -> Forall (fun x => x = o0 K) (f t c)) ->
  el_cells nd K P md wb u -> strain_of nd K P md u en es ->
  elastic_forward nd K P pw dt md visA visB lg mg bg sr f nt cb store u = Some (U, Rc, st) ->
  exists en' es', strain_of nd K P md U en' es' /\ el_cells nd K P md wb U /\
    elastic_energy nd K P dt wb U en' es' = elastic_energy nd K P dt wb u en es.
Proof. exact (elastic_conserved nd K Kr P pw). Qed.
Print Assumptions C49_strain.

Example ne_conserved nt : (0 <= nt)%Z -> exists U R S en' es', ne_run nt = Some (U, R, S) /\ strain_of 2 Qc_ops neP ne_md U en' es' /\
  ne_energy U en' es' = ne_energy ne_u ne_en ne_es /\ ne_energy ne_u ne_en ne_es <> qz 0 /\ ne_check = true.
Proof.
  intros Hnt. assert (Hok : nt_ok nt 1 None) by (split; [lia|]; split; [exact Hnt|lia]).
  destruct (ne_some nt Hnt) as (U & R & S & E).
  destruct (C49_strain 2 Qc_ops Qc_is_ring neP npw eq_refl ltac:(lia) ne_src ne_rec ne_geom npw_none (qq 1 2) ne_md na_wb ne_en ne_es ne_f ne_u nt 1
    (ne_vis true) (ne_vis false) false false false None (fun _ _ _ => qz 0) U R S (Permutation_refl _) (Permutation_refl _) Hok ne_zero ne_cells ne_strain E)
    as (en' & es' & H1 & _ & _).
  exists U, R, S, en', es'. split; [exact E|]. split; [exact H1|]. split; [|split; [apply nz_spec, ne_energy_nz|exact ne_check_ok]].
  exact (C49_conserved 2 Qc_ops Qc_is_ring neP npw eq_refl ltac:(lia) ne_src ne_rec ne_geom npw_none (qq 1 2) ne_md na_wb ne_en ne_es en' es' ne_f ne_u nt 1
    (ne_vis true) (ne_vis false) false false false None (fun _ _ _ => qz 0) U R S (Permutation_refl _) (Permutation_refl _) Hok ne_zero ne_cells ne_strain H1 E).
Qed.

(** C29: the profiles the staggered propagators set up vanish wherever the kernels leave the memory variables out. *)
Theorem C29_staggered_geom (S : sys) ac shape pw dt gs v freq src rec :
  length gs = length shape -> Forall (fun g => 0 < g) gs ->
  (forall d, (d < length shape)%nat -> (0 <= fst (pw d))%Z /\ (0 <= snd (pw d))%Z /\
     (fst (pw d) + snd (pw d) + 2 * fd_pad ac - 1 < nth d shape 0)%Z) ->
  dt <> 0 -> 0 < v -> 0 < freq ->
  sgeom S R_ops (stag_par S ac shape pw dt gs v freq src rec) pw.
Proof. exact (stag_par_geom S ac shape pw dt gs v freq src rec). Qed.
Print Assumptions C29_staggered_geom.

Example staggered_geom_ex : sgeom (el_sys 2) R_ops (stag_par (el_sys 2) A4 [30%Z; 40%Z] (fun d => if Nat.eqb d 0 then (3, 2)%Z else (0, 5)%Z)
  (1 / 1000) [5; 4] 2000 25 (fun _ => []) (fun _ => [])) (fun d => if Nat.eqb d 0 then (3, 2)%Z else (0, 5)%Z).
Proof.
  apply C29_staggered_geom; [reflexivity|repeat constructor; lra| |lra|lra|lra].
  intros [|[|d]] Hd; cbn in Hd |- *; lia.
Qed.
