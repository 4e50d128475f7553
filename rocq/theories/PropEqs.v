(** * C46: the propagators solve the documented equations; receivers record what they are named after. *)
From Coq Require Import List ZArith QArith Lia Bool Permutation.
From Verif Require Import Ops Sums Grid Stencil StencilOrder DualNum ScalarModel ScalarRefine ScalarAdjoint ScalarFunc ScalarPhys ScalarApi ScalarEx ScalarEqs
  Stag StagKernel StagCell StagRefine StagGrad StagPy AcousticModel AcousticThm AcousticEx ElasticModel ElasticThm ElasticPy ElasticEx StagEqs EqsUser.
Import ListNotations.
Local Open Scope K_scope.

(** Scalar: w(t+1) = 2 w(t) - w(t-1) + v^2 dt^2 (laplacian w(t) - source), and its PML extension ([scalar_eqs]). *)
Theorem C46_scalar_equation (K : ops) (Kr : is_ring K) (P : par K) (pw : nat -> Z * Z) :
  geom_ok K P pw -> Forall (loc_ok K P) (p_src P) -> Forall (loc_ok K P) (p_rec P) ->
  forall v vis vrg sr (amps : Z -> list K) nt cb store u, fvis K P pw vis -> (0 < sr)%Z -> cb_ok nt sr cb ->
  exists U R st (W : nat -> ScalarModel.st K),
    scalar_forward K P pw v vis vrg sr (fun t => scale_sources v (p_dt2 P) (p_src P) (amps t)) nt cb store u = Some (U, R, st) /\
    (forall p, cells P p -> s_wfc K (W 0%nat) p = s_wfc K u (unpad K P p) /\ s_wfp K (W 0%nat) p = s_wfp K u (unpad K P p)) /\
    (forall q, In q (ScalarFunc.upts K P) -> s_wfc K U q = s_wfc K (W (ScalarFunc.nsteps nt sr)) (topad K P q)
                              /\ s_wfp K U q = s_wfp K (W (ScalarFunc.nsteps nt sr)) (topad K P q)) /\
    (forall k, (k < ScalarFunc.nsteps nt sr)%nat -> scalar_eqs K P pw v (sc_src P v (amps (Z.of_nat k))) (W k) (W (Datatypes.S k))) /\
    (forall k, (k < ScalarFunc.nsteps nt sr)%nat ->
       R (Z.of_nat k) = map (fun l => if (0 <=? l)%Z then s_wfc K (W k) (unidx (p_shape P) l) else 0) (p_rec P)).
Proof. exact (fun Hg Hs Hr v vis vrg sr amps nt cb store u => scalar_user K Kr P pw Hg Hs Hr v vis vrg sr amps nt cb store u). Qed.
Print Assumptions C46_scalar_equation.

(** Acoustic: momentum and mass conservation ([acoustic_eqs]); pressure and velocity receivers. *)
Theorem C46_acoustic_equations (nd : nat) (K : ops) (Kr : is_ring K) (P : spar (ac_sys nd) K) (pw : nat -> Z * Z) :
  length (sp_shape P) = nd -> locs_ok (ac_sys nd) K P (sp_src P) -> locs_ok (ac_sys nd) K P (sp_rec P) -> sgeom (ac_sys nd) K P pw ->
  forall (dt : K) (kb : aM -> arr K) (amps : Z -> aX -> list K) u nt sr visA visB kg bg cb store,
  ac_fvis nd K P pw true visA -> ac_fvis nd K P pw false visB -> nt_ok nt sr cb ->
  exists U R st W,
    acoustic_forward nd K P pw dt kb visA visB kg bg sr (fun t => ac_prep dt kb (sp_src P) (amps t)) nt cb store u = Some (U, R, st) /\
    sseq (ac_sys nd) K U (W (StagRefine.nsteps nt sr)) /\
    (forall p, (forall d, (d < nd)%nat -> updated P (Nat.eqb d) p -> mn (W 0%Z) (XV d) p = mn u (XV d) p) /\
               (updated P (fun _ => false) p -> mn (W 0%Z) XP p = mn u XP p)) /\
    (forall t, (0 <= t < StagRefine.nsteps nt sr)%Z -> acoustic_eqs nd K P dt kb (ac_src P dt kb (amps t)) (W t) (W (t + 1)%Z)) /\
    (forall t, (0 <= t < StagRefine.nsteps nt sr)%Z -> R t XP = read_at P (sp_rec P XP) (mn (W t) XP) /\
       forall d, (d < nd)%nat -> R t (XV d) = read_at P (sp_rec P (XV d)) (mn (W t) (XV d))).
Proof. exact (fun Hn Hs Hr Hg dt kb => acoustic_user nd K Kr P pw Hn Hs Hr Hg dt kb). Qed.
Print Assumptions C46_acoustic_equations.

(** Elastic: the velocity-stress equations ([elastic_eqs]); pressure, the negative mean of the normal stresses, is what pressure
    sources act on (as a rate) and what pressure receivers record; it follows the bulk modulus lambda + 2 mu / nd. *)
Theorem C46_elastic_equations (nd : nat) (K : ops) (Kr : is_ring K) (Kq : is_qalg K) (P : spar (el_sys nd) K) (pw : nat -> Z * Z) :
  length (sp_shape P) = nd -> (0 < nd)%nat -> locs_ok (el_sys nd) K P (sp_src P) -> locs_ok (el_sys nd) K P (sp_rec P) -> sgeom (el_sys nd) K P pw ->
  forall (dt : K) (md : eM -> arr K) (amps : Z -> eC -> list K) u nt sr visA visB lg mg bg cb store,
  el_fvis nd K P pw true visA -> el_fvis nd K P pw false visB -> nt_ok nt sr cb ->
  exists U R st W,
    elastic_forward nd K P pw dt md visA visB lg mg bg sr (fun t => el_prep dt md (sp_src P) (amps t)) nt cb store u = Some (U, R, st) /\
    sseq (el_sys nd) K U (W (StagRefine.nsteps nt sr)) /\
    (forall p, (forall i, (i < nd)%nat -> updated P (on_v i) p -> mn (W 0%Z) (VL i) p = mn u (VL i) p) /\
               (forall i j, (i <= j < nd)%nat -> updated P (on_s i j) p -> mn (W 0%Z) (Sg i j) p = mn u (Sg i j) p)) /\
    (forall t, (0 <= t < StagRefine.nsteps nt sr)%Z -> elastic_eqs nd K P dt md (el_src P dt md (amps t)) (W t) (W (t + 1)%Z)) /\
    (forall t p, (0 <= t < StagRefine.nsteps nt sr)%Z -> updated P (fun _ => false) p ->
       pressure (W (t + 1)%Z) p = pressure (W t) p
         - dt * (md ML (idx (sp_shape P) p) + two * md MMU (idx (sp_shape P) p) * oq K (1 # Pos.of_nat nd))
           * sumf (seq 0 nd) (fun l => deriv P false l (mn (W (t + 1)%Z) (VL l)) p + me (W (t + 1)%Z) (DV l l) p)
         + dt * amp_at P (sp_src P CP) (amps t CP) p) /\
    (forall t, (0 <= t < StagRefine.nsteps nt sr)%Z ->
       el_post nd R t CP = read_at P (sp_rec P CP) (pressure (W t)) /\
       forall d, (d < nd)%nat -> el_post nd R t (CV d) = read_at P (sp_rec P (CV d)) (mn (W t) (VL d))).
Proof. exact (fun Hn H0 Hs Hr Hg dt md => elastic_user nd K Kr Kq P pw Hn H0 Hs Hr Hg dt md). Qed.
Print Assumptions C46_elastic_equations.

(** ** Examples: the hypotheses hold and the recorded values are not zero. *)
Example eqs_scalar_example : exists U R st W,
  scalar_forward Qc_ops exP expw ex_v ex_visF true 1 (fun t => scale_sources ex_v (p_dt2 exP) (p_src exP) (ex_F t)) 3 None (fun _ _ => o0 Qc_ops) ex_U
    = Some (U, R, st) /\
  scalar_eqs Qc_ops exP expw ex_v (sc_src exP ex_v (ex_F 1%Z)) (W 1%nat) (W 2%nat) /\
  existsb nz (R 2%Z) = true /\
  R 2%Z = map (fun l => if (0 <=? l)%Z then s_wfc Qc_ops (W 2%nat) (unidx (p_shape exP) l) else o0 Qc_ops) (p_rec exP).
Proof.
  destruct (C46_scalar_equation Qc_ops Qc_is_ring exP expw ex_geom ex_src ex_rec ex_v ex_visF true 1 ex_F 3 None (fun _ _ => o0 Qc_ops) ex_U)
    as (U & R & st & W & E & H1 & H2 & H3 & H4); [apply Permutation_refl|lia|right; lia|].
  exists U, R, st, W. split; [exact E|]. split; [exact (H3 1%nat ltac:(vm_compute; lia))|]. split; [|exact (H4 2%nat ltac:(vm_compute; lia))].
  assert (H : match scalar_forward Qc_ops exP expw ex_v ex_visF true 1 (fun t => scale_sources ex_v (p_dt2 exP) (p_src exP) (ex_F t)) 3 None (fun _ _ => o0 Qc_ops) ex_U
    with Some (_, R, _) => existsb nz (R 2%Z) | None => false end = true) by (vm_compute; reflexivity).
  rewrite E in H. exact H.
Qed.
Example eqs_acoustic_example : exists U R st W,
  acoustic_forward 2 Qc_ops aexP aexpw aex_dt (fun k => are (aex_kb k)) (aexF true) (aexF false) true true 1
    (fun t => ac_prep (K := Qc_ops) aex_dt (fun k => are (aex_kb k)) (sp_src aexP) (fun c => lre (aex_f t c))) 3 None (fun _ _ _ => o0 Qc_ops) (ssre aex_u)
    = Some (U, R, st) /\
  acoustic_eqs 2 Qc_ops aexP aex_dt (fun k => are (aex_kb k)) (ac_src (K := Qc_ops) aexP aex_dt (fun k => are (aex_kb k)) (fun c => lre (aex_f 1%Z c))) (W 1%Z) (W 2%Z) /\
  existsb nz (R 2%Z XP) = true /\ R 2%Z XP = read_at aexP (sp_rec aexP XP) (mn (W 2%Z) XP).
Proof.
  destruct (C46_acoustic_equations 2 Qc_ops Qc_is_ring aexP aexpw eq_refl aex_src aex_rec aex_geom aex_dt (fun k => are (aex_kb k)) (fun t c => lre (aex_f t c)) (ssre aex_u)
     3 1 (aexF true) (aexF false) true true None (fun _ _ _ => o0 Qc_ops))
    as (U & R & st & W & E & H1 & H2 & H3 & H4); try apply Permutation_refl; [unfold nt_ok; lia|].
  exists U, R, st, W. split; [exact E|]. split; [exact (H3 1%Z ltac:(vm_compute; intuition congruence))|].
  split; [|exact (proj1 (H4 2%Z ltac:(vm_compute; intuition congruence)))].
  assert (H : match acoustic_forward 2 Qc_ops aexP aexpw aex_dt (fun k => are (aex_kb k)) (aexF true) (aexF false) true true 1
    (fun t => ac_prep (K := Qc_ops) aex_dt (fun k => are (aex_kb k)) (sp_src aexP) (fun c => lre (aex_f t c))) 3 None (fun _ _ _ => o0 Qc_ops) (ssre aex_u)
    with Some (_, R, _) => existsb nz (R 2%Z XP) | None => false end = true) by (vm_compute; reflexivity).
  rewrite E in H. exact H.
Qed.
Example eqs_elastic_example : exists U R st W,
  elastic_forward 2 Qc_ops eexP aexpw eex_dt (fun k => are (eex_md k)) (eexF true) (eexF false) true true true 1
    (fun t => el_prep (K := Qc_ops) eex_dt (fun k => are (eex_md k)) (sp_src eexP) (fun c => lre (eex_f t c))) 3 None (fun _ _ _ => o0 Qc_ops) (ssre eex_u)
    = Some (U, R, st) /\
  elastic_eqs 2 Qc_ops eexP eex_dt (fun k => are (eex_md k)) (el_src (K := Qc_ops) eexP eex_dt (fun k => are (eex_md k)) (fun c => lre (eex_f 1%Z c))) (W 1%Z) (W 2%Z) /\
  existsb nz (el_post (K := Qc_ops) 2 R 2%Z CP) = true /\ el_post (K := Qc_ops) 2 R 2%Z CP = read_at eexP (sp_rec eexP CP) (pressure (W 2%Z)).
Proof.
  destruct (C46_elastic_equations 2 Qc_ops Qc_is_ring Qc_is_qalg eexP aexpw eq_refl Nat.lt_0_2 eex_src eex_rec eex_geom eex_dt (fun k => are (eex_md k))
     (fun t c => lre (eex_f t c)) (ssre eex_u) 3 1 (eexF true) (eexF false) true true true None (fun _ _ _ => o0 Qc_ops))
    as (U & R & st & W & E & H1 & H2 & H3 & _ & H4); try apply Permutation_refl; [unfold nt_ok; lia|].
  exists U, R, st, W. split; [exact E|]. split; [exact (H3 1%Z ltac:(vm_compute; intuition congruence))|].
  split; [|exact (proj1 (H4 2%Z ltac:(vm_compute; intuition congruence)))].
  assert (H : match elastic_forward 2 Qc_ops eexP aexpw eex_dt (fun k => are (eex_md k)) (eexF true) (eexF false) true true true 1
    (fun t => el_prep (K := Qc_ops) eex_dt (fun k => are (eex_md k)) (sp_src eexP) (fun c => lre (eex_f t c))) 3 None (fun _ _ _ => o0 Qc_ops) (ssre eex_u)
    with Some (_, R, _) => existsb nz (el_post (K := Qc_ops) 2 R 2%Z CP) | None => false end = true) by (vm_compute; reflexivity).
  rewrite E in H. exact H.
Qed.
