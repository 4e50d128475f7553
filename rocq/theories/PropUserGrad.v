(** * Gradients through [scalar]: C69.

    [with_inputs]: the call with another wavespeed and other source amplitudes; [shot_run], [shot_data]: a shot of the call and the receiver data given
    to the user (UserModel.v); [shot_back]: the backward pass of a shot; [v_grad], [a_grad]: what the user finds in the gradients of the wavespeed and
    of the amplitudes after it (UserGradModel.v); [data_gradient]: the gradient of a function of the data (UserGrad.v).  Any differentiable change of the
    two inputs: [V h], [A h], with derivatives [dv], [da]. *)
From Coq Require Import List ZArith QArith Reals Lra Lia Bool Permutation.
From Verif Require Import Ops Sums Grid Stencil StencilOrder ScalarModel ScalarRefine ScalarFunc ScalarApi ScalarPhys GeomModel Geom Geom2 GeomLocs SetupModel RealModel RealThm Resample
  Deriv DerivScalar DerivObj UserModel UserThm UserCrop UserEx UserEqs UserGradModel UserGrad UserGradEx.
Import ListNotations.
Local Open Scope Z_scope.

(** C69: with the largest wavespeed given, a step ratio of one and every step stored: the changed calls are accepted and run, and the derivative of any
    differentiable objective of the user's data of all shots is the sum over the user's inputs of the gradients given times the changes. *)
Theorem C69_gradient c nd s vm a l : scalar_setup c nd = Some s -> c_max_vel c = Some vm -> c_amps c = Some a -> c_src c = Some l ->
  Forall (fun row => Z.of_nat (length row) = lt_count l) (lt_data l) -> locs_whole nd [c_src c] -> locs_whole nd [c_rec c] -> area_ok c nd -> c_freq c <> Some 0%R ->
  su_ratio s = 1 -> c_interval c = 1 ->
  forall (V A : R -> tens R) (dv da : pt -> R), V 0%R = c_v c -> A 0%R = a -> (forall h, t_shape (V h) = t_shape (c_v c)) -> (forall h, t_shape (A h) = t_shape a) ->
  (forall p, inb (abox (t_shape (c_v c))) p = true -> derivable_pt_lim (fun h => t_at (V h) p) 0 (dv p)) ->
  (forall p, inb (abox (t_shape a)) p = true -> derivable_pt_lim (fun h => t_at (A h) p) 0 (da p)) ->
  forall (visF visB : nat -> list (list Z * pt)) (store : nat -> Z -> arr R_ops) (obj : nat -> list (list R) -> R) (g : nat -> nat -> nat -> R),
  (forall b, Z.of_nat b < su_nb s -> fvis R_ops (shot_par s b) (pw_of (su_pw s)) (visF b)) -> (forall b, Z.of_nat b < su_nb s -> bvis R_ops (shot_par s b) (pw_of (su_pw s)) (visB b)) ->
  (forall b U R S, Z.of_nat b < su_nb s -> shot_run s b (visF b) true (store b) = Some (U, R, S) ->
     data_gradient (length (shot_row (su_rec s) b)) (Z.to_nat (su_nt s)) (obj b) (shot_data c s b R) (g b)) ->
  exists J gf gv,
    (forall h, exists s' D, scalar_setup (with_inputs c (V h) (A h)) nd = Some s' /\
       (forall b, Z.of_nat b < su_nb s -> exists U R S, shot_run s' b (visF b) true (store b) = Some (U, R, S) /\ D b = shot_data (with_inputs c (V h) (A h)) s' b R) /\
       J h = sumf (K := R_ops) (seq 0 (Z.to_nat (su_nb s))) (fun b => obj b (D b))) /\
    (forall b, Z.of_nat b < su_nb s -> exists U R S G0, shot_run s b (visF b) true (store b) = Some (U, R, S) /\ shot_back s b (visB b) S (g b) = Some (G0, gf b, gv b)) /\
    derivable_pt_lim J 0
      (sumf (K := R_ops) (box_pts (abox (t_shape (c_v c)))) (fun x => v_grad c nd s gf gv x * dv x) +
       sumf (K := R_ops) (seq 0 (Z.to_nat (su_nb s))) (fun b => sumf (K := R_ops) (seq 0 (Z.to_nat (lt_count l))) (fun k =>
         sumf (K := R_ops) (seq 0 (Z.to_nat (su_nt s))) (fun t => a_grad s gf b k t * da [Z.of_nat b; Z.of_nat k; Z.of_nat t]))))%R.
Proof. exact (fun Hs Hvm Ham Hl Hr W1 W2 Ha Hf Hra Hi V A dv da V0 A0 VS AS HV HA vF vB st obj g HF HB Hg =>
  user_gradient c nd s vm a l Hs Hvm Ham Hl Hr W1 W2 Ha Hf Hra Hi V A dv da V0 A0 VS AS HV HA vF vB st obj g HF HB Hg). Qed.
Print Assumptions C69_gradient.

(** C69: cells of the wavespeed outside the survey area get a gradient of zero, whatever the kernels return. *)
Theorem C69_outside c nd s gf gv x d : scalar_setup c nd = Some s -> area_ok c nd -> (d < nd)%nat -> length x = length (t_shape (c_v c)) ->
  (let y := coord (length x - nd + d) x in y < fst (nth d (su_ext s) (0, 0)) \/ snd (nth d (su_ext s) (0, 0)) <= y) -> v_grad c nd s gf gv x = 0%R.
Proof. exact (outside_zero c nd s gf gv x d). Qed.
Print Assumptions C69_outside.

(** C69: the amplitudes of an ignored source get gradients of zero. *)
Theorem C69_ignored c nd s b k t l ps p vis store g G0 gf gv : scalar_setup c nd = Some s -> locs_whole nd [c_src c] -> locs_whole nd [c_rec c] -> area_ok c nd -> c_freq c <> Some 0%R ->
  0 < c_interval c -> (su_nt s = 0 \/ su_ratio s * c_interval c <= su_nt s) -> bvis R_ops (shot_par s b) (pw_of (su_pw s)) vis ->
  c_src c = Some l -> nth_error (lt_data l) b = Some ps -> nth_error ps k = Some p -> ignored_pt nd p -> shot_back s b vis store g = Some (G0, gf b, gv) -> a_grad s gf b k t = 0%R.
Proof. exact (ignored_zero c nd s b k t l ps p vis store g G0 gf gv). Qed.
Print Assumptions C69_ignored.

(** Two shots on a line of forty cells, with eight cells around the locations: the gradient in cell 21 is the derivative of the misfit of both shots with
    respect to the wavespeed in this cell, and the gradient in cell 5, outside the survey area, is zero, as are those of
    the amplitudes of the first shot's second source, which is ignored. *)
Definition exg_at (h : R) : tens R := mktens [40] (fun p => 1500 + 10 * IZR (coord 0 p) + (if pt_eq_dec p [21%Z] then h else 0))%R.
Definition exg_a : tens R := mktens [2; 2; 4] (fun p => IZR (1 + coord 0 p + coord 2 p)).
Example misfit_example (store : nat -> Z -> arr R_ops) (obs : nat -> nat -> nat -> R) : exists s J gf gv, scalar_setup exg 1 = Some s /\
  (forall h, exists s' D, scalar_setup (with_inputs exg (exg_at h) exg_a) 1 = Some s' /\
     (forall b, (b < 2)%nat -> exists vis U R S, shot_run s' b vis true (store b) = Some (U, R, S) /\ D b = shot_data (with_inputs exg (exg_at h) exg_a) s' b R) /\
     J h = (misfit (length (shot_row (su_rec s) 0)) 4 (obs 0%nat) (D 0%nat) + misfit (length (shot_row (su_rec s) 1)) 4 (obs 1%nat) (D 1%nat))%R) /\
  derivable_pt_lim J 0 (v_grad exg 1 s gf gv [21]) /\ v_grad exg 1 s gf gv [5] = 0%R /\ forall t, a_grad s gf 0 1 t = 0%R.
Proof.
  destruct exg_setup as (s & H & N & B & Q & X). pose proof exg_whole as W1. destruct exu_whole as [_ W2].
  set (vF := fun b => visits R_ops (shot_par s b) (pml_begin R_ops (shot_par s b) 2 (pw_of (su_pw s))) (pml_end R_ops (shot_par s b) 2 (pw_of (su_pw s)))).
  set (vB := fun b => visits R_ops (shot_par s b) (pml_begin R_ops (shot_par s b) 3 (pw_of (su_pw s))) (pml_end R_ops (shot_par s b) 3 (pw_of (su_pw s)))).
  set (D0 := fun b => match shot_run s b (vF b) true (store b) with Some (_, R, _) => shot_data exg s b R | None => [] end).
  assert (E0 : exg_at 0%R = c_v exg).
  { unfold exg_at. cbn [c_v exg]. f_equal. apply FunctionalExtensionality.functional_extensionality. intros p. destruct (pt_eq_dec p [21]); lra. }
  destruct (C69_gradient exg 1 s 2000%R exg_a exg_src H eq_refl eq_refl eq_refl ltac:(repeat constructor) W1 W2 exg_area ltac:(discriminate) Q eq_refl
    exg_at (fun _ => exg_a) (fun p => if pt_eq_dec p [21%Z] then 1 else 0)%R (fun _ => 0%R) E0 eq_refl (fun _ => eq_refl) (fun _ => eq_refl)) with
    (visF := vF) (visB := vB) (store := store) (obj := fun b => misfit (length (shot_row (su_rec s) b)) 4 (obs b)) (g := fun b j t => (nth t (nth j (D0 b) []) 0 - obs b j t)%R)
    as (J & gf & gv & J1 & J2 & J3).
  - intros p _. unfold exg_at. cbn [t_at]. destruct (pt_eq_dec p [21]).
    + eapply derivable_eq; [|exact (derivable_pt_lim_plus (fun _ => 1500 + 10 * IZR (coord 0 p))%R (fun h => h) 0 0 1 (derivable_pt_lim_const _ _) (derivable_pt_lim_id 0))]. lra.
    + apply derivable_pt_lim_const.
  - intros p _. apply derivable_pt_lim_const.
  - intros b _. apply Permutation_refl.
  - intros b _. apply Permutation_refl.
  - intros b U R S _ E1. rewrite N. unfold D0. rewrite E1. apply misfit_gradient.
  - exists s, J, gf, gv. split; [exact H|]. rewrite N, B in *. split; [|split; [|split]].
    + intros h. destruct (J1 h) as (s' & D & H1 & H2 & H3). exists s', D. split; [exact H1|]. split.
      * intros b Hb. destruct (H2 b ltac:(lia)) as (U & R & S & E1 & E2). exists (vF b), U, R, S. split; assumption.
      * rewrite H3. match goal with |- ?e = (?a + ?b)%R => change e with (a + (b + 0))%R end. ring.
    + eapply derivable_eq; [|exact J3]. rewrite (sumf_single R_ops R_is_ring _ [21]).
      * destruct (pt_eq_dec [21] [21]); [|congruence]. match goal with |- (?a + ?e)%R = _ => replace e with 0%R by (symmetry; apply (sumf_zero R_ops R_is_ring); intros b _; apply (sumf_zero R_ops R_is_ring); intros k _; apply (sumf_zero R_ops R_is_ring); intros t _; apply Rmult_0_r) end. ring.
      * apply NoDup_box_pts.
      * apply In_box_pts. reflexivity.
      * intros x _ Hx. destruct (pt_eq_dec x [21]); [congruence|]. apply Rmult_0_r.
    + apply (C69_outside exg 1 s gf gv [5] O H exg_area); [lia|reflexivity|]. rewrite X. cbn. lia.
    + intros t. destruct (J2 O ltac:(lia)) as (U & R & S & G0 & _ & E2).
      refine (C69_ignored exg 1 s 0 1 t exg_src [[20]; [IGNORE]] [IGNORE] (vB 0%nat) S _ G0 gf (gv 0%nat) H W1 W2 exg_area _ _ _ (Permutation_refl _) eq_refl eq_refl eq_refl _ E2).
      * discriminate.
      * reflexivity.
      * right. rewrite N, Q. cbn. lia.
      * split; [reflexivity|]. intros [|d] Hd; [reflexivity|lia].
Qed.
