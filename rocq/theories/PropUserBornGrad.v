(** * Gradients through [scalar_born] with respect to the scattering potential: C70.

    [with_scatter]: the call with another scattering potential; [born_run], [born_data]: a shot of the call and the receiver data of the scattered
    wavefield given to the user (UserBornModel.v); [born_back]: the backward pass of a shot; [s_grad]: what the user finds in the gradient of the scattering
    potential after it (UserBornGradModel.v); [data_gradient]: the gradient of a function of the data (UserGrad.v).  Any differentiable change [S h] of the
    scattering potential, with derivative [ds]. *)
From Coq Require Import List ZArith QArith Reals Lra Lia Bool Permutation.
From Verif Require Import Ops Sums Grid Stencil StencilOrder ScalarModel ScalarRefine ScalarFunc ScalarApi ScalarPhys GeomModel Geom Geom2 GeomLocs SetupModel RealModel RealThm Resample
  BornModel Deriv DerivScalar DerivObj UserModel UserThm UserCrop UserEx UserEqs UserStagModel UserStag UserAcoustic UserBornModel UserGradModel UserGrad UserGradEx UserBornGradModel UserBornGrad UserBornGradEx.
Import ListNotations.
Local Open Scope Z_scope.

(** C70: with a step ratio of one and every step stored: the changed calls are accepted and run, and the derivative of any differentiable objective of
    the user's scattered data of all shots is the sum over the cells of the user's scattering potential of the gradients given times the changes. *)
Theorem C70_gradient c nd s : born_setup c nd = Some s -> locs_whole nd [n_src c; n_src c] -> locs_whole nd [n_bgrec c; n_rec c] ->
  some_area (n_opts c) nd [n_src c; n_src c] [n_bgrec c; n_rec c] -> o_freq (n_opts c) <> Some 0%R -> su_ratio s = 1 -> o_interval (n_opts c) = 1 ->
  forall (S : R -> tens R) (ds : pt -> R), S 0%R = n_scatter c -> (forall h, t_shape (S h) = t_shape (n_scatter c)) ->
  (forall p, inb (abox (t_shape (n_scatter c))) p = true -> derivable_pt_lim (fun h => t_at (S h) p) 0 (ds p)) ->
  forall (visF visB : nat -> list (list Z * pt)) (w0 wsc0 : nat -> Z -> arr R_ops) (obj : nat -> list (list R) -> R) (g : nat -> nat -> nat -> R),
  (forall b, Z.of_nat b < su_nb s -> fvis R_ops (born_par s b) (pw_of (su_pw s)) (visF b)) -> (forall b, Z.of_nat b < su_nb s -> bvis R_ops (born_par s b) (pw_of (su_pw s)) (visB b)) ->
  (forall b B, Z.of_nat b < su_nb s -> born_run s b (visF b) false true (w0 b) (wsc0 b) = Some B ->
     data_gradient (length (kind_row (su_rec s) 1 b)) (Z.to_nat (su_nt s)) (obj b) (born_data c s b B) (g b)) ->
  exists J gf gs,
    (forall h, exists s' D, born_setup (with_scatter c (S h)) nd = Some s' /\
       (forall b, Z.of_nat b < su_nb s -> exists B, born_run s' b (visF b) false true (w0 b) (wsc0 b) = Some B /\ D b = born_data (with_scatter c (S h)) s' b B) /\
       J h = sumf (K := R_ops) (seq 0 (Z.to_nat (su_nb s))) (fun b => obj b (D b))) /\
    (forall b, Z.of_nat b < su_nb s -> exists B G, born_run s b (visF b) false true (w0 b) (wsc0 b) = Some B /\ born_back s b (visB b) B (g b) = Some (G, gf b, gs b)) /\
    derivable_pt_lim J 0 (sumf (K := R_ops) (box_pts (abox (t_shape (n_scatter c)))) (fun x => s_grad c nd s gf gs x * ds x)%R).
Proof. exact (fun Hs W1 W2 Ha Hf Hra Hi S ds S0 SS HS vF vB w0 wsc0 obj g HF HB Hg =>
  born_user_gradient c nd s Hs W1 W2 Ha Hf Hra Hi S ds S0 SS HS vF vB w0 wsc0 obj g HF HB Hg). Qed.
Print Assumptions C70_gradient.

(** C70: cells of the scattering potential outside the survey area get a gradient of zero, whatever the kernels return. *)
Theorem C70_outside c nd s gf gs x d : born_setup c nd = Some s -> some_area (n_opts c) nd [n_src c; n_src c] [n_bgrec c; n_rec c] -> (d < nd)%nat ->
  (let y := coord (length (t_shape (n_scatter c)) - nd + d) x in y < fst (nth d (su_ext s) (0, 0)) \/ snd (nth d (su_ext s) (0, 0)) <= y) -> s_grad c nd s gf gs x = 0%R.
Proof. exact (scatter_outside_zero c nd s gf gs x d). Qed.
Print Assumptions C70_outside.

(** Two shots on a line of forty cells, with eight cells around the locations: the gradient in cell 20, where the first shot has its source, is the derivative
    of the misfit of the scattered data of both shots with respect to the scattering potential in this cell, and the gradient in cell 5, outside the survey
    area, is zero. *)
Definition exd_at (h : R) : tens R := mktens [40] (fun p => 100 + IZR (coord 0 p) + (if pt_eq_dec p [20%Z] then h else 0))%R.
Example born_misfit_example (w0 wsc0 : nat -> Z -> arr R_ops) (obs : nat -> nat -> nat -> R) : exists s J gf gs, born_setup exd 1 = Some s /\
  (forall h, exists s' D, born_setup (with_scatter exd (exd_at h)) 1 = Some s' /\
     (forall b, (b < 2)%nat -> exists vis B, born_run s' b vis false true (w0 b) (wsc0 b) = Some B /\ D b = born_data (with_scatter exd (exd_at h)) s' b B) /\
     J h = (misfit (length (kind_row (su_rec s) 1 0)) 4 (obs 0%nat) (D 0%nat) + misfit (length (kind_row (su_rec s) 1 1)) 4 (obs 1%nat) (D 1%nat))%R) /\
  derivable_pt_lim J 0 (s_grad exd 1 s gf gs [20]) /\ s_grad exd 1 s gf gs [5] = 0%R.
Proof.
  destruct exd_setup as (s & H & N & B & Q & X). destruct exd_whole as [W1 W2].
  set (vF := fun b => visits R_ops (born_par s b) (pml_begin R_ops (born_par s b) 2 (pw_of (su_pw s))) (pml_end R_ops (born_par s b) 2 (pw_of (su_pw s)))).
  set (vB := fun b => visits R_ops (born_par s b) (pml_begin R_ops (born_par s b) 3 (pw_of (su_pw s))) (pml_end R_ops (born_par s b) 3 (pw_of (su_pw s)))).
  set (D0 := fun b => match born_run s b (vF b) false true (w0 b) (wsc0 b) with Some B => born_data exd s b B | None => [] end).
  assert (E0 : exd_at 0%R = n_scatter exd).
  { unfold exd_at. cbn [n_scatter exd]. unfold exd_sc. f_equal. apply FunctionalExtensionality.functional_extensionality. intros p. destruct (pt_eq_dec p [20]); lra. }
  destruct (C70_gradient exd 1 s H W1 W2 exd_area ltac:(discriminate) Q eq_refl exd_at (fun p => if pt_eq_dec p [20%Z] then 1 else 0)%R E0 (fun _ => eq_refl)) with
    (visF := vF) (visB := vB) (w0 := w0) (wsc0 := wsc0) (obj := fun b => misfit (length (kind_row (su_rec s) 1 b)) 4 (obs b)) (g := fun b j t => (nth t (nth j (D0 b) []) 0 - obs b j t)%R)
    as (J & gf & gs & J1 & J2 & J3).
  - intros p _. unfold exd_at. cbn [t_at]. destruct (pt_eq_dec p [20]).
    + eapply derivable_eq; [|exact (derivable_pt_lim_plus (fun _ => 100 + IZR (coord 0 p))%R (fun h => h) 0 0 1 (derivable_pt_lim_const _ _) (derivable_pt_lim_id 0))]. lra.
    + apply derivable_pt_lim_const.
  - intros b _. apply Permutation_refl.
  - intros b _. apply Permutation_refl.
  - intros b B0 _ E1. rewrite N. unfold D0. rewrite E1. apply misfit_gradient.
  - exists s, J, gf, gs. split; [exact H|]. rewrite B in *. split; [|split].
    + intros h. destruct (J1 h) as (s' & D & H1 & H2 & H3). exists s', D. split; [exact H1|]. split.
      * intros b Hb. destruct (H2 b ltac:(lia)) as (B0 & E1 & E2). exists (vF b), B0. split; assumption.
      * rewrite H3. match goal with |- ?e = (?a + ?b)%R => change e with (a + (b + 0))%R end. ring.
    + eapply derivable_eq; [|exact J3]. rewrite (sumf_single R_ops R_is_ring _ [20]).
      * destruct (pt_eq_dec [20] [20]); [|congruence]. apply Rmult_1_r.
      * apply NoDup_box_pts.
      * apply In_box_pts. reflexivity.
      * intros x _ Hx. destruct (pt_eq_dec x [20]); [congruence|]. apply Rmult_0_r.
    + apply (C70_outside exd 1 s gf gs [5] O H exd_area); [lia|]. rewrite X. cbn. lia.
Qed.
