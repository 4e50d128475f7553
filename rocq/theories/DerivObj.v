(** * Objective functions: least squares, linear; real versions of the examples. *)
From Coq Require Import List ZArith QArith Qcanon Qreals Reals Lia Lra Bool Permutation.
From Verif Require Import Ops Sums Grid Stencil StencilOrder DualNum ScalarModel ScalarRefine ScalarForward ScalarBackward ScalarAdjoint
  ScalarFunc ScalarApi ScalarGrad ScalarEx ScalarEx2 PyBackend Param BornModel BornEx Stag StagKernel StagRefine AcousticModel AcousticThm AcousticEx ElasticModel ElasticThm ElasticEx
  Deriv DerivScalar DerivBorn StagDeriv.
Import ListNotations.

Lemma derivable_sumf {A} (l : list A) (f : R -> A -> R) (df : A -> R) :
  (forall x, In x l -> derivable_pt_lim (fun h => f h x) 0 (df x)) ->
  derivable_pt_lim (fun h => sumf (K := R_ops) l (f h)) 0 (sumf (K := R_ops) l df).
Proof.
  induction l as [|x l IH]; intros H; cbn; [apply derivable_pt_lim_const|].
  apply (derivable_pt_lim_plus (fun h => f h x) (fun h => sumf (K := R_ops) l (f h))); [apply H; left; reflexivity|apply IH; intros; apply H; right; assumption].
Qed.
Lemma derivable_scal (c : R) (f : R -> R) l : derivable_pt_lim f 0 l -> derivable_pt_lim (fun h => c * f h)%R 0 (c * l)%R.
Proof. apply (derivable_pt_lim_scal f c 0 l). Qed.

Lemma sumf0 {A} (l : list A) (f : A -> R) : (forall x, f x = 0%R) -> sumf (K := R_ops) l f = 0%R.
Proof. intros H. induction l as [|x l IH]; cbn; [reflexivity|]. rewrite H, Rplus_0_l. exact IH. Qed.
Lemma sumf_shift (f : nat -> R) n : sumf (K := R_ops) (map S (seq 0 n)) f = sumf (K := R_ops) (seq 0 n) (fun j => f (S j)).
Proof. generalize (seq 0 n). induction l as [|j l IH]; cbn; [reflexivity|]. f_equal. exact IH. Qed.
Lemma ldot_nth (a b : list R) : ldot (K := R_ops) a b = sumf (K := R_ops) (seq 0 (length a)) (fun j => nth j a 0 * nth j b 0)%R.
Proof.
  revert b. induction a as [|x a IH]; intros [|y b]; [reflexivity|reflexivity| |].
  - symmetry. apply sumf0. intros j. rewrite (nth_overflow [] 0%R) by (cbn; lia). apply Rmult_0_r.
  - change (ldot (K := R_ops) (x :: a) (y :: b)) with (x * y + ldot (K := R_ops) a b)%R. rewrite IH. cbn [length seq]. rewrite <- seq_shift.
    symmetry. change (x * y + sumf (K := R_ops) (map S (seq 0 (length a))) (fun j => nth j (x :: a) 0 * nth j (y :: b) 0)%R
      = x * y + sumf (K := R_ops) (seq 0 (length a)) (fun j => nth j a 0 * nth j b 0)%R)%R. rewrite sumf_shift. reflexivity.
Qed.
Lemma rcurve_nth nt r dr t j : rcurve nt r dr -> (0 <= t < nt)%Z -> derivable_pt_lim (fun h => nth j (r h t) 0%R) 0 (nth j (dr t) 0%R).
Proof.
  intros H Ht. destruct (H t Ht) as [L D]. destruct (Nat.lt_ge_cases j (length (dr t))) as [Hj|Hj]; [apply D; exact Hj|].
  rewrite nth_overflow by exact Hj. eapply derivable_ext; [|apply (derivable_pt_lim_const 0)]. intros h. cbn. rewrite nth_overflow; [reflexivity|]. rewrite L. exact Hj.
Qed.

(** Half the squared difference from the data [d], rows with [length (d t)] receivers. *)
Definition misfit (nt : Z) (d r : Z -> list R) : R :=
  sumf (K := R_ops) (zrange 0 nt) (fun t => sumf (K := R_ops) (seq 0 (length (d t))) (fun j => / 2 * (nth j (r t) 0 - nth j (d t) 0) ^ 2)%R).
(** Its gradient: the residual. *)
Definition residual (d r : Z -> list R) (t : Z) : list R := map (fun j => nth j (r t) 0 - nth j (d t) 0)%R (seq 0 (length (d t))).

Lemma nth_residual d r t j : (j < length (d t))%nat -> nth j (residual d r t) 0%R = (nth j (r t) 0 - nth j (d t) 0)%R.
Proof.
  intros Hj. unfold residual. rewrite (nth_indep _ 0%R ((fun j => nth j (r t) 0 - nth j (d t) 0)%R 0%nat)) by (rewrite map_length, seq_length; exact Hj).
  rewrite (map_nth (fun j => (nth j (r t) 0 - nth j (d t) 0)%R)). rewrite seq_nth by exact Hj. reflexivity.
Qed.

Lemma misfit_curve nt d (r : R -> Z -> list R) dr : rcurve nt r dr ->
  derivable_pt_lim (fun h => misfit nt d (r h)) 0 (tdot (K := R_ops) nt (residual d (r 0%R)) dr).
Proof.
  intros H. unfold misfit, tdot. apply derivable_sumf. intros t Ht. apply In_zrange in Ht.
  eapply derivable_eq; [symmetry; apply ldot_nth|]. unfold residual at 1. rewrite map_length, seq_length.
  apply derivable_sumf. intros j Hj. apply in_seq in Hj. destruct Hj as [_ Hj]. cbn in Hj.
  rewrite nth_residual by exact Hj.
  pose (e := fun h => (nth j (r h t) 0 - nth j (d t) 0)%R).
  assert (De : derivable_pt_lim e 0 (nth j (dr t) 0)%R).
  { apply (derivable_eq _ _ (nth j (dr t) 0 - 0)%R); [ring|].
    apply (derivable_pt_lim_minus (fun h => nth j (r h t) 0)%R (fun _ => nth j (d t) 0)%R); [apply (rcurve_nth nt); assumption|apply derivable_pt_lim_const]. }
  eapply derivable_eq; [|eapply derivable_ext; [|apply (derivable_scal (/ 2) (fun h => e h * e h)%R); apply (derivable_pt_lim_mult e e 0 _ _ De De)]].
  - unfold e. field.
  - intros h. unfold e. cbn. ring.
Qed.

(** No dependence on the final wavefields. *)
Definition zero_st : st R_ops := mkst R_ops (fun _ => 0%R) (fun _ => 0%R) (fun _ _ => 0%R) (fun _ _ => 0%R).
Lemma udot_zero P s : udot R_ops P zero_st s = 0%R.
Proof.
  assert (E : forall l (f : pt -> R), dot (K := R_ops) l (fun _ => 0%R) f = 0%R) by (intros; apply sumf0; intros; apply Rmult_0_l).
  unfold udot. cbn [s_wfc s_wfp s_psi s_zeta zero_st]. rewrite !E.
  rewrite (sumf0 (dims R_ops P)) by (intros d; rewrite !E; apply Rplus_0_l). cbn. ring.
Qed.

Lemma misfit_obj P nt d U0 R0 :
  obj_gradient P nt (fun _ r => misfit nt d r) U0 R0 zero_st (residual d R0).
Proof.
  intros u r du dr Eu Er Hu Hr. rewrite udot_zero.
  eapply derivable_eq; [|apply misfit_curve; exact Hr]. rewrite Er. symmetry. apply Rplus_0_l.
Qed.

(** ** Scattered data *)
Lemma ldot_zero (a b : list R) : (forall j, nth j a 0%R = 0%R) -> ldot (K := R_ops) a b = 0%R.
Proof.
  revert b. induction a as [|x a IH]; intros [|y b] H; try reflexivity.
  change (x * y + ldot (K := R_ops) a b = 0)%R. rewrite (IH b (fun j => H (S j))). pose proof (H O) as H0. cbn in H0. rewrite H0. ring.
Qed.
Lemma misfit_born_obj P nt d B0 gr : (forall t j, nth j (gr t) 0%R = 0%R) ->
  born_obj_gradient P nt (fun _ _ _ rs => misfit nt d rs) B0 zero_st gr zero_st (residual d (bo_rsc R_ops B0)).
Proof.
  intros Hz u r us rs du dr dus drs Eu Er Eus Ers Hu Hr Hus Hrs. rewrite !udot_zero.
  eapply derivable_eq; [|apply (misfit_curve nt d rs drs); exact Hrs]. rewrite Ers.
  assert (E : tdot (K := R_ops) nt gr dr = 0%R).
  { unfold tdot. apply sumf0. intros t. apply ldot_zero, Hz. }
  rewrite E. symmetry. etransitivity; [apply f_equal2; [|reflexivity]; etransitivity; [apply f_equal2; [apply Rplus_0_l|reflexivity]|apply Rplus_0_l]|apply Rplus_0_l].
Qed.

(** ** Linear objective functions *)
Lemma derivable_dot (l : list pt) (a : pt -> R) (u : R -> pt -> R) du : (forall p, In p l -> derivable_pt_lim (fun h => u h p) 0 (du p)) ->
  derivable_pt_lim (fun h => dot (K := R_ops) l a (u h)) 0 (dot (K := R_ops) l a du).
Proof. intros H. apply derivable_sumf. intros p Hp. apply (derivable_scal (a p) (fun h => u h p)), H, Hp. Qed.
Lemma seq_nth_map (l : list Z) : map (fun d => nth d l 0%Z) (seq 0 (length l)) = l.
Proof. induction l as [|x l IH]; cbn; [reflexivity|]. f_equal. rewrite <- seq_shift, map_map. exact IH. Qed.
Lemma derivable_cells (S : sys) (P : spar S R_ops) (a : pt -> R) (f : R -> pt -> R) df :
  (forall p, crop S R_ops P p = true -> derivable_pt_lim (fun h => f h p) 0 (df p)) ->
  derivable_pt_lim (fun h => sumf (K := R_ops) (box_pts (map (fun n => (fd_pad (sp_acc P), n - (fd_pad (sp_acc P) - 1))%Z) (sp_shape P))) (fun p => a p * f h p)%R) 0
    (sumf (K := R_ops) (box_pts (map (fun n => (fd_pad (sp_acc P), n - (fd_pad (sp_acc P) - 1))%Z) (sp_shape P))) (fun p => a p * df p)%R).
Proof.
  intros H. apply derivable_sumf. intros p Hp. apply derivable_scal, H. apply In_box_pts in Hp. rewrite <- Hp. unfold crop, dom, dbox.
  f_equal. transitivity (map (fun n => (fd_pad (sp_acc P), n - (fd_pad (sp_acc P) - 1))%Z) (map (fun d => nth d (sp_shape P) 0%Z) (seq 0 (length (sp_shape P))))); [|rewrite seq_nth_map; reflexivity].
  rewrite map_map. apply map_ext. intros d. f_equal. lia.
Qed.
Lemma derivable_rows (S : sys) nt (r : R -> krec S R_ops) dr (gr : krec S R_ops) : krcurve nt r dr ->
  forall t c, (0 <= t < nt)%Z -> derivable_pt_lim (fun h => ldot (K := R_ops) (gr t c) (r h t c)) 0 (ldot (K := R_ops) (gr t c) (dr t c)).
Proof.
  intros Hr t c Ht. eapply derivable_eq; [symmetry; apply ldot_nth|]. eapply derivable_ext; [intros h; symmetry; apply ldot_nth|].
  apply derivable_sumf. intros j _. apply (derivable_scal (nth j (gr t c) 0%R)), (rcurve_nth nt (fun h t => r h t c) (fun t => dr t c) t j (Hr c) Ht).
Qed.

Lemma ac_linear_obj nd P nt (gr : krec (ac_sys nd) R_ops) g U0 (R0 : krec (ac_sys nd) R_ops) :
  ac_obj_gradient nd P nt (fun u r => ac_udot nd R_ops P g u + ac_rdot nd R_ops nt gr r)%R U0 R0 g gr.
Proof.
  intros u r du dr Eu Er [H1 H2] Hr. pose proof (derivable_rows (ac_sys nd) nt r dr gr Hr) as Hl.
  apply (derivable_pt_lim_plus (fun h => ac_udot nd R_ops P g (u h)) (fun h => ac_rdot nd R_ops nt gr (r h))).
  - assert (A : forall x, derivable_pt_lim (fun h => pdot nd R_ops P (mn g x) (mn (u h) x)) 0 (pdot nd R_ops P (mn g x) (mn du x)))
      by (intros x; exact (derivable_cells (ac_sys nd) P (mn g x) (fun h => mn (u h) x) (mn du x) (H1 x))).
    assert (B : forall e, derivable_pt_lim (fun h => pdot nd R_ops P (me g e) (me (u h) e)) 0 (pdot nd R_ops P (me g e) (me du e)))
      by (intros e; exact (derivable_cells (ac_sys nd) P (me g e) (fun h => me (u h) e) (me du e) (H2 e))).
    pose proof (derivable_sumf (seq 0 nd) (fun h d => pdot nd R_ops P (mn g (XV d)) (mn (u h) (XV d))) _ (fun d _ => A (XV d))) as S1.
    pose proof (derivable_sumf (seq 0 nd) (fun h d => pdot nd R_ops P (me g (EP d)) (me (u h) (EP d))) _ (fun d _ => B (EP d))) as S2.
    pose proof (derivable_sumf (seq 0 nd) (fun h d => pdot nd R_ops P (me g (EV d)) (me (u h) (EV d))) _ (fun d _ => B (EV d))) as S3.
    exact (derivable_pt_lim_plus _ _ _ _ _ (derivable_pt_lim_plus _ _ _ _ _ (derivable_pt_lim_plus _ _ _ _ _ (A XP) S1) S2) S3).
  - unfold ac_rdot. apply derivable_sumf. intros t Ht. apply In_zrange in Ht.
    apply (derivable_pt_lim_plus (fun h => ldot (K := R_ops) (gr t XP) (r h t XP))); [apply Hl; exact Ht|].
    apply derivable_sumf. intros d _. apply Hl. exact Ht.
Qed.
Lemma el_linear_obj nd P nt (gr : krec (el_sys nd) R_ops) g U0 (R0 : krec (el_sys nd) R_ops) :
  el_obj_gradient nd P nt (fun u r => el_udot nd R_ops P g u + el_rdot nd R_ops nt gr r)%R U0 R0 g gr.
Proof.
  intros u r du dr Eu Er [H1 H2] Hr. pose proof (derivable_rows (el_sys nd) nt r dr gr Hr) as Hl.
  apply (derivable_pt_lim_plus (fun h => el_udot nd R_ops P g (u h)) (fun h => el_rdot nd R_ops nt gr (r h))).
  - pose proof (derivable_sumf (el_allX nd) (fun h x => epdot nd R_ops P (mn g x) (mn (u h) x)) _
      (fun x _ => derivable_cells (el_sys nd) P (mn g x) (fun h => mn (u h) x) (mn du x) (H1 x))) as S1.
    pose proof (derivable_sumf (el_allE nd) (fun h x => epdot nd R_ops P (me g x) (me (u h) x)) _
      (fun e _ => derivable_cells (el_sys nd) P (me g e) (fun h => me (u h) e) (me du e) (H2 e))) as S2.
    exact (derivable_pt_lim_plus _ _ _ _ _ S1 S2).
  - unfold el_rdot. apply derivable_sumf. intros t Ht. apply In_zrange in Ht. apply derivable_sumf. intros c _. apply Hl. exact Ht.
Qed.

Lemma udot_curve P g (u : R -> st R_ops) du : scurve P u du -> derivable_pt_lim (fun h => udot R_ops P g (u h)) 0 (udot R_ops P g du).
Proof.
  intros [H1 H2 H3 H4].
  pose proof (derivable_dot (upts R_ops P) (s_wfc R_ops g) (fun h => s_wfc R_ops (u h)) _ H1) as A1.
  pose proof (derivable_dot (upts R_ops P) (s_wfp R_ops g) (fun h => s_wfp R_ops (u h)) _ H2) as A2.
  assert (A3 : forall d, In d (dims R_ops P) ->
    derivable_pt_lim (fun h => dot (K := R_ops) (upts R_ops P) (s_psi R_ops g d) (s_psi R_ops (u h) d) + dot (K := R_ops) (upts R_ops P) (s_zeta R_ops g d) (s_zeta R_ops (u h) d))%R 0
      (dot (K := R_ops) (upts R_ops P) (s_psi R_ops g d) (s_psi R_ops du d) + dot (K := R_ops) (upts R_ops P) (s_zeta R_ops g d) (s_zeta R_ops du d))%R).
  { intros d Hd. apply in_seq in Hd.
    exact (derivable_pt_lim_plus _ _ _ _ _ (derivable_dot (upts R_ops P) (s_psi R_ops g d) (fun h => s_psi R_ops (u h) d) _ (fun q => H3 d q (proj2 Hd)))
      (derivable_dot (upts R_ops P) (s_zeta R_ops g d) (fun h => s_zeta R_ops (u h) d) _ (fun q => H4 d q (proj2 Hd)))). }
  exact (derivable_pt_lim_plus _ _ _ _ _ (derivable_pt_lim_plus _ _ _ _ _ A1 A2) (derivable_sumf (dims R_ops P)
    (fun h d => (dot (K := R_ops) (upts R_ops P) (s_psi R_ops g d) (s_psi R_ops (u h) d) + dot (K := R_ops) (upts R_ops P) (s_zeta R_ops g d) (s_zeta R_ops (u h) d))%R) _ A3)).
Qed.
Lemma tdot_curve nt (gr : Z -> list R) (r : R -> Z -> list R) dr : rcurve nt r dr -> derivable_pt_lim (fun h => tdot (K := R_ops) nt gr (r h)) 0 (tdot (K := R_ops) nt gr dr).
Proof.
  intros H. apply derivable_sumf. intros t Ht. apply In_zrange in Ht.
  eapply derivable_eq; [symmetry; apply ldot_nth|]. eapply derivable_ext; [intros h; symmetry; apply ldot_nth|].
  apply derivable_sumf. intros j _. apply (derivable_scal (nth j (gr t) 0%R)), (rcurve_nth nt r dr t j H Ht).
Qed.
Lemma linear_obj P nt g gr U0 R0 : obj_gradient P nt (fun u r => udot R_ops P g u + tdot (K := R_ops) nt gr r)%R U0 R0 g gr.
Proof. intros u r du dr _ _ Hu Hr. exact (derivable_pt_lim_plus _ _ _ _ _ (udot_curve P g u du Hu) (tdot_curve nt gr r dr Hr)). Qed.
Lemma linear_born_obj P nt g gr gs grs B0 :
  born_obj_gradient P nt (fun u r us rs => udot R_ops P g u + udot R_ops P gs us + tdot (K := R_ops) nt gr r + tdot (K := R_ops) nt grs rs)%R B0 g gr gs grs.
Proof.
  intros u r us rs du dr dus drs _ _ _ _ Hu Hr Hus Hrs.
  exact (derivable_pt_lim_plus _ _ _ _ _ (derivable_pt_lim_plus _ _ _ _ _ (derivable_pt_lim_plus _ _ _ _ _ (udot_curve P g u du Hu) (udot_curve P gs us dus Hus))
    (tdot_curve nt gr r dr Hr)) (tdot_curve nt grs rs drs Hrs)).
Qed.

(** ** Least squares *)
Theorem scalar_misfit_real (P : par R_ops) (pw : nat -> Z * Z) :
  geom_ok R_ops P pw -> Forall (loc_ok R_ops P) (p_src P) -> Forall (loc_ok R_ops P) (p_rec P) ->
  forall (d : Z -> list R) (V : R -> arr R_ops) dV (F : R -> Z -> list R) dF (U : R -> st R_ops) dU nt visF visB cbF cbB store U0 R0 S0,
  (0 <= nt)%Z -> cb_ok nt 1 cbF -> cb_ok nt 1 cbB -> fvis R_ops P pw visF -> bvis R_ops P pw visB ->
  acurve (prodZ (p_shape P)) V dV -> rcurve nt F dF -> scurve P U dU ->
  scalar_forward R_ops P pw (V 0%R) visF true 1 (F 0%R) nt cbF store (U 0%R) = Some (U0, R0, S0) ->
  exists J G0 gf gv,
    (forall h, exists Uh Rh Sh, scalar_forward R_ops P pw (V h) visF true 1 (F h) nt cbF store (U h) = Some (Uh, Rh, Sh) /\ J h = misfit nt d Rh) /\
    scalar_backward R_ops P pw (V 0%R) visB S0 true 1 (residual d R0) nt cbB zero_st = Some (G0, gf, gv) /\
    derivable_pt_lim J 0 (udot R_ops P G0 dU + tdot (K := R_ops) nt gf dF + adot (K := R_ops) (prodZ (p_shape P)) gv dV)%R.
Proof.
  intros Hg Hs Hr d V dV F dF U dU nt visF visB cbF cbB store U0 R0 S0 H1 H2 H3 H4 H5 H6 H7 H8 E.
  exact (scalar_gradient_real P pw Hg Hs Hr (fun _ r => misfit nt d r) V dV F dF U dU zero_st (residual d R0) nt visF visB cbF cbB store U0 R0 S0
    H1 H2 H3 H4 H5 H6 H7 H8 E (misfit_obj P nt d U0 R0)).
Qed.

Lemma nth_zeros {A} (l : list A) j : nth j (map (fun _ => 0%R) l) 0%R = 0%R.
Proof. revert j. induction l as [|x l IH]; intros [|j]; cbn; auto. Qed.
(** The scattering potential of linearised inversion. *)
Theorem born_misfit_real (P : par R_ops) (pw : nat -> Z * Z) (recsc : list Z) :
  geom_ok R_ops P pw -> Forall (loc_ok R_ops P) (p_src P) -> Forall (loc_ok R_ops P) (p_rec P) -> Forall (loc_ok R_ops P) recsc ->
  forall (d : Z -> list R) v (S : R -> arr R_ops) dS f (Fs : R -> Z -> list R) dFs u us nt visF visB cbF cbB w0 wsc0 B0,
  (0 <= nt)%Z -> cb_ok nt 1 cbF -> cb_ok nt 1 cbB -> fvis R_ops P pw visF -> bvis R_ops P pw visB ->
  (forall h t, length (Fs h t) = length (f t)) -> acurve (prodZ (p_shape P)) S dS -> rcurve nt Fs dFs ->
  born_forward R_ops P recsc pw v (S 0%R) visF false true 1 f (Fs 0%R) nt cbF w0 wsc0 u us = Some B0 ->
  exists J G0,
    (forall h, exists B, born_forward R_ops P recsc pw v (S h) visF false true 1 f (Fs h) nt cbF w0 wsc0 u us = Some B /\ J h = misfit nt d (bo_rsc R_ops B)) /\
    born_backward R_ops P recsc pw v (S 0%R) visB (bo_w R_ops B0) (bo_wsc R_ops B0) false true 1 (fun _ => map (fun _ => 0%R) (p_rec P)) (residual d (bo_rsc R_ops B0))
      nt cbB zero_st zero_st = Some G0 /\
    derivable_pt_lim J 0 (tdot (K := R_ops) nt (bg_fsc R_ops G0) dFs + adot (K := R_ops) (prodZ (p_shape P)) (bg_scatter R_ops G0) dS)%R.
Proof.
  intros Hg Hs Hr Hrs d v S dS f Fs dFs u us nt visF visB cbF cbB w0 wsc0 B0 H1 H2 H3 H4 H5 H6 HS HF E.
  assert (Hz : forall t j, nth j ((fun _ : Z => map (fun _ => 0%R) (p_rec P)) t) 0%R = 0%R).
  { intros t j. apply nth_zeros. }
  assert (Hc : forall w0 : st R_ops, scurve P (fun _ : R => w0) zero_st) by (intros w; split; intros; apply derivable_pt_lim_const).
  pose (df0 := fun t => map (fun _ => 0%R) (f t)).
  assert (Hf : rcurve nt (fun _ => f) df0).
  { intros t _. unfold df0. rewrite map_length. split; [reflexivity|]. intros j _. eapply derivable_eq; [|apply derivable_pt_lim_const]. symmetry. apply nth_zeros. }
  destruct (born_gradient_real P pw recsc Hg Hs Hr Hrs (fun _ _ _ rs => misfit nt d rs) (fun _ => v) (fun _ => 0%R) S dS (fun _ => f) df0 Fs dFs
    (fun _ => u) zero_st (fun _ => us) zero_st zero_st zero_st (fun _ => map (fun _ => 0%R) (p_rec P)) (residual d (bo_rsc R_ops B0)) nt visF visB false true cbF cbB w0 wsc0 B0
    H1 H2 H3 H4 H5 H6 ltac:(intros t; apply map_length) ltac:(intros i _; apply derivable_pt_lim_const) HS Hf HF (Hc u) (Hc us) ltac:(reflexivity) ltac:(discriminate) E
    (misfit_born_obj P nt d B0 _ Hz)) as (J & G0 & A & B & C).
  exists J, G0. split; [exact A|]. split; [exact B|]. eapply derivable_eq; [|exact C].
  assert (E0 : forall g, udot R_ops P g zero_st = 0%R).
  { intros g. assert (Z0 : forall l (a : pt -> R), dot (K := R_ops) l a (fun _ => 0%R) = 0%R) by (intros; apply sumf0; intros; apply Rmult_0_r).
    unfold udot. cbn [s_wfc s_wfp s_psi s_zeta zero_st]. rewrite !Z0. rewrite (sumf0 (dims R_ops P)) by (intros; rewrite !Z0; apply Rplus_0_l). cbn. ring. }
  assert (E1 : tdot (K := R_ops) nt (bg_f R_ops G0) df0 = 0%R).
  { apply sumf0. intros t. etransitivity; [apply ldot_nth|]. apply sumf0. intros j. unfold df0. rewrite nth_zeros. apply Rmult_0_r. }
  assert (E2 : adot (K := R_ops) (prodZ (p_shape P)) (bg_v R_ops G0) (fun _ => 0%R) = 0%R) by (apply sumf0; intros; apply Rmult_0_r).
  rewrite !E0, E1, E2. cbn. ring.
Qed.
