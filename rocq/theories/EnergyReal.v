(** * Positivity of the discrete energy over the reals, and boundedness under the CFL choice (C26). *)
From Coq Require Import List ZArith QArith Qreals Reals Lra Lia Bool Permutation.
From Verif Require Import Ops Sums Grid Stencil StencilOrder DualNum ScalarModel ScalarRefine ScalarForward
  ScalarBackward ScalarAdjoint ScalarFunc ScalarApi ScalarGrad ScalarMore ScalarPhys RealModel RealThm Energy.
Import ListNotations.
Local Open Scope R_scope.

(** ** Sums of reals *)

Definition Rsum {A} (l : list A) (f : A -> R) : R := sumf (K := R_ops) l f.

Lemma Rsum_cons {A} x (l : list A) f : Rsum (x :: l) f = f x + Rsum l f.
Proof. reflexivity. Qed.
Lemma Rsum_ext {A} (l : list A) f g : (forall x, In x l -> f x = g x) -> Rsum l f = Rsum l g.
Proof. exact (sumf_ext R_ops l f g). Qed.
Lemma Rsum_add {A} (l : list A) f g : Rsum l (fun x => f x + g x) = Rsum l f + Rsum l g.
Proof. exact (sumf_add R_ops R_is_ring l f g). Qed.
Lemma Rsum_sub {A} (l : list A) f g : Rsum l (fun x => f x - g x) = Rsum l f - Rsum l g.
Proof. exact (sumf_sub R_ops R_is_ring l f g). Qed.
Lemma Rsum_opp {A} (l : list A) f : Rsum l (fun x => - f x) = - Rsum l f.
Proof. exact (sumf_opp R_ops R_is_ring l f). Qed.
Lemma Rsum_scal {A} (l : list A) c f : Rsum l (fun x => c * f x) = c * Rsum l f.
Proof. exact (sumf_scal R_ops R_is_ring l c f). Qed.
Lemma Rsum_zero {A} (l : list A) f : (forall x, In x l -> f x = 0) -> Rsum l f = 0.
Proof. exact (sumf_zero R_ops R_is_ring l f). Qed.
Lemma Rsum_swap {A B} (l : list A) (m : list B) f :
  Rsum l (fun x => Rsum m (f x)) = Rsum m (fun y => Rsum l (fun x => f x y)).
Proof. exact (sumf_swap R_ops R_is_ring l m f). Qed.
Lemma Rsum_perm {A} (l m : list A) f : Permutation l m -> Rsum l f = Rsum m f.
Proof. exact (sumf_perm R_ops R_is_ring l m f). Qed.
Lemma Rsum_filter {A} (P : A -> bool) (l : list A) f :
  (forall x, In x l -> P x = false -> f x = 0) -> Rsum l f = Rsum (filter P l) f.
Proof. exact (sumf_filter R_ops R_is_ring P l f). Qed.
Lemma Rsum_le {A} (l : list A) f g : (forall x, In x l -> f x <= g x) -> Rsum l f <= Rsum l g.
Proof.
  induction l as [|x l IH]; intros H; [cbn; lra|]. rewrite !Rsum_cons.
  specialize (IH (fun y Hy => H y (or_intror Hy))). specialize (H x (or_introl eq_refl)). lra.
Qed.
Lemma Rsum_pos {A} (l : list A) f : (forall x, In x l -> 0 <= f x) -> 0 <= Rsum l f.
Proof.
  intros H. replace 0 with (Rsum l (fun _ => 0)) by (apply Rsum_zero; reflexivity). apply Rsum_le, H.
Qed.
(** A sum of non-negative terms over part of the list. *)
Lemma Rsum_incl {A} (l m : list A) f : NoDup l -> incl l m -> (forall x, 0 <= f x) -> Rsum l f <= Rsum m f.
Proof.
  intros Hn. revert m. induction l as [|x l IH]; intros m Hi Hf; [apply Rsum_pos; auto|].
  inversion Hn as [|? ? Hx Hn']; subst. rewrite Rsum_cons.
  destruct (in_split x m) as (m1 & m2 & ->); [apply Hi; left; reflexivity|].
  rewrite <- (Rsum_perm (x :: (m1 ++ m2)) (m1 ++ x :: m2)) by apply Permutation_middle.
  rewrite Rsum_cons. apply Rplus_le_compat_l. apply IH; auto.
  intros y Hy. assert (Hm : In y (m1 ++ x :: m2)) by (apply Hi; right; exact Hy).
  apply in_app_iff in Hm. apply in_app_iff. destruct Hm as [|[->|]]; auto. contradiction.
Qed.

(** ** Quadratic forms of shifted copies of a field *)

Section Quad.
Variable P : par R_ops.
Notation shape := (p_shape P).
Notation fd := (fd_pad (p_acc P)).
Notation I := (ipts R_ops P).
Notation nd := (length shape).

(** A box with eight more cells on every side. *)
Definition big : list pt := box_pts (ibox (-8) shape).

Lemma fd_range : (1 <= fd <= 4)%Z. Proof. destruct (p_acc P); cbn; lia. Qed.

Lemma In_big p : In p big <-> length p = nd /\ forall d, (d < nd)%nat -> (-8 <= coord d p < nth d shape 0 + 8)%Z.
Proof.
  unfold big. rewrite In_box_pts, inb_ibox. split; intros [H1 H2]; (split; [exact H1|]); intros d Hd; specialize (H2 d Hd); lia.
Qed.
Lemma interior_spec p : interior R_ops P p = true <->
  length p = nd /\ forall d, (d < nd)%nat -> (fd <= coord d p < nth d shape 0 - fd)%Z.
Proof. unfold interior. apply inb_ibox. Qed.

Variable d : nat.
Variable u : field R_ops.
Hypothesis Hu : fsupp R_ops P u.

Lemma sh_supp k : (-8 <= k <= 8)%Z -> supp big (fun p => u (shift d k p)).
Proof.
  intros Hk p Hp. apply Hu. destruct (interior R_ops P (shift d k p)) eqn:E; [exfalso|reflexivity].
  apply Hp. apply interior_spec in E. destruct E as [Hl E]. rewrite shift_length in Hl.
  apply In_big. split; [exact Hl|]. intros e He. specialize (E e He). pose proof fd_range.
  destruct (Nat.eq_dec d e) as [->|Hne].
  - rewrite coord_shift_same in E by lia. lia.
  - rewrite coord_shift_other in E by exact Hne. lia.
Qed.

(** Autocorrelation along dimension [d]. *)
Definition rr (k : Z) : R := Rsum big (fun p => u p * u (shift d k p)).

Lemma rr_corr i j : (-8 <= i <= 8)%Z -> (-8 <= j - i <= 8)%Z -> 
  Rsum big (fun p => u (shift d i p) * u (shift d j p)) = rr (j - i).
Proof.
  intros Hi Hj. 
  pose proof (dot_shift R_ops R_is_ring big d i (fun p => u (shift d i p)) (fun p => u (shift d (j - i) p))
    (NoDup_box_pts _) (sh_supp i Hi) (sh_supp _ Hj)) as E.
  unfold rr. transitivity (dot (K := R_ops) big (fun p => u (shift d i p)) (fun p => u (shift d (j - i) (shift d i p)))).
  - apply Rsum_ext. intros p _. cbn. rewrite shift_shift. replace (j - i + i)%Z with j by lia. reflexivity.
  - rewrite E. apply Rsum_ext. intros p _. cbn. rewrite shift_neg'. reflexivity.
Qed.

Lemma rr_neg k : (-8 <= k <= 8)%Z -> rr (- k) = rr k.
Proof.
  intros Hk. replace (- k)%Z with (0 - k)%Z by lia. rewrite <- rr_corr by lia.
  apply Rsum_ext. intros p _. rewrite shift_0. ring.
Qed.

(** [sum_i c_i u(p + o_i e_d)]. *)
Definition lin (cs : list (Z * R)) (p : pt) : R := Rsum cs (fun oc => snd oc * u (shift d (fst oc) p)).

Lemma lin_sq cs : (forall oc, In oc cs -> (-4 <= fst oc <= 4)%Z) ->
  Rsum big (fun p => lin cs p * lin cs p)
  = Rsum cs (fun a => Rsum cs (fun b => snd a * snd b * rr (fst b - fst a))).
Proof.
  intros H.
  transitivity (Rsum big (fun p => Rsum cs (fun a => Rsum cs (fun b => snd a * snd b * (u (shift d (fst a) p) * u (shift d (fst b) p)))))).
  { apply Rsum_ext. intros p _. unfold lin at 1. rewrite Rmult_comm, <- Rsum_scal. apply Rsum_ext. intros a _.
    unfold lin. rewrite Rmult_comm, <- Rsum_scal. apply Rsum_ext. intros b _. ring. }
  rewrite Rsum_swap. apply Rsum_ext. intros a Ha. rewrite Rsum_swap. apply Rsum_ext. intros b Hb.
  rewrite Rsum_scal. f_equal. apply H in Ha. apply H in Hb. apply rr_corr; lia.
Qed.

Lemma lin_sq_pos cs : 0 <= Rsum big (fun p => lin cs p * lin cs p).
Proof. apply Rsum_pos. intros p _. apply Rle_0_sqr. Qed.

Ltac offs := intros oc Hoc; cbn in Hoc; repeat (destruct Hoc as [<-|Hoc]; [cbn; lia|]); contradiction.
Ltac rrs :=
  repeat match goal with |- context [rr ?k] =>
    let k' := eval vm_compute in k in progress change (rr k) with (rr k') end;
  repeat match goal with |- context [rr (Z.neg ?k)] => change (rr (Z.neg k)) with (rr (- Z.pos k)); rewrite (rr_neg (Z.pos k)) by lia end.

Definition S1 : R := Rsum big (fun p => (u (shift d 1 p) - u p) * (u (shift d 1 p) - u p)).

Lemma S1_lin : S1 = Rsum big (fun p => lin [(1%Z, 1); (0%Z, -1)] p * lin [(1%Z, 1); (0%Z, -1)] p).
Proof.
  unfold S1. apply Rsum_ext. intros p _. unfold lin, Rsum. cbn [sumf fst snd oadd omul o0 R_ops]. rewrite shift_0.
  cbn. ring.
Qed.

Ltac sqe := rewrite lin_sq by offs; unfold Rsum; cbn [sumf fst snd]; unfold R_ops; cbn [oadd omul o0 car]; rrs; field.
Ltac sqf cs := match goal with |- 0 <= ?x => replace x with (Rsum big (fun p => lin cs p * lin cs p)); [apply lin_sq_pos|sqe] end.

Lemma f1 : S1 = 2 * rr 0 - 2 * rr 1.
Proof. rewrite S1_lin. sqe. Qed.
Lemma f2 : 0 <= 6 * rr 0 - 8 * rr 1 + 2 * rr 2.
Proof. sqf [((-1)%Z, -1); (0%Z, 2); (1%Z, -1)]. Qed.
Lemma f3 : 0 <= 20 * rr 0 - 30 * rr 1 + 12 * rr 2 - 2 * rr 3.
Proof. sqf [((-1)%Z, -1); (0%Z, 3); (1%Z, -3); (2%Z, 1)]. Qed.
Lemma f4 : 0 <= 70 * rr 0 - 112 * rr 1 + 56 * rr 2 - 16 * rr 3 + 2 * rr 4.
Proof. sqf [((-2)%Z, 1); ((-1)%Z, -4); (0%Z, 6); (1%Z, -4); (2%Z, 1)]. Qed.
Lemma up k : (1 <= k <= 4)%Z -> rr k <= rr 0.
Proof.
  intros Hk. enough (0 <= 2 * rr 0 - 2 * rr k) by lra.
  replace (2 * rr 0 - 2 * rr k) with (Rsum big (fun p => lin [(0%Z, 1); (k, -1)] p * lin [(0%Z, 1); (k, -1)] p));
    [apply lin_sq_pos|].
  rewrite lin_sq; [|intros oc [<-|[<-|[]]]; cbn; lia]. unfold Rsum. cbn [sumf fst snd]. unfold R_ops. cbn [oadd omul o0 car].
  replace (k - k)%Z with 0%Z by lia. replace (k - 0)%Z with k by lia. replace (0 - k)%Z with (- k)%Z by lia.
  replace (0 - 0)%Z with 0%Z by lia. rewrite rr_neg by lia. ring.
Qed.
Lemma dn k : (1 <= k <= 4)%Z -> - rr k <= rr 0.
Proof.
  intros Hk. enough (0 <= 2 * rr 0 + 2 * rr k) by lra.
  replace (2 * rr 0 + 2 * rr k) with (Rsum big (fun p => lin [(0%Z, 1); (k, 1)] p * lin [(0%Z, 1); (k, 1)] p));
    [apply lin_sq_pos|].
  rewrite lin_sq; [|intros oc [<-|[<-|[]]]; cbn; lia]. unfold Rsum. cbn [sumf fst snd]. unfold R_ops. cbn [oadd omul o0 car].
  replace (k - k)%Z with 0%Z by lia. replace (k - 0)%Z with k by lia. replace (0 - k)%Z with (- k)%Z by lia.
  replace (0 - 0)%Z with 0%Z by lia. rewrite rr_neg by lia. ring.
Qed.

(** Sums over the interior of terms that vanish outside. *)
Lemma Rsum_big (f : pt -> R) : (forall p, interior R_ops P p = false -> f p = 0) -> Rsum I f = Rsum big f.
Proof.
  intros H. rewrite (Rsum_filter (interior R_ops P) big) by (intros; apply H; assumption).
  apply Rsum_perm. apply NoDup_Permutation.
  - apply NoDup_box_pts.
  - apply NoDup_filter, NoDup_box_pts.
  - intros p. rewrite filter_In. split; [|intros [_ H2]; apply In_ipts; exact H2].
    intros Hp. apply In_ipts in Hp. split; [|exact Hp]. apply interior_spec in Hp. destruct Hp as [Hl Hp].
    apply In_big. split; [exact Hl|]. intros e He. specialize (Hp e He). pose proof fd_range. lia.
Qed.

(** Minus the quadratic form of the second difference. *)
Definition qd : R := - Rsum I (fun p => u p * d2 R_ops P d u p).

Lemma qd_even (cs : list Q) k : (1 <= k)%Z -> (k + Z.of_nat (length cs) <= 5)%Z ->
  Rsum big (fun p => u p * st_even (K := R_ops) cs k (fun j => u (shift d j p)))
  = Rsum (combine cs (seq (Z.to_nat k) (length cs))) (fun cj => 2 * Q2R (fst cj) * rr (Z.of_nat (snd cj))).
Proof.
  revert k. induction cs as [|c cs IH]; intros k Hk Hl.
  - cbn. apply Rsum_zero. intros; cbn; ring.
  - cbn [length seq combine]. rewrite Rsum_cons. cbn [fst snd st_even]. cbn [length] in Hl.
    replace (S (Z.to_nat k)) with (Z.to_nat (k + 1)) by lia. rewrite <- IH by lia.
    rewrite Z2Nat.id by lia. replace (2 * Q2R c * rr k) with (Q2R c * rr k + Q2R c * rr (- k)) by (rewrite rr_neg by lia; ring).
    unfold rr. rewrite <- !Rsum_scal, <- !Rsum_add. apply Rsum_ext. intros p _. cbn. ring.
Qed.

Lemma qd_form : qd = p_rd2 P d * - (Q2R (coef2c (p_acc P)) * rr 0 +
   Rsum (combine (coef2 (p_acc P)) (seq 1 (length (coef2 (p_acc P))))) (fun cj => 2 * Q2R (fst cj) * rr (Z.of_nat (snd cj)))).
Proof.
  unfold qd. rewrite Rsum_big by (intros p Hp; rewrite (Hu p Hp); cbn; ring).
  change 1%nat with (Z.to_nat 1) at 1. rewrite <- qd_even by (destruct (p_acc P); cbn; lia).
  unfold rr. rewrite <- Rsum_scal, <- Rsum_add. rewrite <- Ropp_mult_distr_r. f_equal.
  rewrite <- Rsum_scal. apply Rsum_ext. intros p _. unfold d2, D2, DIFF2. rewrite shift_0. cbn. ring.
Qed.

Lemma Q2R_frac a b : Q2R (a # b) = IZR a * / IZR (Zpos b). Proof. reflexivity. Qed.

(** The form lies between the sum of squared first differences and [6.51] times the norm. *)
Lemma qd_bounds : 0 <= p_rd2 P d ->
  p_rd2 P d * S1 <= qd /\ qd <= p_rd2 P d * (651 / 100 * rr 0).
Proof.
  intros Hr. rewrite qd_form, f1.
  pose proof f2 as H2. pose proof f3 as H3. pose proof f4 as H4.
  pose proof (up 1 ltac:(lia)). pose proof (up 2 ltac:(lia)). pose proof (up 3 ltac:(lia)). pose proof (up 4 ltac:(lia)).
  pose proof (dn 1 ltac:(lia)). pose proof (dn 2 ltac:(lia)). pose proof (dn 3 ltac:(lia)). pose proof (dn 4 ltac:(lia)).
  split; apply Rmult_le_compat_l; try exact Hr; destruct (p_acc P); cbn [coef2 coef2c length seq combine];
    unfold Rsum; cbn [sumf fst snd Z.of_nat Pos.of_succ_nat Pos.succ]; unfold R_ops; cbn [oadd omul o0 car];
    rewrite ?Q2R_frac; lra.
Qed.
Lemma S1_pos : 0 <= S1.
Proof. apply Rsum_pos. intros. apply Rle_0_sqr. Qed.
Lemma rr0 : rr 0 = Rsum I (fun p => u p * u p).
Proof.
  rewrite Rsum_big by (intros p Hp; rewrite (Hu p Hp); cbn; ring). apply Rsum_ext. intros p _. rewrite shift_0. reflexivity.
Qed.

(** ** A value is bounded by the differences along its line *)

Lemma cs_sum (x : nat -> R) n : Rsum (seq 0 n) x * Rsum (seq 0 n) x <= INR n * Rsum (seq 0 n) (fun j => x j * x j).
Proof.
  generalize 0%nat as s. induction n as [|n IH]; intros s; [cbn; lra|].
  cbn [seq]. rewrite !Rsum_cons. rewrite S_INR. specialize (IH (S s)).
  set (A := Rsum (seq (S s) n) x) in *. set (Q := Rsum (seq (S s) n) (fun j => x j * x j)) in *.
  pose proof (pos_INR n) as Hn. destruct (Req_EM_T (INR n) 0) as [E|E].
  - assert (n = 0%nat) by (apply INR_eq; rewrite E; reflexivity). subst n. cbn in A, Q. unfold A, Q. cbn. lra.
  - assert (HQ : A * A / INR n <= Q).
    { apply (Rmult_le_reg_l (INR n)); [lra|]. replace (INR n * (A * A / INR n)) with (A * A) by (field; lra). exact IH. }
    assert (X : 0 <= INR n * ((x s - A / INR n) * (x s - A / INR n))) by (apply Rmult_le_pos; [lra|apply Rle_0_sqr]).
    assert (Y : INR n * ((x s - A / INR n) * (x s - A / INR n)) = INR n * (x s * x s) - 2 * x s * A + A * A / INR n) by (field; lra).
    rewrite Y in X. nra.
Qed.

Lemma telescope (g : nat -> R) n : Rsum (seq 0 n) (fun j => g j - g (S j)) = g 0%nat - g n.
Proof.
  assert (E : forall s, Rsum (seq s n) (fun j => g j - g (S j)) = g s - g (s + n)%nat).
  { induction n as [|n IH]; intros s; [cbn; rewrite Nat.add_0_r; lra|].
    cbn [seq]. rewrite Rsum_cons, IH. replace (S s + n)%nat with (s + S n)%nat by lia. lra. }
  apply E.
Qed.

Lemma poincare p : (d < nd)%nat -> interior R_ops P p = true ->
  u p * u p <= IZR (nth d shape 0%Z - 2 * fd) * S1.
Proof.
  intros Hd Hp. pose proof Hp as Hp'. apply interior_spec in Hp'. destruct Hp' as [Hl Hc]. pose proof (Hc d Hd) as Hy. pose proof fd_range as Hfd.
  set (n := Z.to_nat (coord d p + 1 - fd)).
  set (g := fun j : nat => u (shift d (- Z.of_nat j) p)).
  assert (E0 : g 0%nat = u p) by (unfold g; cbn; rewrite shift_0; reflexivity).
  assert (En : g n = 0).
  { apply Hu. destruct (interior R_ops P (shift d (- Z.of_nat n) p)) eqn:E; [exfalso|reflexivity].
    apply interior_spec in E. destruct E as [_ E]. specialize (E d Hd). rewrite coord_shift_same in E by lia. unfold n in E. lia. }
  pose proof (telescope g n) as T. rewrite E0, En in T.
  pose proof (cs_sum (fun j => g j - g (S j)) n) as C. rewrite T in C.
  replace ((u p - 0) * (u p - 0)) with (u p * u p) in C by ring.
  assert (L : Rsum (seq 0 n) (fun j => (g j - g (S j)) * (g j - g (S j))) <= S1).
  { apply Rle_trans with (Rsum (map (fun j => shift d (- Z.of_nat (S j)) p) (seq 0 n))
       (fun p => (u (shift d 1 p) - u p) * (u (shift d 1 p) - u p))).
    - right. unfold Rsum at 2. rewrite sumf_map. apply Rsum_ext. intros j _. unfold g. rewrite shift_shift.
      replace (1 + - Z.of_nat (S j))%Z with (- Z.of_nat j)%Z by lia. reflexivity.
    - apply Rsum_incl; [| |intros; apply Rle_0_sqr].
      + apply FinFun.Injective_map_NoDup; [|apply seq_NoDup]. intros i j E. apply (f_equal (coord d)) in E.
        rewrite !coord_shift_same in E by lia. lia.
      + intros x Hx. apply in_map_iff in Hx. destruct Hx as (j & <- & Hj). apply in_seq in Hj.
        apply In_big. rewrite shift_length. split; [exact Hl|]. intros e He. specialize (Hc e He).
        destruct (Nat.eq_dec d e) as [->|Hne].
        * rewrite coord_shift_same by lia. unfold n in Hj. lia.
        * rewrite coord_shift_other by exact Hne. lia. }
  eapply Rle_trans; [exact C|]. pose proof S1_pos as HS.
  assert (Hn : INR n <= IZR (nth d shape 0%Z - 2 * fd)) by (rewrite INR_IZR_INZ; apply IZR_le; unfold n; lia).
  pose proof (pos_INR n). apply Rmult_le_compat; auto. apply Rsum_pos. intros; apply Rle_0_sqr.
Qed.
End Quad.

(** ** Positivity of the energy *)

Section Pos.
Variable P : par R_ops.
Notation shape := (p_shape P).
Notation fd := (fd_pad (p_acc P)).
Notation I := (ipts R_ops P).
Notation nd := (length shape).
Notation lp := (lap R_ops P).
Hypothesis Hr : forall d, (d < nd)%nat -> 0 <= p_rd2 P d.

Definition ql (u : field R_ops) : R := - Rsum I (fun p => u p * lp u p).

Lemma ql_qd u : ql u = Rsum (dims R_ops P) (fun d => qd P d u).
Proof.
  unfold ql, qd. rewrite Rsum_opp, Rsum_swap. f_equal. apply Rsum_ext.
  intros p _. rewrite Rsum_scal. reflexivity.
Qed.

Lemma In_dims d : In d (dims R_ops P) <-> (d < nd)%nat.
Proof. unfold dims. rewrite in_seq. lia. Qed.

Lemma ql_upper u : fsupp R_ops P u ->
  ql u <= 651 / 100 * Rsum (dims R_ops P) (p_rd2 P) * Rsum I (fun p => u p * u p).
Proof.
  intros Hu. rewrite ql_qd. rewrite (Rmult_comm (651/100)), Rmult_assoc, Rmult_comm, <- Rsum_scal.
  apply Rsum_le. intros d Hd. apply In_dims in Hd.
  destruct (qd_bounds P d u Hu (Hr d Hd)) as [_ H]. rewrite (rr0 P d u Hu) in H. lra.
Qed.

Lemma ql_lower u d : fsupp R_ops P u -> (d < nd)%nat -> p_rd2 P d * S1 P d u <= ql u.
Proof.
  intros Hu Hd. rewrite ql_qd. apply Rle_trans with (qd P d u); [apply (qd_bounds P d u Hu (Hr d Hd))|].
  assert (Hp : forall e, In e (dims R_ops P) -> 0 <= qd P e u).
  { intros e He. apply In_dims in He. destruct (qd_bounds P e u Hu (Hr e He)) as [H _].
    pose proof (Rmult_le_pos _ _ (Hr e He) (S1_pos P e u)). lra. }
  apply In_dims in Hd. revert Hd Hp. generalize (dims R_ops P) as l. induction l as [|e l IH]; intros Hi Hp; [destruct Hi|].
  rewrite Rsum_cons. pose proof (Hp e (or_introl eq_refl)).
  assert (Hl : forall x, In x l -> 0 <= qd P x u) by (intros; apply Hp; right; assumption).
  destruct Hi as [->|Hi]; [pose proof (Rsum_pos l (fun x => qd P x u) Hl); lra|].
  specialize (IH Hi Hl). lra.
Qed.

Lemma polar (c p : field R_ops) : fsupp R_ops P c -> fsupp R_ops P p ->
  - Rsum I (fun x => c x * lp p x) = / 4 * (ql (fun x => c x + p x) - ql (fun x => c x - p x)).
Proof.
  intros Hc Hp.
  assert (S : Rsum I (fun x => c x * lp p x) = Rsum I (fun x => p x * lp c x)).
  { pose proof (lap_sym R_ops R_is_ring P c p Hc Hp) as E. unfold dot in E.
    transitivity (Rsum I (fun x => lp c x * p x)); [exact E|]. apply Rsum_ext. intros; ring. }
  assert (A : forall x, lp (fun y => c y + p y) x = lp c x + lp p x) by (intros; apply (lap_add R_ops R_is_ring)).
  assert (B : forall x, lp (fun y => c y - p y) x = lp c x - lp p x).
  { intros x. pose proof (lap_scal R_ops R_is_ring P (-1) p x) as E. cbn [omul R_ops car] in E.
    pose proof (lap_add R_ops R_is_ring P c (fun y => -1 * p y) x) as F. cbn [oadd R_ops car] in F.
    transitivity (lp (fun y => c y + -1 * p y) x); [apply lap_ext; intros; cbn; ring|].
    refine (eq_trans F _). change (lp (fun y : pt => -1 * p y) x) with (lp (fun q : pt => -1 * p q) x). rewrite E. cbn. ring. }
  unfold ql.
  rewrite (Rsum_ext I (fun x => (c x + p x) * lp (fun y => c y + p y) x) (fun x => (c x * lp c x + p x * lp p x) + (c x * lp p x + p x * lp c x)))
    by (intros; rewrite A; ring).
  rewrite (Rsum_ext I (fun x => (c x - p x) * lp (fun y => c y - p y) x) (fun x => (c x * lp c x + p x * lp p x) - (c x * lp p x + p x * lp c x)))
    by (intros; rewrite B; ring).
  rewrite Rsum_sub, !Rsum_add. rewrite S. field.
Qed.

Variable mu : R.
Hypothesis Hmu : 0 < mu.
Hypothesis Hcfl : Rsum (dims R_ops P) (p_rd2 P) <= 36 / 100 * mu.

Lemma en_pos (m : field R_ops) (c p : field R_ops) : fsupp R_ops P c -> fsupp R_ops P p ->
  (forall x, interior R_ops P x = true -> mu <= m x) ->
  4 / 10 * mu * Rsum I (fun x => (c x - p x) * (c x - p x)) + / 4 * ql (fun x => c x + p x) <= en R_ops P m (c, p).
Proof.
  intros Hc Hp Hm. unfold en. cbn [fst snd].
  change (?a - ?b)%K with (a - b). 
  set (A := sumf I _). set (B := sumf I _).
  assert (EB : - B = / 4 * (ql (fun x => c x + p x) - ql (fun x => c x - p x))) by exact (polar c p Hc Hp).
  assert (Hs : fsupp R_ops P (fun x => c x - p x)) by (intros x Hx; rewrite (Hc x Hx), (Hp x Hx); cbn; ring).
  pose proof (ql_upper _ Hs) as U. set (N := Rsum I (fun x => (c x - p x) * (c x - p x))) in *.
  assert (HN : 0 <= N) by (apply Rsum_pos; intros; apply Rle_0_sqr).
  assert (EA : mu * N <= A).
  { unfold N. rewrite <- Rsum_scal. apply Rsum_le. intros x Hx. apply In_ipts in Hx.
    apply Rmult_le_compat_r; [apply Rle_0_sqr|apply Hm; exact Hx]. }
  assert (V : 651 / 100 * Rsum (dims R_ops P) (p_rd2 P) * N <= 651 / 100 * (36 / 100 * mu) * N).
  { apply Rmult_le_compat_r; [exact HN|]. lra. }
  assert (0 <= mu * N) by (apply Rmult_le_pos; lra). cbn [car R_ops] in *. lra.
Qed.
End Pos.

(** ** The code's time step *)

Lemma sum_inv2_dims gs n (f : nat -> R) : length gs = n ->
  (forall d, (d < n)%nat -> f d = 1 / nth d gs 0 ^ 2) -> Rsum (seq 0 n) f = sum_inv2 gs.
Proof.
  intros Hl. 
  assert (E : forall s g, length g = n -> (forall d, (d < n)%nat -> f (s + d)%nat = 1 / nth d g 0 ^ 2) -> Rsum (seq s n) f = sum_inv2 g).
  { clear. induction n as [|n IH]; intros s [|x g] Hl H; try discriminate Hl; [reflexivity|].
    cbn [seq]. rewrite Rsum_cons. unfold sum_inv2. cbn [fold_right]. fold (sum_inv2 g).
    pose proof (H 0%nat ltac:(lia)) as H0. rewrite Nat.add_0_r in H0. rewrite H0. cbn [nth]. f_equal.
    apply IH; [cbn in Hl; lia|]. intros d Hd. replace (S s + d)%nat with (s + S d)%nat by lia. apply (H (S d)). lia. }
  intros H. apply E; [exact Hl|]. exact H.
Qed.

Section Cfl.
Variable P : par R_ops.
Notation shape := (p_shape P).
Notation fd := (fd_pad (p_acc P)).
Notation nd := (length shape).
Variables (gs : list R) (dt vmax inner : R) (ratio : Z).
Hypothesis Hcfl : cfl_condition_n gs dt vmax cfl_eps cfl_c_max = Some (inner, ratio).
Hypothesis Hlen : length gs = nd.
Hypothesis Hrd2 : forall d, (d < nd)%nat -> p_rd2 P d = 1 / nth d gs 0 ^ 2.

Lemma gs_pos d : (d < nd)%nat -> 0 < nth d gs 0.
Proof.
  intros Hd. destruct (cfl_thm gs dt vmax cfl_eps cfl_c_max inner ratio) as (_ & F & _);
    [unfold cfl_eps; lra|unfold cfl_c_max; lra|exact Hcfl|].
  rewrite Forall_forall in F. apply F, nth_In. lia.
Qed.
Lemma rd2_nonneg d : (d < nd)%nat -> 0 <= p_rd2 P d.
Proof.
  intros Hd. rewrite Hrd2 by exact Hd. pose proof (gs_pos d Hd) as Hg.
  apply Rlt_le, Rdiv_lt_0_compat; [lra|]. apply pow_lt, Hg.
Qed.

Definition mu0 : R := / (vmax ^ 2 * inner ^ 2).

Lemma cfl_facts : 0 < vmax /\ inner <> 0 /\ 0 < mu0 /\ Rsum (dims R_ops P) (p_rd2 P) <= 36 / 100 * mu0.
Proof.
  destruct (cfl_thm gs dt vmax cfl_eps cfl_c_max inner ratio) as (Hgs & F & Hv & Hdt & Hra & Hin & Hpos & Hb & _);
    [unfold cfl_eps; lra|unfold cfl_c_max; lra|exact Hcfl|].
  assert (Hi : inner <> 0) by (intros ->; lra).
  assert (HS : Rsum (dims R_ops P) (p_rd2 P) = sum_inv2 gs) by (unfold dims; apply sum_inv2_dims; assumption).
  assert (HSp : 0 < sum_inv2 gs).
  { destruct gs as [|g gs']; [congruence|]. unfold sum_inv2. cbn [fold_right]. fold (sum_inv2 gs').
    inversion F as [|? ? Hg F']; subst.
    assert (0 <= sum_inv2 gs').
    { clear -F'. induction gs' as [|x l IH]; [cbn; lra|]. inversion F' as [|? ? Hx F'']; subst. unfold sum_inv2. cbn [fold_right]. fold (sum_inv2 l).
      specialize (IH F''). assert (0 < 1 / x ^ 2) by (apply Rdiv_lt_0_compat; [lra|apply pow_lt, Hx]). lra. }
    assert (0 < 1 / g ^ 2) by (apply Rdiv_lt_0_compat; [lra|apply pow_lt, Hg]). lra. }
  assert (Hi2 : 0 < inner ^ 2) by (rewrite <- Rsqr_pow2; apply Rsqr_pos_lt, Hi).
  assert (Hv2 : 0 < vmax ^ 2) by (apply pow_lt, Hv).
  assert (Hmu : 0 < mu0) by (unfold mu0; apply Rinv_0_lt_compat, Rmult_lt_0_compat; assumption).
  split; [exact Hv|]. split; [exact Hi|]. split; [exact Hmu|].
  rewrite HS. pose proof (sqrt_lt_R0 _ HSp) as Hq.
  assert (Hsv : 0 < sqrt (sum_inv2 gs) * vmax) by (apply Rmult_lt_0_compat; assumption).
  assert (X : Rabs inner * (sqrt (sum_inv2 gs) * vmax) <= 6 / 10).
  { apply (Rmult_le_compat_r (sqrt (sum_inv2 gs) * vmax)) in Hb; [|lra]. unfold cfl_c_max in Hb.
    replace (6 / 10 / (sqrt (sum_inv2 gs) * vmax) * (sqrt (sum_inv2 gs) * vmax)) with (6 / 10) in Hb by (field; lra). exact Hb. }
  assert (Y : (Rabs inner * (sqrt (sum_inv2 gs) * vmax)) ^ 2 <= (6 / 10) ^ 2).
  { apply pow_incr. split; [|exact X]. apply Rmult_le_pos; [apply Rabs_pos|lra]. }
  rewrite !Rpow_mult_distr, pow2_abs in Y. rewrite pow2_sqrt in Y by lra.
  unfold mu0. apply (Rmult_le_reg_r (vmax ^ 2 * inner ^ 2)); [apply Rmult_lt_0_compat; assumption|].
  rewrite Rmult_assoc, Rinv_l by (apply Rgt_not_eq, Rmult_lt_0_compat; assumption). lra.
Qed.

Variable m : field R_ops.
Hypothesis Hm : forall q, In q (upts R_ops P) -> 1 <= m q * (vmax ^ 2 * inner ^ 2).

Lemma m_lower q : In q (upts R_ops P) -> mu0 <= m q.
Proof.
  intros Hq. destruct cfl_facts as (Hvm & Hi & Hmu & _). specialize (Hm q Hq).
  assert (Hi2 : 0 < inner ^ 2) by (rewrite <- Rsqr_pow2; apply Rsqr_pos_lt, Hi).
  assert (Hv2 : 0 < vmax ^ 2) by (apply pow_lt, Hvm).
  assert (Hvi : 0 < vmax ^ 2 * inner ^ 2) by (apply Rmult_lt_0_compat; assumption).
  unfold mu0. apply (Rmult_le_reg_r (vmax ^ 2 * inner ^ 2)); [exact Hvi|]. rewrite Rinv_l by lra. exact Hm.
Qed.

Variables c p : field R_ops.
Notation E := (energy R_ops P m c p).

Lemma Rsum_upts f : Rsum (upts R_ops P) f = Rsum (ipts R_ops P) (fun x => f (unpad R_ops P x)).
Proof.
  rewrite <- (Rsum_perm (map (topad R_ops P) (upts R_ops P)) (ipts R_ops P)) by apply upts_perm.
  unfold Rsum. rewrite sumf_map. apply (sumf_ext R_ops). intros q _. rewrite unpad_topad. reflexivity.
Qed.

Lemma padded_supp f : fsupp R_ops P (padded R_ops P f).
Proof. intros x Hx. unfold padded. rewrite Hx. reflexivity. Qed.
Lemma padded_topad f q : In q (upts R_ops P) -> padded R_ops P f (topad R_ops P q) = f q.
Proof. intros Hq. apply In_upts in Hq. unfold padded. rewrite Hq, unpad_topad. reflexivity. Qed.

Lemma energy_lower :
  4 / 10 * mu0 * Rsum (upts R_ops P) (fun q => (c q - p q) ^ 2)
  + / 4 * ql P (fun x => padded R_ops P c x + padded R_ops P p x) <= E.
Proof.
  destruct cfl_facts as (Hvm & Hi & Hmu & Hc).
  rewrite (energy_en R_ops R_is_ring P m c p (padded R_ops P c, padded R_ops P p));
    [| | |split; apply padded_supp]; [|intros q Hq; symmetry; apply padded_topad, Hq..].
  eapply Rle_trans; [|apply (en_pos P rd2_nonneg mu0 Hmu Hc);
    [apply padded_supp|apply padded_supp|]].
  - apply Rplus_le_compat_r. apply Rmult_le_compat_l; [lra|]. right. rewrite Rsum_upts. apply Rsum_ext.
    intros x Hx. apply In_ipts in Hx. unfold padded. rewrite Hx. ring.
  - intros x Hx. apply m_lower. apply In_upts. rewrite topad_unpad. exact Hx.
Qed.

Lemma energy_bounds :
  0 <= E /\
  Rsum (upts R_ops P) (fun q => (c q - p q) ^ 2) <= 5 / 2 * (vmax ^ 2 * inner ^ 2) * E /\
  (forall d q, (d < nd)%nat -> In q (upts R_ops P) ->
    let B := 2 * IZR (nth d shape 0%Z - 2 * fd) * nth d gs 0 ^ 2 + 5 / 4 * (vmax ^ 2 * inner ^ 2) in
    c q ^ 2 <= B * E /\ p q ^ 2 <= B * E).
Proof.
  destruct cfl_facts as (Hvm & Hi & Hmu & Hc).
  pose proof energy_lower as L. set (N := Rsum (upts R_ops P) _) in *.
  set (w := fun x => padded R_ops P c x + padded R_ops P p x) in *.
  assert (Hw : fsupp R_ops P w) by (intros x Hx; unfold w; rewrite !(padded_supp _ x Hx); cbn; lra).
  assert (HN : 0 <= N) by (apply Rsum_pos; intros; apply pow2_ge_0).
  assert (Hd0 : (0 < nd)%nat).
  { destruct gs as [|g l]; [|cbn in Hlen; lia]. exfalso. unfold cfl_condition_n in Hcfl. discriminate Hcfl. }
  assert (Hq : forall d, (d < nd)%nat -> 0 <= p_rd2 P d * S1 P d w).
  { intros d Hd. apply Rmult_le_pos; [apply rd2_nonneg, Hd|apply S1_pos]. }
  assert (Hql : forall d, (d < nd)%nat -> p_rd2 P d * S1 P d w <= ql P w) by (intros d Hd; apply (ql_lower P rd2_nonneg w d Hw Hd)).
  assert (Hq0 : 0 <= ql P w) by (eapply Rle_trans; [apply (Hq 0%nat Hd0)|apply Hql, Hd0]).
  set (e := energy R_ops P m c p) in *. change (car R_ops) with R in e. change R in (type of e).
  assert (HmN : 0 <= mu0 * N) by (apply Rmult_le_pos; lra).
  assert (He : 0 <= e) by lra.
  assert (Hi2 : 0 < inner ^ 2) by (rewrite <- Rsqr_pow2; apply Rsqr_pos_lt, Hi).
  assert (Hv2 : 0 < vmax ^ 2) by (apply pow_lt, Hvm).
  assert (Hvi : 0 < vmax ^ 2 * inner ^ 2) by (apply Rmult_lt_0_compat; assumption).
  assert (HNe : N <= 5 / 2 * (vmax ^ 2 * inner ^ 2) * e).
  { assert (X : mu0 * N <= 5 / 2 * e) by lra.
    apply (Rmult_le_compat_l (vmax ^ 2 * inner ^ 2)) in X; [|lra].
    unfold mu0 in X. rewrite <- Rmult_assoc, Rinv_r, Rmult_1_l in X by lra. lra. }
  split; [exact He|]. split; [exact HNe|]. intros d q Hd Hin. cbv zeta.
  pose proof (gs_pos d Hd) as Hg. set (g := nth d gs 0) in *. assert (Hg2 : 0 < g ^ 2) by (apply pow_lt, Hg).
  set (n := IZR (nth d shape 0%Z - 2 * fd)).
  assert (Hsq : (c q + p q) ^ 2 <= n * (4 * g ^ 2 * e)).
  { pose proof Hin as Hii. apply In_upts in Hii.
    pose proof (poincare P d w Hw (topad R_ops P q) Hd Hii) as PC.
    assert (EW : w (topad R_ops P q) = c q + p q) by (unfold w; rewrite !padded_topad by exact Hin; reflexivity).
    rewrite EW in PC. replace ((c q + p q) ^ 2) with ((c q + p q) * (c q + p q)) by ring.
    eapply Rle_trans; [exact PC|]. apply Rmult_le_compat_l.
    { apply IZR_le. apply interior_spec in Hii. destruct Hii as [_ Hii]. specialize (Hii d Hd). lia. }
    pose proof (Hql d Hd) as X. rewrite Hrd2 in X by exact Hd. fold g in X.
    assert (Y : 1 / g ^ 2 * S1 P d w <= 4 * e) by lra.
    apply (Rmult_le_compat_l (g ^ 2)) in Y; [|lra]. replace (g ^ 2 * (1 / g ^ 2 * S1 P d w)) with (S1 P d w) in Y by (field; lra).
    lra. }
  assert (Hdq : (c q - p q) ^ 2 <= N).
  { pose proof (Rsum_incl [q] (upts R_ops P) (fun q => (c q - p q) ^ 2)) as X. unfold N.
    eapply Rle_trans; [|apply X].
    - rewrite Rsum_cons. unfold Rsum. cbn [sumf o0 R_ops]. change (o0 R_ops) with 0. right. ring.
    - constructor; [intros []|constructor].
    - intros x [<-|[]]. exact Hin.
    - intros; apply pow2_ge_0. }
  assert (Hg4 : n * (4 * g ^ 2 * e) = 2 * ((2 * n * g ^ 2) * e)) by ring.
  split; nra.
Qed.
End Cfl.

(** ** Stability of the propagator *)

Section Stable.
Variable P : par R_ops.
Hypothesis NP : no_pml P.
Variable pw : nat -> Z * Z.
Hypothesis Hg : geom_ok R_ops P pw.
Hypothesis Hsrc : Forall (loc_ok R_ops P) (p_src P).
Hypothesis Hrec : Forall (loc_ok R_ops P) (p_rec P).
Variables (gs : list R) (dt vmax inner : R) (ratio : Z).
Hypothesis Hcfl : cfl_condition_n gs dt vmax cfl_eps cfl_c_max = Some (inner, ratio).
Hypothesis Hlen : length gs = length (p_shape P).
Hypothesis Hrd2 : forall d, (d < length (p_shape P))%nat -> p_rd2 P d = 1 / nth d gs 0 ^ 2.
Hypothesis Hdt2 : p_dt2 P = inner ^ 2.
Variable v : arr R_ops.
Notation vq q := (v (idx (p_shape P) (topad R_ops P q))).
Hypothesis Hv : forall q, In q (upts R_ops P) -> Rabs (vq q) <= vmax.
Variable m : field R_ops.
Hypothesis Hm : forall q, In q (upts R_ops P) ->
  m q * (vq q * vq q * inner ^ 2) = 1 \/ (vq q = 0 /\ m q * (vmax ^ 2 * inner ^ 2) = 1).
Variables (f : Z -> list R) (u : st R_ops) (nt sr : Z) (vis : list (list Z * pt)) (vrg : bool) (cb : option Z)
  (st0 : Z -> arr R_ops) (U : st R_ops) (Rc : Z -> list R) (S : Z -> arr R_ops).
Hypothesis Hf : forall t, Forall (fun x => x = 0) (f t).
Hypothesis Hvis : fvis R_ops P pw vis.
Hypothesis Hsr : (0 < sr)%Z.
Hypothesis Hcb : cb_ok nt sr cb.
Hypothesis HF : scalar_forward R_ops P pw v vis vrg sr f nt cb st0 u = Some (U, Rc, S).

Lemma m_ok q : In q (upts R_ops P) -> 1 <= m q * (vmax ^ 2 * inner ^ 2).
Proof.
  intros Hq. destruct (cfl_facts P gs dt vmax inner ratio Hcfl Hlen Hrd2) as (Hvm & Hi & _).
  assert (Hi2 : 0 < inner ^ 2) by (rewrite <- Rsqr_pow2; apply Rsqr_pos_lt, Hi).
  destruct (Hm q Hq) as [E|[_ E]]; [|lra]. specialize (Hv q Hq). change (car R_ops) with R in *.
  assert (Hvq : vq q * vq q <= vmax ^ 2).
  { replace (vq q * vq q) with (Rabs (vq q) ^ 2) by (rewrite pow2_abs; cbn; ring). apply pow_incr. split; [apply Rabs_pos|exact Hv]. }
  assert (Hpos : 0 <= vq q * vq q) by apply Rle_0_sqr.
  assert (Hmq : 0 <= m q).
  { destruct (Rle_lt_dec 0 (m q)) as [|Hn]; [assumption|exfalso].
    assert (0 <= vq q * vq q * inner ^ 2) by (apply Rmult_le_pos; lra).
    assert (X : m q * (vq q * vq q * inner ^ 2) <= 0) by nra. lra. }
  rewrite <- E. apply Rmult_le_compat_l; [exact Hmq|]. apply Rmult_le_compat_r; lra.
Qed.

Notation B d := (2 * IZR (nth d (p_shape P) 0%Z - 2 * fd_pad (p_acc P)) * nth d gs 0 ^ 2 + 5 / 4 * (vmax ^ 2 * inner ^ 2)).

Lemma stability :
  (forall q, In q (upts R_ops P) -> vq q = 0 -> s_wfc R_ops u q = s_wfp R_ops u q) ->
  let E := energy R_ops P m (s_wfc R_ops u) (s_wfp R_ops u) in
  0 <= E /\
  sumf (K := R_ops) (upts R_ops P) (fun q => (s_wfc R_ops U q - s_wfp R_ops U q) ^ 2) <= 5 / 2 * (vmax ^ 2 * inner ^ 2) * E /\
  (forall d q, (d < length (p_shape P))%nat -> In q (upts R_ops P) -> s_wfc R_ops U q ^ 2 <= B d * E).
Proof.
  intros Hz E.
  assert (HE : energy R_ops P m (s_wfc R_ops U) (s_wfp R_ops U) = E).
  { refine (energy_conserved R_ops R_is_ring P NP pw Hg Hsrc Hrec m v f u nt sr vis vrg cb st0 U Rc S Hvis Hsr Hcb Hf _ HF).
    intros q Hq. cbv zeta. rewrite Hdt2. destruct (Hm q Hq) as [H|[H _]]; [left; exact H|right].
    split; [rewrite H; cbn; ring|apply Hz; assumption]. }
  rewrite <- HE.
  destruct (energy_bounds P gs dt vmax inner ratio Hcfl Hlen Hrd2 m m_ok (s_wfc R_ops U) (s_wfp R_ops U)) as (B1 & B2 & B3).
  split; [exact B1|]. split; [exact B2|]. intros d q Hdd Hq. apply (B3 d q Hdd Hq).
Qed.

Lemma increments_bounded d q : (d < length (p_shape P))%nat -> In q (upts R_ops P) ->
  (s_wfc R_ops U q - s_wfp R_ops U q) ^ 2
  <= B d * energy R_ops P m (fun x => vq x * vq x * inner ^ 2 * lap R_ops P (padded R_ops P (s_wfc R_ops u)) (topad R_ops P x)
                                       + (s_wfc R_ops u x - s_wfp R_ops u x))
                 (fun x => s_wfc R_ops u x - s_wfp R_ops u x).
Proof.
  intros Hd Hq.
  destruct (increments R_ops R_is_ring P NP pw Hg Hsrc Hrec m v f u nt sr vis vrg cb st0 U Rc S Hvis Hsr Hcb Hf) as (c & E); [|exact HF|].
  { intros x Hx. cbv zeta. rewrite Hdt2. destruct (Hm x Hx) as [H|[H _]]; [left; exact H|right]. rewrite H. cbn. ring. }
  unfold first_inc in E. rewrite Hdt2 in E.
  match goal with |- _ <= _ * ?e => change e with (energy R_ops P m
     (fun q : pt => ((vq q * vq q)%K * inner ^ 2 * lap R_ops P (padded R_ops P (s_wfc R_ops u)) (topad R_ops P q) + (s_wfc R_ops u q - s_wfp R_ops u q))%K)
     (fun q : pt => (s_wfc R_ops u q - s_wfp R_ops u q)%K)) end.
  rewrite <- E.
  destruct (energy_bounds P gs dt vmax inner ratio Hcfl Hlen Hrd2 m m_ok c (fun q => s_wfc R_ops U q - s_wfp R_ops U q)) as (_ & _ & B3).
  apply (B3 d q Hd Hq).
Qed.
End Stable.
