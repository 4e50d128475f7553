(** * Dual numbers compute derivatives of real functions.

    Curves: inputs that depend on a real number [h].  A kernel run on curves is, for every [h], the kernel run on the real numbers at [h]; and it
    is related to the run on dual numbers by "value and derivative at 0". *)
From Coq Require Import List ZArith QArith Qreals Reals Lia Lra Bool.
From Verif Require Import Ops Sums Grid Stencil StencilOrder DualNum ScalarModel ScalarRefine ScalarForward ScalarAdjoint ScalarFunc ScalarApi Param.
Import ListNotations.

(** Functions of [h] with pointwise operations. *)
Definition fun_ops : ops :=
  mkops (R -> R) (fun _ => 0%R) (fun _ => 1%R) (fun f g h => (f h + g h)%R) (fun f g h => (f h * g h)%R) (fun f g h => (f h - g h)%R)
    (fun f h => (- f h)%R) (fun q _ => Q2R q).
Definition at_h (h : R) (f : fun_ops) (x : R_ops) : Prop := f h = x.
Definition has_deriv (f : fun_ops) (d : dual R_ops) : Prop := f 0%R = fst d /\ derivable_pt_lim f 0 (snd d).

Lemma at_h_op h : oprel fun_ops R_ops (at_h h).
Proof. split; unfold at_h; cbn; intros; subst; reflexivity. Qed.

Lemma derivable_ext (f g : R -> R) x l : (forall y, f y = g y) -> derivable_pt_lim f x l -> derivable_pt_lim g x l.
Proof. intros E H eps He. destruct (H eps He) as [d Hd]. exists d. intros k Hk Hk'. rewrite <- !E. auto. Qed.
Lemma derivable_eq (f : R -> R) x l l' : l = l' -> derivable_pt_lim f x l -> derivable_pt_lim f x l'.
Proof. intros ->. auto. Qed.

Lemma has_deriv_op : oprel fun_ops (dual R_ops) has_deriv.
Proof.
  split; unfold has_deriv; cbn; intros.
  - split; [reflexivity|apply derivable_pt_lim_const].
  - split; [reflexivity|apply derivable_pt_lim_const].
  - destruct H, H0. split; [congruence|apply derivable_pt_lim_plus; assumption].
  - destruct H, H0. split; [congruence|]. eapply derivable_eq; [|apply (derivable_pt_lim_mult x y 0 (snd x') (snd y')); assumption].
    rewrite H, H0. ring.
  - destruct H, H0. split; [congruence|apply derivable_pt_lim_minus; assumption].
  - destruct H. split; [congruence|apply derivable_pt_lim_opp; assumption].
  - split; [reflexivity|apply derivable_pt_lim_const].
Qed.

(** ** Differentiable curves *)
(** [n] cells. *)
Definition acurve (n : Z) (a : R -> arr R_ops) (da : arr R_ops) : Prop :=
  forall i, (0 <= i < n)%Z -> derivable_pt_lim (fun h => a h i) 0 (da i).
(** [nt] rows. *)
Definition rcurve (nt : Z) (r : R -> Z -> list R) (dr : Z -> list R) : Prop :=
  forall t, (0 <= t < nt)%Z -> (forall h, length (r h t) = length (dr t)) /\
    forall j, (j < length (dr t))%nat -> derivable_pt_lim (fun h => nth j (r h t) 0%R) 0 (nth j (dr t) 0%R).
(** Wavefields in the cells of the padded model. *)
Record scurve (P : par R_ops) (u : R -> st R_ops) (du : st R_ops) : Prop := mkscurve {
  sc_wfc : forall q, In q (upts R_ops P) -> derivable_pt_lim (fun h => s_wfc R_ops (u h) q) 0 (s_wfc R_ops du q);
  sc_wfp : forall q, In q (upts R_ops P) -> derivable_pt_lim (fun h => s_wfp R_ops (u h) q) 0 (s_wfp R_ops du q);
  sc_psi : forall d q, (d < length (p_shape P))%nat -> In q (upts R_ops P) -> derivable_pt_lim (fun h => s_psi R_ops (u h) d q) 0 (s_psi R_ops du d q);
  sc_zeta : forall d q, (d < length (p_shape P))%nat -> In q (upts R_ops P) -> derivable_pt_lim (fun h => s_zeta R_ops (u h) d q) 0 (s_zeta R_ops du d q)
}.

(** Rows of functions. *)
Definition frow (r : R -> Z -> list R) (dr : Z -> list R) (t : Z) : list fun_ops :=
  map (fun j h => nth j (r h t) 0%R) (seq 0 (length (dr t))).
Definition drow (r0 dr : Z -> list R) (t : Z) : list (dual R_ops) :=
  map (fun j => (nth j (r0 t) 0%R, nth j (dr t) 0%R) : dual R_ops) (seq 0 (length (r0 t))).

Lemma nth_seq_id (l : list R) : map (fun j => nth j l 0%R) (seq 0 (length l)) = l.
Proof.
  induction l as [|x l IH]; cbn; [reflexivity|]. f_equal. rewrite <- seq_shift, map_map. exact IH.
Qed.
Lemma lre_drow r0 dr t : lre (drow r0 dr t) = r0 t.
Proof. unfold lre, drow. rewrite map_map. apply nth_seq_id. Qed.
Lemma lep_drow r0 dr t : length (r0 t) = length (dr t) -> lep (drow r0 dr t) = dr t.
Proof. intros E. unfold lep, drow. rewrite map_map, E. apply nth_seq_id. Qed.

Lemma Forall2_maps {A B C} (Q : B -> C -> Prop) (f : A -> B) (g : A -> C) l : (forall x, In x l -> Q (f x) (g x)) -> Forall2 Q (map f l) (map g l).
Proof. induction l as [|x l IH]; intros H; cbn; constructor; [apply H; left; reflexivity|apply IH; intros; apply H; right; assumption]. Qed.

Lemma frow_at r dr h t : length (r h t) = length (dr t) -> Forall2 (at_h h) (frow r dr t) (r h t).
Proof.
  intros E. unfold frow. rewrite <- E. rewrite <- (nth_seq_id (r h t)) at 2. apply Forall2_maps. reflexivity.
Qed.

Lemma frow_deriv r dr t nt : rcurve nt r dr -> (0 <= t < nt)%Z -> Forall2 has_deriv (frow r dr t) (drow (r 0%R) dr t).
Proof.
  intros H Ht. destruct (H t Ht) as [L D]. unfold frow, drow. rewrite (L 0%R). apply Forall2_maps.
  intros j Hj. apply in_seq in Hj. split; [reflexivity|]. apply D. lia.
Qed.

Lemma Forall2_len {A B} (Q : A -> B -> Prop) l l' : Forall2 Q l l' -> length l = length l'.
Proof. induction 1; cbn; congruence. Qed.

Lemma row_curve (rf : list fun_ops) (rh : R -> list R) (rd : list (dual R_ops)) :
  (forall h, Forall2 (at_h h) rf (rh h)) -> Forall2 has_deriv rf rd ->
  (forall h, length (rh h) = length (lep rd)) /\
  forall j, (j < length (lep rd))%nat -> derivable_pt_lim (fun h => nth j (rh h) 0%R) 0 (nth j (lep rd) 0%R).
Proof.
  intros A D. split.
  - intros h. transitivity (length rf); [symmetry; exact (Forall2_len _ _ _ (A h))|]. etransitivity; [exact (Forall2_len _ _ _ D)|]. symmetry. apply map_length.
  - intros j Hj.
    assert (E : forall h, nth j rf (fun _ => 0%R) h = nth j (rh h) 0%R).
    { intros h. specialize (A h). clear - A. revert j. induction A as [|f x rf r H A IH]; intros [|j]; cbn; try reflexivity; [exact H|apply IH]. }
    eapply derivable_ext; [exact E|]. unfold lep in *. clear - D Hj. revert j Hj.
    induction D as [|f x rf r H D IH]; intros [|j] Hj; cbn in *; try lia; [exact (proj2 H)|apply IH; lia].
Qed.

(** ** Scalar *)
Definition fpar (P : par R_ops) : par fun_ops :=
  mkpar (K := fun_ops) (p_acc P) (p_shape P) (fun d _ => p_rd P d) (fun d _ => p_rd2 P d) (fun d y _ => p_a P d y) (fun d y _ => p_b P d y)
    (fun d y _ => p_db P d y) (fun _ => p_dt2 P) (p_src P) (p_rec P).

Lemma fpar_at P h : prel fun_ops R_ops (at_h h) (fpar P) P.
Proof. split; unfold at_h; reflexivity. Qed.
Lemma fpar_deriv P : prel fun_ops (dual R_ops) has_deriv (fpar P) (dpar P).
Proof. split; unfold has_deriv; cbn; intros; try reflexivity; (split; [reflexivity|apply derivable_pt_lim_const]). Qed.

Definition fst_of (u : R -> st R_ops) : st fun_ops :=
  mkst fun_ops (fun q h => s_wfc R_ops (u h) q) (fun q h => s_wfp R_ops (u h) q) (fun d q h => s_psi R_ops (u h) d q) (fun d q h => s_zeta R_ops (u h) d q).
Definition dst_of (u du : st R_ops) : st (dual R_ops) :=
  mkst (dual R_ops) (fun q => (s_wfc R_ops u q, s_wfc R_ops du q)) (fun q => (s_wfp R_ops u q, s_wfp R_ops du q))
    (fun d q => (s_psi R_ops u d q, s_psi R_ops du d q)) (fun d q => (s_zeta R_ops u d q, s_zeta R_ops du d q)).

Section Scal.
Variable P : par R_ops.
Variable pw : nat -> Z * Z.
Notation n := (prodZ (p_shape P)).
Hypothesis Hsrc : Forall (fun l => (l < n)%Z) (p_src P).
Hypothesis Hrec : Forall (fun l => (l < n)%Z) (p_rec P).

(** Along differentiable curves of inputs the outputs are differentiable, and the dual numbers have their derivatives. *)
Lemma forward_curve V dV F dF U dU vis vrg sr nt cb store UD RD SD :
  (0 < sr)%Z -> (forall reg p, In (reg, p) vis -> interior R_ops P p = true) -> (forall c, cb = Some c -> (0 < c)%Z) ->
  acurve n V dV -> rcurve nt F dF -> scurve P U dU ->
  scalar_forward (dual R_ops) (dpar P) pw (fun i => (V 0%R i, dV i)) vis vrg sr (drow (F 0%R) dF) nt cb (fun s i => dconst (K := R_ops) (store s i)) (dst_of (U 0%R) dU)
    = Some (UD, RD, SD) ->
  exists Uh Rh Sh,
    (forall h, scalar_forward R_ops P pw (V h) vis vrg sr (F h) nt cb store (U h) = Some (Uh h, Rh h, Sh h)) /\
    scurve P Uh (sep UD) /\ rcurve nt Rh (fun t => lep (RD t)).
Proof.
  intros Hsr Hvis Hcb HV HF HU ED.
  set (TW := fun t => (0 <= t < nt)%Z). set (SW := fun _ : Z => True).
  assert (Hvis' : forall reg p, In (reg, p) vis -> interior fun_ops (fpar P) p = true) by exact Hvis.
  assert (HTW : forall t, (0 <= t < nt / sr * sr)%Z -> TW t) by (intros t Ht; pose proof (Z.mul_div_le nt sr Hsr); unfold TW; nia).
  pose proof (scalar_forward_rel fun_ops (dual R_ops) has_deriv has_deriv_op (fpar P) (dpar P) (fpar_deriv P) Hsrc Hrec TW SW pw
     (fun i h => V h i) (fun i => (V 0%R i, dV i)) vis vrg sr (frow F dF) (drow (F 0%R) dF) nt cb (fun s i _ => store s i)
     (fun s i => dconst (K := R_ops) (store s i)) (fst_of U) (dst_of (U 0%R) dU) Hvis'
     ltac:(intros i Hi; split; [reflexivity|apply HV; exact Hi])
     ltac:(intros t Ht; apply (frow_deriv F dF t nt HF Ht))
     ltac:(intros t _; exact I)
     ltac:(intros s _ i _; split; [reflexivity|apply derivable_pt_lim_const])
     Hsr Hcb HTW
     ltac:(destruct HU; split; cbn; intros; (split; [reflexivity|cbn; auto]))) as HD.
  assert (HR : forall h, match scalar_forward fun_ops (fpar P) pw (fun i h => V h i) vis vrg sr (frow F dF) nt cb (fun s i _ => store s i) (fst_of U),
       scalar_forward R_ops P pw (V h) vis vrg sr (F h) nt cb store (U h) with
     | Some (U1, r1, s1), Some (U2, r2, s2) => strel fun_ops R_ops (at_h h) (fpar P) U1 U2 /\ (forall t, TW t -> Forall2 (at_h h) (r1 t) (r2 t)) /\
         (forall s, SW s -> arel fun_ops R_ops (at_h h) n (s1 s) (s2 s))
     | None, None => True | _, _ => False end).
  { intros h. apply (scalar_forward_rel fun_ops R_ops (at_h h) (at_h_op h) (fpar P) P (fpar_at P h) Hsrc Hrec TW SW pw); auto.
    - intros i Hi. reflexivity.
    - intros t Ht. apply frow_at, (proj1 (HF t Ht)).
    - intros t _. exact I.
    - intros s _ i _. reflexivity.
    - split; intros; reflexivity. }
  rewrite ED in HD.
  destruct (scalar_forward fun_ops (fpar P) pw (fun i h => V h i) vis vrg sr (frow F dF) nt cb (fun s i _ => store s i) (fst_of U)) as [[[Uf Rf] Sf]|]; [|contradiction].
  destruct HD as ([D1 D2 D3 D4] & DR & _).
  exists (fun h => match scalar_forward R_ops P pw (V h) vis vrg sr (F h) nt cb store (U h) with Some (a, _, _) => a | None => U h end),
    (fun h => match scalar_forward R_ops P pw (V h) vis vrg sr (F h) nt cb store (U h) with Some (_, b, _) => b | None => fun _ => [] end),
    (fun h => match scalar_forward R_ops P pw (V h) vis vrg sr (F h) nt cb store (U h) with Some (_, _, c) => c | None => store end).
  assert (HR' : forall h, exists a b c, scalar_forward R_ops P pw (V h) vis vrg sr (F h) nt cb store (U h) = Some (a, b, c) /\
     strel fun_ops R_ops (at_h h) (fpar P) Uf a /\ (forall t, TW t -> Forall2 (at_h h) (Rf t) (b t))).
  { intros h. specialize (HR h). destruct (scalar_forward R_ops P pw (V h) vis vrg sr (F h) nt cb store (U h)) as [[[a b] c]|]; [|contradiction].
    exists a, b, c. split; [reflexivity|]. tauto. }
  clear HR. split; [|split].
  - intros h. destruct (HR' h) as (a & b & c & -> & _). reflexivity.
  - split.
    + intros q Hq. apply (derivable_ext (s_wfc fun_ops Uf q)); [|exact (proj2 (D1 q Hq))].
      intros h. destruct (HR' h) as (a & b & c & -> & [A1 A2 A3 A4] & _). exact (A1 q Hq).
    + intros q Hq. apply (derivable_ext (s_wfp fun_ops Uf q)); [|exact (proj2 (D2 q Hq))].
      intros h. destruct (HR' h) as (a & b & c & -> & [A1 A2 A3 A4] & _). exact (A2 q Hq).
    + intros d q Hd Hq. apply (derivable_ext (s_psi fun_ops Uf d q)); [|exact (proj2 (D3 d q Hd Hq))].
      intros h. destruct (HR' h) as (a & b & c & -> & [A1 A2 A3 A4] & _). exact (A3 d q Hd Hq).
    + intros d q Hd Hq. apply (derivable_ext (s_zeta fun_ops Uf d q)); [|exact (proj2 (D4 d q Hd Hq))].
      intros h. destruct (HR' h) as (a & b & c & -> & [A1 A2 A3 A4] & _). exact (A4 d q Hd Hq).
  - intros t Ht. apply (row_curve (Rf t)); [|apply DR; exact Ht].
    intros h. destruct (HR' h) as (a & b & c & -> & _ & A). apply A. exact Ht.
Qed.
End Scal.
