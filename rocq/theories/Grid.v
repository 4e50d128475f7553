(** * Grid points, boxes, row-major indices.

    Points are coordinate lists (slowest dimension first, as in the tensors [z,y,x]). *)
From Coq Require Import List ZArith Lia Bool Permutation.
Import ListNotations.
Local Open Scope Z_scope.

#[global] Arguments Z.add : simpl never.
#[global] Arguments Z.sub : simpl never.
#[global] Arguments Z.mul : simpl never.
#[global] Arguments Z.opp : simpl never.

Definition pt := list Z.

Definition pt_eq_dec : forall x y : pt, {x = y} + {x <> y} := list_eq_dec Z.eq_dec.

(** Move [k] cells along dimension [d]: the offsets [(dz, dy, dx)] of the stencil
    macros (scalar.c:81-90). *)
Fixpoint shift (d : nat) (k : Z) (p : pt) : pt :=
  match p, d with
  | [], _ => []
  | x :: r, O => (x + k) :: r
  | x :: r, S d' => x :: shift d' k r
  end.

Definition coord (d : nat) (p : pt) : Z := nth d p 0.

Lemma shift_shift d a b p : shift d a (shift d b p) = shift d (a + b) p.
Proof.
  revert d; induction p as [|x p IH]; intros [|d]; cbn; auto; f_equal; auto; lia.
Qed.

Lemma shift_0 d p : shift d 0 p = p.
Proof. revert d; induction p as [|x p IH]; intros [|d]; cbn; auto; f_equal; auto; lia. Qed.

Lemma shift_neg d k p : shift d (- k) (shift d k p) = p.
Proof. rewrite shift_shift. replace (- k + k) with 0 by lia. apply shift_0. Qed.

Lemma shift_neg' d k p : shift d k (shift d (- k) p) = p.
Proof. rewrite shift_shift. replace (k + - k) with 0 by lia. apply shift_0. Qed.

Lemma shift_length d k p : length (shift d k p) = length p.
Proof. revert d; induction p as [|x p IH]; intros [|d]; cbn; auto. Qed.

Lemma coord_shift_same d k p : (d < length p)%nat -> coord d (shift d k p) = coord d p + k.
Proof.
  unfold coord. revert d; induction p as [|x p IH]; intros [|d] H; cbn in *; try lia.
  apply IH. lia.
Qed.

Lemma coord_shift_other d e k p : d <> e -> coord e (shift d k p) = coord e p.
Proof.
  unfold coord. revert d e; induction p as [|x p IH]; intros [|d] [|e] H; cbn in *; auto;
    try congruence.
Qed.

Lemma shift_comm d e a b p : shift d a (shift e b p) = shift e b (shift d a p).
Proof.
  revert d e; induction p as [|x p IH]; intros [|d] [|e]; cbn; auto.
  - f_equal. lia.
  - f_equal. apply IH.
Qed.

(** ** Boxes *)

Definition box := list (Z * Z).

(** [inb b p]: every coordinate lies in its half-open interval. *)
Fixpoint inb (b : box) (p : pt) : bool :=
  match b, p with
  | [], [] => true
  | (lo, hi) :: b', x :: p' => (lo <=? x) && (x <? hi) && inb b' p'
  | _, _ => false
  end.

(** [for (x = lo; x < hi; x++)] *)
Definition zrange (lo hi : Z) : list Z :=
  map (fun i => lo + Z.of_nat i) (seq 0 (Z.to_nat (hi - lo))).

(** Nested loops over a box, the first dimension outermost (scalar.c:323-348). *)
Fixpoint box_pts (b : box) : list pt :=
  match b with
  | [] => [[]]
  | (lo, hi) :: b' => flat_map (fun x => map (cons x) (box_pts b')) (zrange lo hi)
  end.

Lemma In_zrange lo hi x : In x (zrange lo hi) <-> lo <= x < hi.
Proof.
  unfold zrange. rewrite in_map_iff. split.
  - intros (i & <- & Hi). apply in_seq in Hi. lia.
  - intros H. exists (Z.to_nat (x - lo)). split; [lia|]. apply in_seq. lia.
Qed.

Lemma NoDup_zrange lo hi : NoDup (zrange lo hi).
Proof.
  unfold zrange. apply FinFun.Injective_map_NoDup; [|apply seq_NoDup].
  intros x y H. lia.
Qed.

Lemma inb_spec b p :
  inb b p = true <->
  length p = length b /\
  forall d, (d < length b)%nat -> fst (nth d b (0,0)) <= coord d p < snd (nth d b (0,0)).
Proof.
  unfold coord. revert p; induction b as [|[lo hi] b IH]; intros [|x p]; cbn.
  - split; [intros _; split; [reflexivity|lia] | reflexivity].
  - split; [discriminate|intros [H _]; discriminate].
  - split; [discriminate|intros [H _]; discriminate].
  - rewrite !andb_true_iff, IH, Z.leb_le, Z.ltb_lt. split.
    + intros [[H1 H2] [H3 H4]]. split; [lia|]. intros [|d] Hd; [cbn; lia|].
      apply H4. lia.
    + intros [H1 H2]. split.
      * specialize (H2 O). cbn in H2. lia.
      * split; [lia|]. intros d Hd. apply (H2 (S d)). lia.
Qed.

Lemma In_box_pts b p : In p (box_pts b) <-> inb b p = true.
Proof.
  revert p; induction b as [|[lo hi] b IH]; intros p; cbn.
  - destruct p; split; auto; try discriminate. intros [H|[]]; discriminate.
  - rewrite in_flat_map. split.
    + intros (x & Hx & Hp). apply in_map_iff in Hp. destruct Hp as (q & <- & Hq).
      apply In_zrange in Hx. apply IH in Hq. rewrite Hq.
      apply andb_true_iff; split; [|reflexivity]. apply andb_true_iff.
      rewrite Z.leb_le, Z.ltb_lt. lia.
    + destruct p as [|x q]; [discriminate|]. rewrite !andb_true_iff, Z.leb_le, Z.ltb_lt.
      intros [H Hq]. exists x. split; [apply In_zrange; lia|].
      apply in_map. apply IH. exact Hq.
Qed.

Lemma NoDup_app {A} (l1 l2 : list A) :
  NoDup l1 -> NoDup l2 -> (forall x, In x l1 -> ~ In x l2) -> NoDup (l1 ++ l2).
Proof.
  induction l1 as [|x l IH]; cbn; intros H1 H2 H; auto.
  inversion H1; subst. constructor.
  - rewrite in_app_iff. intros [Hx|Hx]; [contradiction|]. apply (H x); auto.
  - apply IH; auto.
Qed.

Lemma NoDup_flat_map {A B} (f : A -> list B) (l : list A) :
  NoDup l -> (forall x, In x l -> NoDup (f x)) ->
  (forall x y z, In x l -> In y l -> In z (f x) -> In z (f y) -> x = y) ->
  NoDup (flat_map f l).
Proof.
  induction l as [|x l IH]; cbn; intros Hn Hf Hd; [constructor|].
  inversion Hn; subst. apply NoDup_app.
  - apply Hf; auto.
  - apply IH; auto. intros a b z Ha Hb. apply Hd; auto.
  - intros z Hz Hz'. apply in_flat_map in Hz'. destruct Hz' as (y & Hy & Hzy).
    assert (x = y) by (eapply Hd; eauto). subst. contradiction.
Qed.

Lemma NoDup_box_pts b : NoDup (box_pts b).
Proof.
  induction b as [|[lo hi] b IH]; cbn.
  - constructor; [auto|constructor].
  - apply NoDup_flat_map.
    + apply NoDup_zrange.
    + intros x _. apply FinFun.Injective_map_NoDup; [|exact IH]. intros p q H. congruence.
    + intros x y z _ _ Hx Hy. apply in_map_iff in Hx. apply in_map_iff in Hy.
      destruct Hx as (p & <- & _). destruct Hy as (q & E & _). congruence.
Qed.

(** ** Row-major indices *)

(** Number of elements of an array of the given shape. *)
Fixpoint prodZ (s : list Z) : Z := match s with [] => 1 | n :: s' => n * prodZ s' end.

(** [i = z*ny*nx + y*nx + x] (scalar.c:349-355). *)
Fixpoint idx (s : list Z) (p : pt) : Z :=
  match s, p with
  | _ :: s', x :: p' => x * prodZ s' + idx s' p'
  | _, _ => 0
  end.

(** Offset of one cell along dimension [d]: [ny*nx], [nx], [1] (ND_INDEX,
    scalar.c:81-90; also [_calculate_origin_and_stride], common.py:2125-2141). *)
Fixpoint stride (s : list Z) (d : nat) : Z :=
  match s, d with
  | [], _ => 0
  | _ :: s', O => prodZ s'
  | _ :: s', S d' => stride s' d'
  end.

Lemma idx_shift s d k p :
  length p = length s -> idx s (shift d k p) = idx s p + k * stride s d.
Proof.
  revert d p; induction s as [|n s IH]; intros d [|x p] H; cbn in *; try discriminate.
  - destruct d; lia.
  - destruct d as [|d]; cbn; [lia|]. rewrite IH by lia. lia.
Qed.

(** The whole array of the given shape as a box. *)
Definition abox (s : list Z) : box := map (fun n => (0, n)) s.

(** The part of the array that kernels update: [[fd, n-fd)] in each dimension. *)
Definition ibox (fd : Z) (s : list Z) : box := map (fun n => (fd, n - fd)) s.

Lemma prodZ_nonneg s p : inb (abox s) p = true -> 0 < prodZ s.
Proof.
  revert p; induction s as [|n s IH]; intros [|x p]; cbn; try discriminate; try lia.
  rewrite !andb_true_iff, Z.leb_le, Z.ltb_lt. intros [H1 H2]. apply IH in H2. nia.
Qed.

Lemma idx_bound s p : inb (abox s) p = true -> 0 <= idx s p < prodZ s.
Proof.
  revert p; induction s as [|n s IH]; intros [|x p]; cbn; try discriminate; try lia.
  rewrite !andb_true_iff, Z.leb_le, Z.ltb_lt. intros [H1 H2].
  pose proof (IH p H2). nia.
Qed.

Lemma idx_inj s p q :
  inb (abox s) p = true -> inb (abox s) q = true -> idx s p = idx s q -> p = q.
Proof.
  revert p q; induction s as [|n s IH]; intros [|x p] [|y q]; cbn; try discriminate; auto.
  rewrite !andb_true_iff, !Z.leb_le, !Z.ltb_lt. intros [H1 H2] [H3 H4] E.
  pose proof (idx_bound s p H2). pose proof (idx_bound s q H4).
  assert (x = y) by nia. subst y. f_equal. apply IH; auto. lia.
Qed.

Lemma inb_length b p : inb b p = true -> length p = length b.
Proof. intros H. apply inb_spec in H. tauto. Qed.

Lemma nth_abox s d : (d < length s)%nat -> nth d (abox s) (0, 0) = (0, nth d s 0).
Proof.
  intros H. unfold abox. exact (map_nth (fun n => (0, n)) s 0 d).
Qed.

Lemma nth_ibox fd s d :
  (d < length s)%nat -> nth d (ibox fd s) (0, 0) = (fd, nth d s 0 - fd).
Proof.
  intros H. unfold ibox.
  rewrite (nth_indep _ (0,0) ((fun n => (fd, n - fd)) 0)) by (rewrite map_length; auto).
  rewrite (map_nth (fun n => (fd, n - fd))). reflexivity.
Qed.

Lemma abox_length s : length (abox s) = length s.
Proof. apply map_length. Qed.

Lemma ibox_length fd s : length (ibox fd s) = length s.
Proof. apply map_length. Qed.

Lemma inb_abox s p :
  inb (abox s) p = true <->
  length p = length s /\ forall d, (d < length s)%nat -> 0 <= coord d p < nth d s 0.
Proof.
  rewrite inb_spec, abox_length. split; intros [H1 H2]; (split; [exact H1|]); intros d Hd;
    specialize (H2 d Hd); rewrite nth_abox in * by exact Hd; exact H2.
Qed.

Lemma inb_ibox fd s p :
  inb (ibox fd s) p = true <->
  length p = length s /\ forall d, (d < length s)%nat -> fd <= coord d p < nth d s 0 - fd.
Proof.
  rewrite inb_spec, ibox_length. split; intros [H1 H2]; (split; [exact H1|]); intros d Hd;
    specialize (H2 d Hd); rewrite nth_ibox in * by exact Hd; exact H2.
Qed.

(** Stencils of radius [fd] evaluated at interior points stay inside the array. *)
Lemma interior_shift_in_array fd s d k p :
  0 <= fd -> inb (ibox fd s) p = true -> - fd <= k <= fd ->
  inb (abox s) (shift d k p) = true.
Proof.
  intros Hfd Hp Hk. apply inb_ibox in Hp. destruct Hp as [Hl Hp].
  apply inb_abox. rewrite shift_length. split; [exact Hl|]. intros e He.
  specialize (Hp e He). destruct (Nat.eq_dec d e) as [->|Hne].
  - rewrite coord_shift_same by lia. lia.
  - rewrite coord_shift_other by exact Hne. lia.
Qed.

Lemma interior_in_array fd s p :
  0 <= fd -> inb (ibox fd s) p = true -> inb (abox s) p = true.
Proof.
  intros Hfd Hp. apply inb_ibox in Hp. destruct Hp as [Hl Hp].
  apply inb_abox. split; [exact Hl|]. intros e He. specialize (Hp e He). lia.
Qed.
