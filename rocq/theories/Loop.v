(** * Loops over cells, and loops over time split into chunks: general facts. *)
From Coq Require Import List ZArith Lia Bool.
From Verif Require Import Ops Grid ScalarModel ScalarForward.
Import ListNotations.
Local Open Scope Z_scope.

(** ** Cells that write only locations they own *)
Section Cells.
Variables V A C : Type.
Variable cell : (V -> Z -> A) -> C -> V -> Z -> A.
Variable own : C -> V -> Z -> Prop.
Variable W : V -> Prop.  (* written variables *)
Variable ok : C -> Prop.
Hypothesis Hframe : forall m c x j, ok c -> ~ own c x j -> cell m c x j = m x j.
Hypothesis HW : forall c x j, ok c -> own c x j -> W x.
Hypothesis Hloc : forall m m' c x j, ok c -> own c x j ->
  (forall y i, ~ W y -> m y i = m' y i) -> (forall y i, own c y i -> m y i = m' y i) ->
  cell m c x j = cell m' c x j.

Lemma cells_frame l m x j : (forall c, In c l -> ok c) -> (forall c, In c l -> ~ own c x j) ->
  fold_left cell l m x j = m x j.
Proof.
  revert m. induction l as [|c l IH]; intros m Hk H; cbn; [reflexivity|].
  rewrite IH by (intros; first [apply H|apply Hk]; right; assumption).
  apply Hframe; [apply Hk|apply H]; left; reflexivity.
Qed.

Lemma cells_own l m c x j : (forall c, In c l -> ok c) ->
  NoDup l -> (forall c1 c2 y i, In c1 l -> In c2 l -> c1 <> c2 -> own c1 y i -> own c2 y i -> False) ->
  In c l -> own c x j -> fold_left cell l m x j = cell m c x j.
Proof.
  revert m. induction l as [|c1 l IH]; intros m Hk Hn Hd Hin Ho; [contradiction|]. cbn.
  inversion Hn as [|? ? Hc1 Hn']; subst.
  assert (Hk1 : ok c1) by (apply Hk; left; reflexivity).
  assert (Hk' : forall c, In c l -> ok c) by (intros; apply Hk; right; assumption).
  destruct Hin as [->|Hin].
  - apply cells_frame; [exact Hk'|]. intros c2 H2 Ho2. apply (Hd c c2 x j); auto; [left; reflexivity|right; exact H2|].
    intros ->. contradiction.
  - assert (N : c1 <> c) by (intros ->; contradiction).
    rewrite IH; auto.
    + apply Hloc; auto.
      * intros y i Hy. apply Hframe; [exact Hk1|]. intros Ho1. apply Hy, (HW c1 y i Hk1), Ho1.
      * intros y i Hy. apply Hframe; [exact Hk1|]. intros Ho1.
        apply (Hd c1 c y i); auto; [left; reflexivity|right; exact Hin].
    + intros a b y i Ha Hb. apply Hd; right; assumption.
Qed.
End Cells.

(** ** Chunks *)
Lemma fold_left_flat_map {A B M} (f : M -> B -> M) (g : A -> list B) (l : list A) (m : M) :
  fold_left (fun m a => fold_left f (g a) m) l m = fold_left f (flat_map g l) m.
Proof.
  revert m. induction l as [|a l IH]; intros m; cbn; [reflexivity|]. rewrite fold_left_app. apply IH.
Qed.

Lemma chunks_up n c sr : 0 < c -> 0 <= sr -> 0 <= n ->
  flat_map (fun s => zrange (s * sr) (s * sr + Z.min (n - s) c * sr)) (range_up n c) = zrange 0 (n * sr).
Proof.
  intros Hc Hsr Hn. unfold range_up.
  assert (G : forall k i, (k = Z.to_nat ((n + c - 1) / c - i))%nat -> 0 <= i <= (n + c - 1) / c ->
    flat_map (fun s => zrange (s * sr) (s * sr + Z.min (n - s) c * sr))
      (map (fun i => i * c) (zrange i ((n + c - 1) / c))) = zrange (Z.min (i * c) n * sr) (n * sr)).
  { induction k as [|k IH]; intros i Hk Hi.
    - rewrite (zrange_nil i) by lia. cbn. rewrite zrange_nil; [reflexivity|].
      assert (i = (n + c - 1) / c) by lia. subst i.
      pose proof (Z.div_mod (n + c - 1) c). pose proof (Z.mod_pos_bound (n + c - 1) c Hc). nia.
    - assert (Hi2 : i * c < n).
      { assert (i + 1 <= (n + c - 1) / c) by lia.
        pose proof (Z.div_mod (n + c - 1) c). pose proof (Z.mod_pos_bound (n + c - 1) c Hc). nia. }
      rewrite zrange_cons by lia. cbn [map flat_map]. rewrite IH by lia.
      rewrite (Z.min_l (i * c)) by lia.
      replace (i * c * sr + Z.min (n - i * c) c * sr) with (Z.min ((i + 1) * c) n * sr) by nia.
      rewrite <- (zrange_app (i * c * sr)) by nia. reflexivity. }
  rewrite (G (Z.to_nat ((n + c - 1) / c)) 0).
  - rewrite Z.min_l by lia. reflexivity.
  - f_equal. lia.
  - split; [lia|]. apply Z.div_pos; lia.
Qed.

Lemma chunks_down n c sr : 0 < c -> 0 <= sr -> 0 <= n ->
  flat_map (fun s => rev (zrange (s * sr - Z.min s c * sr) (s * sr))) (range_down n c) = rev (zrange 0 (n * sr)).
Proof.
  intros Hc Hsr Hn. unfold range_down.
  assert (G : forall k i, (k = Z.to_nat ((n + c - 1) / c - i))%nat -> 0 <= i <= (n + c - 1) / c ->
    flat_map (fun s => rev (zrange (s * sr - Z.min s c * sr) (s * sr)))
      (map (fun i => n - i * c) (zrange i ((n + c - 1) / c))) = rev (zrange 0 (Z.max (n - i * c) 0 * sr))).
  { induction k as [|k IH]; intros i Hk Hi.
    - rewrite (zrange_nil i) by lia. cbn. rewrite zrange_nil; [reflexivity|].
      assert (i = (n + c - 1) / c) by lia. subst i.
      pose proof (Z.div_mod (n + c - 1) c). pose proof (Z.mod_pos_bound (n + c - 1) c Hc). nia.
    - assert (Hi2 : i * c < n).
      { assert (i + 1 <= (n + c - 1) / c) by lia.
        pose proof (Z.div_mod (n + c - 1) c). pose proof (Z.mod_pos_bound (n + c - 1) c Hc). nia. }
      rewrite zrange_cons by lia. cbn [map flat_map]. rewrite IH by lia.
      rewrite (Z.max_l (n - i * c)) by lia. rewrite <- rev_app_distr. f_equal.
      replace ((n - i * c) * sr - Z.min (n - i * c) c * sr) with (Z.max (n - (i + 1) * c) 0 * sr) by nia.
      rewrite <- zrange_app by nia. reflexivity. }
  rewrite (G (Z.to_nat ((n + c - 1) / c)) 0).
  - rewrite Z.max_l by lia. do 3 f_equal. lia.
  - f_equal. lia.
  - split; [lia|]. apply Z.div_pos; lia.
Qed.

(** ** Buffers exchanged by parity of the step, and after the loop if the number of steps is odd *)
Section Swap.
Variable M : Type.
Variable swap : M -> M.
Hypothesis swap2 : forall m, swap (swap m) = m.
Variable body : Z -> M -> M.

Lemma swap_loop (par : Z -> Z) (l : list Z) (m : M) :
  (forall i, (i < length l)%nat -> par (nth i l 0) = Z.of_nat i) ->
  (if Z.odd (Z.of_nat (length l)) then swap else fun m => m)
    (fold_left (fun m t => if Z.odd (par t) then swap (body t (swap m)) else body t m) l m)
  = fold_left (fun m t => swap (body t m)) l m.
Proof.
  intros Hp.
  assert (G : forall l2 k m1, (forall i, (i < length l2)%nat -> par (nth i l2 0) = k + Z.of_nat i) -> 0 <= k ->
    (if Z.odd (k + Z.of_nat (length l2)) then swap else fun m => m)
      (fold_left (fun m t => if Z.odd (par t) then swap (body t (swap m)) else body t m) l2
         ((if Z.odd k then swap else fun m => m) m1))
    = fold_left (fun m t => swap (body t m)) l2 m1).
  { induction l2 as [|t l2 IH]; intros k m1 H Hk.
    - cbn. rewrite Z.add_0_r. destruct (Z.odd k); auto.
    - cbn [fold_left length]. rewrite <- (IH (k + 1)).
      + replace (k + 1 + Z.of_nat (length l2)) with (k + Z.of_nat (S (length l2))) by lia.
        f_equal. f_equal. pose proof (H 0%nat) as H0. cbn in H0. rewrite H0 by lia.
        rewrite Z.add_0_r, Z.odd_add. change (Z.odd 1) with true.
        destruct (Z.odd k); cbn; rewrite ?swap2; reflexivity.
      + intros i Hi. specialize (H (S i)). cbn [nth length] in H. rewrite H by lia. lia.
      + lia. }
  apply (G l 0 m); [|lia]. intros i Hi. rewrite Hp by exact Hi. lia.
Qed.
End Swap.
