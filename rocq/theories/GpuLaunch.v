(** * The threads of a launch cover the shots and cells exactly once. *)
From Coq Require Import List ZArith QArith Lia Bool Permutation.
From Verif Require Import Ops Sums Grid Stencil ScalarModel ScalarRefine ScalarForward ScalarFunc ShotsModel Threads GpuModel.
Import ListNotations.
Local Open Scope Z_scope.

Lemma u32_small x : 0 <= x < 2 ^ 32 -> u32 x = x.
Proof. intros H. apply Z.mod_small. exact H. Qed.
Lemma zrange_map_plus a b t : map (fun x => t + x) (zrange a b) = zrange (t + a) (t + b).
Proof. unfold zrange. rewrite map_map. replace (t + b - (t + a)) with (b - a) by lia. apply map_ext. intros; lia. Qed.
Lemma axis_nat (g : nat) b : 0 < b -> Z.of_nat g * b <= 2 ^ 32 -> axis (Z.of_nat g) b = zrange 0 (Z.of_nat g * b).
Proof.
  intros Hb. induction g as [|g IH]; intros H; [reflexivity|]. unfold axis. rewrite Nat2Z.inj_succ, (zrange_snoc 0 (Z.succ (Z.of_nat g))) by lia. replace (Z.succ (Z.of_nat g) - 1) with (Z.of_nat g) by lia.
  rewrite flat_map_app. change (flat_map (fun B => map (fun t => u32 (B * b + t)) (zrange 0 b)) (zrange 0 (Z.of_nat g))) with (axis (Z.of_nat g) b).
  rewrite IH by nia. cbn [flat_map]. rewrite app_nil_r. rewrite (zrange_app 0 (Z.of_nat g * b) (Z.succ (Z.of_nat g) * b)) by nia. f_equal.
  assert (E : zrange (Z.of_nat g * b) (Z.succ (Z.of_nat g) * b) = map (fun x => Z.of_nat g * b + x) (zrange 0 b)) by (rewrite zrange_map_plus; f_equal; nia). rewrite E.
  apply map_ext_in. intros t Ht. apply In_zrange in Ht. apply u32_small. nia.
Qed.
Lemma axis_zrange g b : 0 <= g -> 0 < b -> g * b <= 2 ^ 32 -> axis g b = zrange 0 (g * b).
Proof. intros Hg Hb H. rewrite <- (Z2Nat.id g Hg) in *. apply axis_nat; assumption. Qed.
Lemma ceil_div_spec m b : 0 <= m -> 0 < b -> m + b <= 2 ^ 32 -> 0 <= ceil_div m b /\ m <= ceil_div m b * b < m + b.
Proof.
  intros Hm Hb H. unfold ceil_div. rewrite (u32_small m) by lia. rewrite u32_small by lia.
  pose proof (Z.div_mod (m + b - 1) b ltac:(lia)) as D. pose proof (Z.mod_pos_bound (m + b - 1) b Hb). split; [apply Z.div_pos; lia|nia].
Qed.
Lemma axis_ceil m b : 0 <= m -> 0 < b -> m + b <= 2 ^ 32 -> axis (ceil_div m b) b = zrange 0 (ceil_div m b * b) /\ m <= ceil_div m b * b.
Proof. intros Hm Hb H. destruct (ceil_div_spec m b Hm Hb H) as (C1 & C2 & C3). split; [apply axis_zrange; lia|exact C2]. Qed.

Lemma In_threads L x y z : In (x, y, z) (threads L) <->
  let '(gx, gy, gz) := l_grid L in let '(bx, by_, bz) := l_block L in In x (axis gx bx) /\ In y (axis gy by_) /\ In z (axis gz bz).
Proof.
  destruct L as [[[gx gy] gz] [[bx by_] bz]]. unfold threads. cbn [l_grid l_block]. rewrite in_flat_map. split.
  - intros (z' & Hz & H). apply in_flat_map in H. destruct H as (y' & Hy & H). apply in_map_iff in H. destruct H as (x' & E & Hx). injection E as <- <- <-. auto.
  - intros (Hx & Hy & Hz). exists z. split; [exact Hz|]. apply in_flat_map. exists y. split; [exact Hy|]. apply in_map_iff. exists x. split; [reflexivity|exact Hx].
Qed.
Lemma NoDup_threads gx gy gz bx by_ bz : NoDup (axis gx bx) -> NoDup (axis gy by_) -> NoDup (axis gz bz) -> NoDup (threads (mklaunch (gx, gy, gz) (bx, by_, bz))).
Proof.
  intros Hx Hy Hz. unfold threads. cbn [l_grid l_block]. apply NoDup_flat_map; [exact Hz| |].
  - intros z _. apply NoDup_flat_map; [exact Hy| |].
    + intros y _. apply NoDup_map_inj; [|exact Hx]. intros a b _ _ E. congruence.
    + intros y y' a _ _ H1 H2. apply in_map_iff in H1, H2. destruct H1 as (? & <- & _). destruct H2 as (? & E & _). congruence.
  - intros z z' a _ _ H1 H2. apply in_flat_map in H1, H2. destruct H1 as (? & _ & H1). destruct H2 as (? & _ & H2). apply in_map_iff in H1, H2. destruct H1 as (? & <- & _). destruct H2 as (? & E & _). congruence.
Qed.

(** Sizes for which no 32-bit index wraps. *)
Definition sizes_ok (fd : Z) (shape : list Z) (ns : Z) : Prop :=
  (1 <= length shape <= 3)%nat /\ Forall (fun m => 2 * fd <= m < 2 ^ 31) shape /\ 0 <= ns < 2 ^ 31.

Ltac axes := repeat match goal with
  | |- context [axis (ceil_div ?m ?b) ?b] => let E := fresh "E" in let H := fresh "H" in destruct (axis_ceil m b ltac:(lia) ltac:(lia) ltac:(lia)) as [E H]; rewrite E in *; clear E
  | |- context [axis 1 1] => change (axis 1 1) with [0] in *
  end.

Lemma In_cells fd shape ns : 0 <= fd -> sizes_ok fd shape ns -> forall k p,
  In (k, p) (flat_map (items_cells fd shape ns) (threads (launch_cells fd shape ns))) <-> 0 <= k < ns /\ inb (ibox fd shape) p = true.
Proof.
  intros Hfd (Hl & Hs & Hn) k p. rewrite inb_ibox, in_flat_map. destruct shape as [|n1 [|n2 [|n3 [|n4 sh]]]]; cbn [length] in Hl; try lia.
  - inversion Hs as [|? ? S1 _]; subst. unfold launch_cells.
    split.
    + intros ([[x y] z] & Ht & Hi). apply In_threads in Ht. cbn [l_grid l_block] in Ht. revert Ht. axes. intros (Hx & Hy & Hz). apply In_zrange in Hx, Hy. cbn [items_cells] in Hi.
      destruct ((x + fd <? n1 - fd) && (y <? ns)) eqn:C; [|destruct Hi]. apply andb_true_iff in C. destruct C as [C1 C2]. apply Z.ltb_lt in C1, C2. destruct Hi as [E|[]]. injection E as <- <-.
      split; [lia|]. split; [reflexivity|]. intros d Hd. cbn [length] in Hd. destruct d; [|lia]. cbn. lia.
    + intros (Hk & Hp & H). destruct p as [|x [|]]; cbn in Hp; try lia. specialize (H O ltac:(cbn; lia)). cbn in H. exists (x - fd, k, 0). split.
      * apply In_threads. cbn [l_grid l_block]. axes. rewrite !In_zrange. repeat split; try lia. left. reflexivity.
      * cbn [items_cells]. replace (x - fd + fd) with x by lia. destruct (Z.ltb_spec x (n1 - fd)); [|lia]. destruct (Z.ltb_spec k ns); [|lia]. left. reflexivity.
  - inversion Hs as [|? ? S1 Hs']; subst. inversion Hs' as [|? ? S2 _]; subst. unfold launch_cells.
    split.
    + intros ([[x y] z] & Ht & Hi). apply In_threads in Ht. cbn [l_grid l_block] in Ht. revert Ht. axes. intros (Hx & Hy & Hz). apply In_zrange in Hx, Hy, Hz. cbn [items_cells] in Hi.
      destruct ((y + fd <? n1 - fd) && (x + fd <? n2 - fd) && (z <? ns)) eqn:C; [|destruct Hi]. rewrite !andb_true_iff in C. destruct C as [[C1 C2] C3]. apply Z.ltb_lt in C1, C2, C3. destruct Hi as [E|[]]. injection E as <- <-.
      split; [lia|]. split; [reflexivity|]. intros d Hd. cbn [length] in Hd. destruct d as [|[|d]]; [cbn; lia|cbn; lia|lia].
    + intros (Hk & Hp & H). destruct p as [|y [|x [|]]]; cbn in Hp; try lia. pose proof (H O ltac:(cbn; lia)) as H0. pose proof (H 1%nat ltac:(cbn; lia)) as H1. cbn in H0, H1. exists (x - fd, y - fd, k). split.
      * apply In_threads. cbn [l_grid l_block]. axes. rewrite !In_zrange. lia.
      * cbn [items_cells]. replace (x - fd + fd) with x by lia. replace (y - fd + fd) with y by lia. destruct (Z.ltb_spec x (n2 - fd)); [|lia]. destruct (Z.ltb_spec y (n1 - fd)); [|lia]. destruct (Z.ltb_spec k ns); [|lia]. left. reflexivity.
  - inversion Hs as [|? ? S1 Hs']; subst. inversion Hs' as [|? ? S2 Hs'']; subst. inversion Hs'' as [|? ? S3 _]; subst. unfold launch_cells.
    split.
    + intros ([[x y] z] & Ht & Hi). apply In_threads in Ht. cbn [l_grid l_block] in Ht. revert Ht. axes. intros (Hx & Hy & Hz). apply In_zrange in Hx, Hy, Hz. cbn [items_cells] in Hi.
      destruct ((z + fd <? n1 - fd) && (y + fd <? n2 - fd) && (x + fd <? n3 - fd)) eqn:C; [|destruct Hi]. rewrite !andb_true_iff in C. destruct C as [[C1 C2] C3]. apply Z.ltb_lt in C1, C2, C3.
      apply in_map_iff in Hi. destruct Hi as (k' & E & Hk). injection E as -> <-. apply In_zrange in Hk.
      split; [lia|]. split; [reflexivity|]. intros d Hd. cbn [length] in Hd. destruct d as [|[|[|d]]]; [cbn; lia|cbn; lia|cbn; lia|lia].
    + intros (Hk & Hp & H). destruct p as [|z [|y [|x [|]]]]; cbn in Hp; try lia. pose proof (H O ltac:(cbn; lia)) as H0. pose proof (H 1%nat ltac:(cbn; lia)) as H1. pose proof (H 2%nat ltac:(cbn; lia)) as H2. cbn in H0, H1, H2. exists (x - fd, y - fd, z - fd). split.
      * apply In_threads. cbn [l_grid l_block]. axes. rewrite !In_zrange. lia.
      * cbn [items_cells]. replace (x - fd + fd) with x by lia. replace (y - fd + fd) with y by lia. replace (z - fd + fd) with z by lia. destruct (Z.ltb_spec x (n3 - fd)); [|lia]. destruct (Z.ltb_spec y (n2 - fd)); [|lia]. destruct (Z.ltb_spec z (n1 - fd)); [|lia]. cbn [andb].
        apply in_map_iff. exists k. split; [reflexivity|]. apply In_zrange. exact Hk.
Qed.

Lemma NoDup_axis_ceil m b : 0 <= m -> 0 < b -> m + b <= 2 ^ 32 -> NoDup (axis (ceil_div m b) b).
Proof. intros Hm Hb H. destruct (axis_ceil m b Hm Hb H) as [E _]. rewrite E. apply NoDup_zrange. Qed.
Lemma NoDup_cells fd shape ns : 0 <= fd -> sizes_ok fd shape ns -> NoDup (flat_map (items_cells fd shape ns) (threads (launch_cells fd shape ns))).
Proof.
  intros Hfd (Hl & Hs & Hn). assert (N1 : NoDup (axis 1 1)) by (repeat constructor; intros []).
  destruct shape as [|n1 [|n2 [|n3 [|n4 sh]]]]; cbn [length] in Hl; try lia; unfold launch_cells.
  - inversion Hs as [|? ? S1 _]; subst. apply NoDup_flat_map.
    + apply NoDup_threads; [apply NoDup_axis_ceil; lia|apply NoDup_axis_ceil; lia|exact N1].
    + intros [[x y] z] _. cbn. destruct (_ && _); repeat constructor. intros [].
    + intros [[x y] z] [[x' y'] z'] a H1 H2 Ha Hb. apply In_threads in H1, H2. cbn [l_grid l_block] in H1, H2. destruct H1 as (_ & _ & [<-|[]]). destruct H2 as (_ & _ & [<-|[]]).
      cbn in Ha, Hb. destruct (_ && _) in Ha; [|destruct Ha]. destruct (_ && _) in Hb; [|destruct Hb]. destruct Ha as [<-|[]]. destruct Hb as [E|[]]. injection E as E1 E2. f_equal. f_equal; lia.
  - inversion Hs as [|? ? S1 Hs']; subst. inversion Hs' as [|? ? S2 _]; subst. apply NoDup_flat_map.
    + apply NoDup_threads; apply NoDup_axis_ceil; lia.
    + intros [[x y] z] _. cbn. destruct (_ && _); repeat constructor. intros [].
    + intros [[x y] z] [[x' y'] z'] a H1 H2 Ha Hb. cbn in Ha, Hb. destruct (_ && _) in Ha; [|destruct Ha]. destruct (_ && _) in Hb; [|destruct Hb]. destruct Ha as [<-|[]]. destruct Hb as [E|[]]. injection E as E1 E2 E3. f_equal; [f_equal; lia|lia].
  - inversion Hs as [|? ? S1 Hs']; subst. inversion Hs' as [|? ? S2 Hs'']; subst. inversion Hs'' as [|? ? S3 _]; subst. apply NoDup_flat_map.
    + apply NoDup_threads; apply NoDup_axis_ceil; lia.
    + intros [[x y] z] _. cbn [items_cells]. destruct (_ && _); [|constructor]. apply NoDup_map_inj; [|apply NoDup_zrange]. intros a b _ _ E. congruence.
    + intros [[x y] z] [[x' y'] z'] a H1 H2 Ha Hb. cbn [items_cells] in Ha, Hb. destruct (_ && _) in Ha; [|destruct Ha]. destruct (_ && _) in Hb; [|destruct Hb]. apply in_map_iff in Ha, Hb. destruct Ha as (k & <- & _). destruct Hb as (k' & E & _). injection E as _ E1 E2 E3. f_equal; [f_equal; lia|lia].
Qed.

Lemma flat_map_guard {A B} (g : A -> bool) (h : A -> B) l : flat_map (fun x => if g x then [h x] else []) l = map h (filter g l).
Proof. induction l as [|x l IH]; [reflexivity|]. cbn. rewrite IH. destruct (g x); reflexivity. Qed.
Lemma filter_zrange m c : 0 <= m <= c -> filter (fun x => x <? m) (zrange 0 c) = zrange 0 m.
Proof.
  intros H. rewrite (zrange_app 0 m c) by lia. rewrite filter_app.
  assert (E1 : filter (fun x => x <? m) (zrange 0 m) = zrange 0 m).
  { assert (X : forall l, (forall x, In x l -> x < m) -> filter (fun x => x <? m) l = l). { induction l as [|x l IH]; intros Hl; [reflexivity|]. cbn. destruct (Z.ltb_spec x m); [|specialize (Hl x (or_introl eq_refl)); lia]. f_equal. apply IH. intros y Hy. apply Hl. right. exact Hy. }
    apply X. intros x Hx. apply In_zrange in Hx. lia. }
  assert (E2 : filter (fun x => x <? m) (zrange m c) = []).
  { assert (X : forall l, (forall x, In x l -> m <= x) -> filter (fun x => x <? m) l = []). { induction l as [|x l IH]; intros Hl; [reflexivity|]. cbn. destruct (Z.ltb_spec x m); [specialize (Hl x (or_introl eq_refl)); lia|]. apply IH. intros y Hy. apply Hl. right. exact Hy. }
    apply X. intros x Hx. apply In_zrange in Hx. lia. }
  rewrite E1, E2, app_nil_r. reflexivity.
Qed.
(** Sources and receivers: shot by shot, in order. *)
Lemma locs_items m ns : 0 <= m < 2 ^ 31 -> 0 <= ns < 2 ^ 31 -> flat_map (items_locs m ns) (threads (launch_locs m ns)) = flat_map (fun k => map (pair k) (zrange 0 m)) (zrange 0 ns).
Proof.
  intros Hm Hns. unfold threads, launch_locs. cbn [l_grid l_block]. change (axis 1 1) with [0]. cbn [flat_map]. rewrite app_nil_r.
  destruct (axis_ceil m 32 ltac:(lia) ltac:(lia) ltac:(lia)) as [E1 C1]. destruct (axis_ceil ns 1 ltac:(lia) ltac:(lia) ltac:(lia)) as [E2 C2]. rewrite E1, E2. clear E1 E2.
  rewrite (zrange_app 0 ns (ceil_div ns 1 * 1)) by lia. rewrite flat_map_app.
  assert (X : forall l, (forall y, In y l -> ns <= y) -> flat_map (items_locs m ns) (flat_map (fun y => map (fun x => (x, y, 0)) (zrange 0 (ceil_div m 32 * 32))) l) = []).
  { induction l as [|y l IH]; intros Hl; [reflexivity|]. cbn [flat_map]. rewrite flat_map_app, IH by (intros y' Hy'; apply Hl; right; exact Hy'). rewrite app_nil_r.
    rewrite flat_map_concat_map, map_map, <- flat_map_concat_map. cbn [items_locs]. destruct (Z.ltb_spec y ns) as [B|B]; [specialize (Hl y (or_introl eq_refl)); lia|].
    generalize (zrange 0 (ceil_div m 32 * 32)) as xs. induction xs as [|x xs IHx]; [reflexivity|]. cbn [flat_map]. rewrite andb_false_r. exact IHx. }
  rewrite flat_map_app, (X (zrange ns _)) by (intros y Hy; apply In_zrange in Hy; lia). rewrite app_nil_r. clear X.
  assert (X : forall l, (forall y, In y l -> y < ns) -> flat_map (items_locs m ns) (flat_map (fun y => map (fun x => (x, y, 0)) (zrange 0 (ceil_div m 32 * 32))) l) = flat_map (fun k => map (pair k) (zrange 0 m)) l).
  { induction l as [|y l IH]; intros Hl; [reflexivity|]. cbn [flat_map]. rewrite flat_map_app, IH by (intros y' Hy'; apply Hl; right; exact Hy'). f_equal.
    rewrite flat_map_concat_map, map_map, <- flat_map_concat_map. cbn [items_locs]. destruct (Z.ltb_spec y ns) as [B|B]; [|specialize (Hl y (or_introl eq_refl)); lia].
    rewrite <- (filter_zrange m (ceil_div m 32 * 32)) by lia. rewrite <- flat_map_guard. apply flat_map_ext. intros x. rewrite andb_true_r. reflexivity. }
  apply X. intros y Hy. apply In_zrange in Hy. lia.
Qed.
