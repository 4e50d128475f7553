(** * Facts about compression on a CUDA device (GpuCompModel.v): indices *)
From Coq Require Import List ZArith Reals Lia Lra Bool.
From Verif Require Import Grid StorageModel Storage Threads Barrier GpuCompModel.
Import ListNotations.
Local Open Scope Z_scope.

Lemma split_spec s b : (1 <= length s <= 3)%nat -> (forall n, In n s -> 0 < n) -> 0 <= b < prodZ s ->
  inb (abox s) (split s b) = true /\ idx s (split s b) = b.
Proof.
  intros Hl Hp Hb. destruct s as [|a [|c [|d [|? ?]]]]; cbn [length] in Hl; try lia; cbn [prodZ] in Hb; cbn [split abox map inb idx prodZ].
  - rewrite Z.mod_small by lia. rewrite !andb_true_iff, Z.leb_le, Z.ltb_lt. repeat split; lia.
  - pose proof (Hp a (or_introl eq_refl)) as Ha. pose proof (Hp c (or_intror (or_introl eq_refl))) as Hc. rewrite Z.mul_1_r in *.
    pose proof (Z.div_mod b c ltac:(lia)) as D. pose proof (Z.mod_pos_bound b c Hc) as M.
    assert (Q : 0 <= b / c < a) by (split; [apply Z.div_pos; lia|apply Z.div_lt_upper_bound; nia]).
    rewrite (Z.mod_small (b / c) a) by lia. rewrite !andb_true_iff, !Z.leb_le, !Z.ltb_lt. repeat split; lia.
  - pose proof (Hp a (or_introl eq_refl)) as Ha. pose proof (Hp c (or_intror (or_introl eq_refl))) as Hc. pose proof (Hp d (or_intror (or_intror (or_introl eq_refl)))) as Hd. rewrite Z.mul_1_r in *.
    pose proof (Z.div_mod b d ltac:(lia)) as D. pose proof (Z.mod_pos_bound b d Hd) as M.
    pose proof (Z.div_mod (b / d) c ltac:(lia)) as D2. pose proof (Z.mod_pos_bound (b / d) c Hc) as M2.
    assert (Q : 0 <= b / d < a * c) by (split; [apply Z.div_pos; lia|apply Z.div_lt_upper_bound; nia]).
    assert (Q2 : 0 <= b / d / c < a) by (split; [apply Z.div_pos; lia|apply Z.div_lt_upper_bound; nia]).
    rewrite !andb_true_iff, !Z.leb_le, !Z.ltb_lt. repeat split; nia.
Qed.
Lemma split_idx s p : (1 <= length s <= 3)%nat -> inb (abox s) p = true -> split s (idx s p) = p.
Proof.
  intros Hl Hp. assert (Hn : forall n, In n s -> 0 < n).
  { intros n Hn. apply In_nth with (d := 0) in Hn. destruct Hn as (d & Hd & <-). apply inb_abox in Hp. destruct Hp as [_ Hp]. specialize (Hp d Hd). lia. }
  destruct (split_spec s (idx s p) Hl Hn (idx_bound _ _ Hp)) as [A B]. apply (idx_inj s); assumption.
Qed.

Section G.
Variable shape : list Z.
Variable ds : Z.
Variable junk : R.
Variable NS : Z.
Hypothesis Hdim : (1 <= length shape <= 3)%nat.
Hypothesis Hpos : forall n, In n shape -> 0 < n.
Hypothesis Hds : 0 < ds.
Hypothesis Htot : 0 <= total shape NS < 2 ^ 31.

Notation PS := (per_shot shape).
Notation T := (threads shape).
Notation G := (grid shape NS).
Notation n := (prodZ shape).
Notation cell := (gcell shape).
Notation ins := (inside shape).
Notation gi := (gidx shape).
Definition eights : list Z := repeat 8 (length shape).

Lemma nblk_pos x : In x (nblk shape) -> 0 < x.
Proof. intros H. unfold nblk in H. apply in_map_iff in H. destruct H as (y & <- & Hy). apply Hpos in Hy. apply Z.div_str_pos. lia. Qed.
Lemma nblk_len : length (nblk shape) = length shape.
Proof. unfold nblk. apply map_length. Qed.
Lemma prod_pos s : (forall x, In x s -> 0 < x) -> 0 < prodZ s.
Proof. induction s as [|x s IH]; intros H; cbn; [lia|]. pose proof (H x (or_introl eq_refl)). specialize (IH (fun y Hy => H y (or_intror Hy))). nia. Qed.
Lemma PS_pos : 0 < PS.
Proof. apply prod_pos, nblk_pos. Qed.
Lemma n_pos : 0 < n.
Proof. apply prod_pos, Hpos. Qed.
Lemma grid_eq : G = NS * PS.
Proof. unfold grid. rewrite Z.mod_small; [reflexivity|]. assert (2 ^ 31 < 2 ^ 32) by reflexivity. lia. Qed.
Lemma threads_eq : T = prodZ eights.
Proof. unfold threads, eights. destruct shape as [|a [|c [|d [|? ?]]]]; cbn [length] in Hdim; try lia; reflexivity. Qed.
Lemma eights_ok : (1 <= length eights <= 3)%nat /\ forall x, In x eights -> 0 < x.
Proof. unfold eights. rewrite repeat_length. split; [exact Hdim|]. intros x Hx. apply repeat_spec in Hx. lia. Qed.
Lemma T_pos : 0 < T.
Proof. rewrite threads_eq. apply prod_pos, eights_ok. Qed.
Lemma shot_of b : 0 <= b < G -> 0 <= b / PS < NS /\ 0 <= b mod PS < PS.
Proof.
  intros H. rewrite grid_eq in H. pose proof PS_pos. split; [|apply Z.mod_pos_bound; lia]. split; [apply Z.div_pos; lia|]. apply Z.div_lt_upper_bound; [lia|]. nia.
Qed.

Definition bpt (b : Z) : pt := split (nblk shape) (b mod PS).
Definition tpt (t : Z) : pt := split eights t.
Lemma bpt_in b : 0 <= b < G -> inb (abox (nblk shape)) (bpt b) = true /\ idx (nblk shape) (bpt b) = b mod PS.
Proof. intros H. apply split_spec; [rewrite nblk_len; exact Hdim|exact nblk_pos|apply (shot_of b H)]. Qed.
Lemma tpt_in t : 0 <= t < T -> inb (abox eights) (tpt t) = true /\ idx eights (tpt t) = t.
Proof. intros H. apply split_spec; [apply eights_ok|apply eights_ok|rewrite <- threads_eq; exact H]. Qed.

Lemma add8_blk : forall (s : list Z) B Tt, length B = length s -> inb (abox (repeat 8 (length s))) Tt = true -> blk (map add8 (combine B Tt)) = B /\
  map (fun x => x mod 8) (map add8 (combine B Tt)) = Tt /\ length (map add8 (combine B Tt)) = length s.
Proof.
  induction s as [|x s IH]; intros [|c B] Tt HB HT; cbn [length repeat abox map] in *; try discriminate.
  - destruct Tt; [repeat split|discriminate].
  - destruct Tt as [|y Tt]; [discriminate|]. cbn [inb] in HT. apply andb_true_iff in HT. destruct HT as [H1 H2]. apply andb_true_iff in H1. rewrite Z.leb_le, Z.ltb_lt in H1.
    destruct (IH B Tt ltac:(lia) H2) as (A1 & A2 & A3). cbn [combine map length]. unfold blk in *. cbn [map]. unfold add8 at 1 3. cbn [fst snd]. repeat split.
    + f_equal; [|exact A1]. rewrite Z.div_add_l by lia. rewrite Z.div_small by lia. lia.
    + f_equal; [|exact A2]. rewrite Z.add_comm, Z.mod_add by lia. apply Z.mod_small; lia.
    + rewrite A3. reflexivity.
Qed.
Lemma cell_blk b t : 0 <= b < G -> 0 <= t < T -> blk (cell b t) = bpt b /\ map (fun x => x mod 8) (cell b t) = tpt t /\ length (cell b t) = length shape.
Proof.
  intros Hb Ht. apply add8_blk.
  - destruct (bpt_in b Hb) as [A _]. apply inb_length in A. rewrite abox_length, nblk_len in A. exact A.
  - apply tpt_in, Ht.
Qed.
Lemma below_inb s p : length p = length s -> (forall x, In x p -> 0 <= x) -> (below p s = true <-> inb (abox s) p = true).
Proof.
  revert p. induction s as [|k s IH]; intros [|x p] HL HP; cbn in *; try discriminate; [tauto|].
  rewrite !andb_true_iff, Z.leb_le. pose proof (IH p ltac:(lia) (fun y Hy => HP y (or_intror Hy))) as I. pose proof (HP x (or_introl eq_refl)). tauto.
Qed.
Lemma inside_inb b t : 0 <= b < G -> 0 <= t < T -> (ins b t = true <-> inb (abox shape) (cell b t) = true).
Proof.
  intros Hb Ht. destruct (cell_blk b t Hb Ht) as (A1 & A2 & A3). apply below_inb; [exact A3|].
  intros x Hx. unfold gcell in Hx. apply in_map_iff in Hx. destruct Hx as ((c & d) & <- & Hcd). unfold add8. cbn [fst snd].
  pose proof (in_combine_l _ _ _ _ Hcd) as Hc. pose proof (in_combine_r _ _ _ _ Hcd) as Hd.
  assert (0 <= c).
  { destruct (bpt_in b Hb) as [B _]. apply inb_abox in B. destruct B as [BL B]. apply In_nth with (d := 0) in Hc. destruct Hc as (e & He & <-). fold (bpt b) in *. rewrite BL in He. apply (B e He). }
  assert (0 <= d).
  { destruct (tpt_in t Ht) as [B _]. apply inb_abox in B. destruct B as [BL B]. apply In_nth with (d := 0) in Hd. destruct Hd as (e & He & <-). fold (tpt t) in *. change (split (repeat 8 (length shape)) t) with (tpt t) in *. rewrite BL in He. apply (B e He). }
  lia.
Qed.
Lemma gidx_bound b t : 0 <= b < G -> 0 <= t < T -> ins b t = true -> 0 <= gi b t < NS * n.
Proof.
  intros Hb Ht Hi. apply inside_inb in Hi; [|assumption|assumption]. pose proof (idx_bound _ _ Hi). destruct (shot_of b Hb) as [A _]. unfold gidx. nia.
Qed.
Lemma gidx_inj b t b' t' : 0 <= b < G -> 0 <= t < T -> 0 <= b' < G -> 0 <= t' < T -> ins b t = true -> ins b' t' = true -> gi b t = gi b' t' -> b = b' /\ t = t'.
Proof.
  intros Hb Ht Hb' Ht' Hi Hi' E. apply inside_inb in Hi; [|assumption|assumption]. apply inside_inb in Hi'; [|assumption|assumption].
  pose proof (idx_bound _ _ Hi) as I1. pose proof (idx_bound _ _ Hi') as I2. unfold gidx in E. assert (S : b / PS = b' / PS) by nia. assert (E2 : idx shape (cell b t) = idx shape (cell b' t')) by nia.
  apply (idx_inj shape) in E2; [|assumption|assumption].
  destruct (cell_blk b t Hb Ht) as (A1 & A2 & _). destruct (cell_blk b' t' Hb' Ht') as (B1 & B2 & _). rewrite E2 in A1, A2.
  assert (EB : bpt b = bpt b') by congruence. assert (ET : tpt t = tpt t') by congruence. split.
  - destruct (bpt_in b Hb) as [_ X]. destruct (bpt_in b' Hb') as [_ Y]. rewrite EB in X. pose proof PS_pos. rewrite (Z.div_mod b PS), (Z.div_mod b' PS) by lia. rewrite S. congruence.
  - destruct (tpt_in t Ht) as [_ X]. destruct (tpt_in t' Ht') as [_ Y]. congruence.
Qed.
Lemma mod8_in : forall s p, inb (abox s) p = true -> inb (abox (repeat 8 (length s))) (map (fun x => x mod 8) p) = true.
Proof.
  induction s as [|x s IH]; intros [|y p] H; cbn in *; try discriminate; [reflexivity|]. apply andb_true_iff in H. destruct H as [_ H]. apply andb_true_iff. split; [|exact (IH p H)].
  pose proof (Z.mod_pos_bound y 8 ltac:(lia)). apply andb_true_iff. rewrite Z.leb_le, Z.ltb_lt. lia.
Qed.
Lemma blk_mod p : map add8 (combine (blk p) (map (fun x => x mod 8) p)) = p.
Proof. unfold blk. induction p as [|x p IH]; cbn; [reflexivity|]. rewrite IH. f_equal. unfold add8. cbn [fst snd]. pose proof (Z.div_mod x 8 ltac:(lia)). lia. Qed.
(** Each cell of each shot has its block and its thread. *)
Lemma cell_thread k p : 0 <= k < NS -> inb (abox shape) p = true ->
  let b := k * PS + idx (nblk shape) (blk p) in
  exists t, 0 <= b < G /\ 0 <= t < T /\ cell b t = p /\ ins b t = true /\ gi b t = k * n + idx shape p /\ bpt b = blk p.
Proof.
  intros Hk Hp b. pose proof (blk_in _ _ Hp) as HB. pose proof (idx_bound _ _ HB) as IB. fold PS in IB. pose proof (mod8_in _ _ Hp) as HT. fold eights in HT. pose proof (idx_bound _ _ HT) as IT.
  rewrite <- threads_eq in IT. exists (idx eights (map (fun x => x mod 8) p)).
  assert (Hb : 0 <= b < G) by (rewrite grid_eq; unfold b, per_shot in *; nia).
  assert (Eq : b / PS = k) by (unfold b, per_shot in *; rewrite Z.div_add_l by lia; rewrite Z.div_small by lia; lia).
  assert (Em : b mod PS = idx (nblk shape) (blk p)) by (unfold b, per_shot in *; rewrite Z.add_comm, Z.mod_add by lia; apply Z.mod_small; lia).
  assert (EB : bpt b = blk p) by (unfold bpt; rewrite Em; apply split_idx; [rewrite nblk_len; exact Hdim|exact HB]).
  assert (EC : cell b (idx eights (map (fun x => x mod 8) p)) = p).
  { unfold gcell. fold (bpt b). rewrite EB. change (repeat 8 (length shape)) with eights. rewrite split_idx; [apply blk_mod|apply eights_ok|exact HT]. }
  split; [exact Hb|]. split; [exact IT|]. split; [exact EC|]. split; [apply inside_inb; [assumption|assumption|rewrite EC; exact Hp]|]. split; [|exact EB].
  unfold gidx. rewrite Eq, EC. reflexivity.
Qed.
End G.
