(** * Compression on a CUDA device: theorems *)
From Coq Require Import List ZArith Reals Lia Lra Bool.
From Verif Require Import Grid StorageModel Storage StorageThm Threads Barrier GpuCompModel GpuComp GpuComp2.
Import ListNotations.
Local Open Scope Z_scope.

Section G3.
Variable shape : list Z.
Variable ds : Z.
Variable junk : R.
Variable NS : Z.
Hypothesis Hdim : (1 <= length shape <= 3)%nat.
Hypothesis Hpos : forall n, In n shape -> 0 < n.
Hypothesis Hds : 0 < ds.
Hypothesis Htot : 0 < NS * prodZ (map (fun n => (n + 7) / 8) shape) < 2 ^ 31.
Notation n := (prodZ shape).
Notation G := (grid shape NS).
Notation T := (threads shape).
Notation PS := (per_shot shape).

Lemma nblk_eq : nblk shape = map (fun n => (n + 7) / 8) shape.
Proof. unfold nblk. apply map_ext. intros a. f_equal. lia. Qed.
Lemma Htot' : 0 <= total shape NS < 2 ^ 31.
Proof. unfold total, per_shot. rewrite nblk_eq. lia. Qed.
Lemma NS_pos : 0 < NS.
Proof. pose proof (PS_pos shape Hdim Hpos). unfold per_shot in *. rewrite nblk_eq in *. nia. Qed.

Definition shotx (m : Threads.mem loc item) (k i : Z) : R := num junk (m (LNum (k * n + i))).
Lemma block_max m b M : 0 <= b < G ->
  (forall t, 0 <= t < T -> (Rabs (xv shape junk m b t) <= M)%R) -> (exists t, 0 <= t < T /\ M = Rabs (xv shape junk m b t)) ->
  M = max_abs shape (shotx m (b / PS)) (bpt shape b).
Proof.
  intros Hb H1 (t0 & Ht0 & H2). destruct (bpt_in shape NS Hdim Hpos Htot' b Hb) as [B1 B2]. apply In_blocks in B1.
  destruct (max_abs_spec shape (shotx m (b / PS)) (bpt shape b)) as (A1 & A2 & A3).
  apply Rle_antisym.
  - rewrite H2. unfold xv. destruct (inside shape b t0) eqn:E; [|rewrite Rabs_R0; exact A1].
    destruct (cell_blk shape NS Hdim Hpos Htot' b t0 Hb Ht0) as (C1 & _). apply (inside_inb shape NS Hdim Hpos Htot' b t0 Hb Ht0) in E.
    apply (A2 (gcell shape b t0)). apply In_block; [exact B1|]. split; [exact E|exact C1].
  - destruct A3 as [A3|(p & Hp & A3)]; rewrite A3.
    + rewrite H2. apply Rabs_pos.
    + apply (In_block _ _ _ B1) in Hp. destruct Hp as [Hp Ep]. destruct (shot_of shape NS Hdim Hpos Htot' b Hb) as [K _].
      pose proof (PS_pos shape Hdim Hpos) as PP.
      assert (Eb : b / PS * PS + idx (nblk shape) (blk p) = b) by (rewrite Ep, B2, Z.mul_comm; symmetry; apply Z.div_mod; lia).
      destruct (cell_thread shape NS Hdim Hpos Htot' (b / PS) p K Hp) as (t & _ & Ht & C1 & C2 & C3 & _). rewrite Eb in C2, C3.
      pose proof (H1 t Ht) as Q. unfold xv in Q. rewrite C2, C3 in Q. exact Q.
Qed.

(** What the bytes are after compression. *)
Lemma compress_bytes m m1 : compress_cuda shape ds junk NS m m1 -> forall k p, 0 <= k < NS -> inb (abox shape) p = true ->
  let b := k * PS + idx (nblk shape) (blk p) in
  0 <= b < G /\ (forall i, 0 <= i < ds -> m1 (LByte (b * ds + i)) = Part (max_abs shape (shotx m k) (blk p)) i) /\
  m1 (LByte (G * ds + (k * n + idx shape p))) = Byte (code (shotx m k) (max_abs shape (shotx m k) (blk p)) (idx shape p)).
Proof.
  intros He k p Hk Hp b. destruct (cell_thread shape NS Hdim Hpos Htot' k p Hk Hp) as (t & Hb & Ht & C1 & C2 & C3 & C4). fold b in Hb, C1, C2, C3, C4.
  destruct (compress_own shape ds junk NS Hdim Hpos Hds Htot' m m1 He) as [O1 _].
  destruct (block_run shape ds junk NS Hdim Hpos Hds Htot' b m Hb) as (M & M1 & M2 & F1 & F2).
  assert (EM : M = max_abs shape (shotx m k) (blk p)).
  { rewrite (block_max m b M Hb M1 M2). assert (Ek : b / PS = k).
    { pose proof (PS_pos shape Hdim Hpos). pose proof (idx_bound _ _ (blk_in _ _ Hp)) as IB. unfold b, per_shot in *. rewrite Z.div_add_l by lia. rewrite Z.div_small by lia. lia. }
    rewrite Ek, C4. reflexivity. }
  split; [exact Hb|]. split.
  - intros i Hi. rewrite (O1 b (LByte (b * ds + i)) Hb); [rewrite (F1 i Hi), EM; reflexivity|]. right. exists 0. pose proof (T_pos shape NS Hdim Hpos Htot'). split; [lia|]. left. split; [reflexivity|]. exists i. split; [lia|reflexivity].
  - rewrite <- C3. rewrite (O1 b (LByte (G * ds + gidx shape b t)) Hb); [|right; exists t; split; [exact Ht|right; split; [exact C2|reflexivity]]].
    rewrite (F2 t Ht C2), EM. unfold code. unfold xv. rewrite C2, C3. reflexivity.
Qed.

Lemma cuda_roundtrip m m1 m' m2 : compress_cuda shape ds junk NS m m1 -> decompress_cuda shape ds junk NS m' m2 ->
  (forall j, 0 <= j < NS * bytes_comp shape ds -> m' (LByte j) = m1 (LByte j)) ->
  forall k p out out', 0 <= k < NS -> inb (abox shape) p = true ->
  m2 (LNum (k * n + idx shape p)) = one (decompress shape ds junk (compress shape ds (shotx m k) out) out' (idx shape p)).
Proof.
  intros Hc Hd Hj k p out out' Hk Hp. destruct (cell_thread shape NS Hdim Hpos Htot' k p Hk Hp) as (t & Hb & Ht & C1 & C2 & C3 & C4).
  destruct (compress_bytes m m1 Hc k p Hk Hp) as (_ & B1 & B2). cbv zeta in B1, B2. set (b := k * PS + idx (nblk shape) (blk p)) in *.
  destruct (decompress_own shape ds junk NS Hdim Hpos Hds Htot' m' m2 Hd) as [D1 _].
  rewrite <- C3. rewrite (D1 b t Hb Ht C2), (decompress_run shape ds junk NS) by (assumption || exact Htot'). rewrite C3.
  rewrite (roundtrip_at shape ds junk Hds (shotx m k) out out' _ p Hp ltac:(reflexivity)).
  assert (Bd : forall j, 0 <= j < G * ds + NS * n -> 0 <= j < NS * bytes_comp shape ds).
  { intros j H. rewrite (grid_eq shape NS Hdim Htot') in H. pose proof (bytes_comp_bounds shape ds Hds) as [Bb _]. unfold n_cells, n_blocks, per_shot in *. pose proof NS_pos. nia. }
  pose proof (gidx_bound shape NS Hdim Hpos Htot' b t Hb Ht C2) as GB. pose proof (idx_bound _ _ Hp).
  f_equal. f_equal.
  - unfold rd_byte. rewrite Hj, B2 by (apply Bd; nia). reflexivity.
  - f_equal. apply (rd_flt_parts ds junk Hds). intros i Hi. rewrite Hj by (apply Bd; nia). apply B1. exact Hi.
Qed.

Lemma cuda_inside m m1 : (compress_cuda shape ds junk NS m m1 -> forall l, match l with LByte j => 0 <= j < NS * bytes_comp shape ds | LNum _ => False | _ => True end \/ m1 l = m l) /\
  (decompress_cuda shape ds junk NS m m1 -> forall l, match l with LNum i => 0 <= i < NS * n | _ => False end \/ m1 l = m l).
Proof.
  pose proof (bytes_comp_bounds shape ds Hds) as [Bb _]. pose proof NS_pos as NP. pose proof (PS_pos shape Hdim Hpos) as PP. pose proof (n_pos shape Hdim Hpos) as nP.
  assert (Bd : forall j, 0 <= j < G * ds + NS * n -> 0 <= j < NS * bytes_comp shape ds).
  { intros j H. rewrite (grid_eq shape NS Hdim Htot') in H. unfold n_cells, n_blocks, per_shot in *. nia. }
  split; intros He l.
  - destruct (compress_own shape ds junk NS Hdim Hpos Hds Htot' m m1 He) as [_ O]. destruct l as [i|j|? ?|? ?]; try (left; exact I).
    + right. apply O. intros b Hb [[]|(t & _ & [])].
    + destruct (Z_le_gt_dec 0 j); [destruct (Z_lt_le_dec j (NS * bytes_comp shape ds)); [left; lia|]|]; right; apply O; intros b Hb [[]|(t & Ht & [[_ (i & Hi & E)]|[Hi E]])];
        try (pose proof (gidx_bound shape NS Hdim Hpos Htot' b t Hb Ht Hi)); assert (0 <= j < G * ds + NS * n) by nia; pose proof (Bd j); lia.
  - destruct (decompress_own shape ds junk NS Hdim Hpos Hds Htot' m m1 He) as [_ O].
    destruct l as [i|j|? ?|? ?]; try (right; apply O; intros b0 Hb0 (t0 & _ & _ & E); discriminate).
    destruct (Z_le_gt_dec 0 i); [destruct (Z_lt_le_dec i (NS * n)); [left; lia|]|]; right; apply O; intros b Hb (t & Ht & Hi & E); injection E as E; pose proof (gidx_bound shape NS Hdim Hpos Htot' b t Hb Ht Hi); lia.
Qed.

Lemma cuda_exists m : (exists m1, compress_cuda shape ds junk NS m m1) /\ (exists m1, decompress_cuda shape ds junk NS m m1).
Proof. split; eexists; apply bexec_exists. Qed.

Lemma cuda_error m m1 m' m2 : compress_cuda shape ds junk NS m m1 -> decompress_cuda shape ds junk NS m' m2 ->
  (forall j, 0 <= j < NS * bytes_comp shape ds -> m' (LByte j) = m1 (LByte j)) ->
  forall k p M, 0 <= k < NS -> length p = length shape -> (forall d, (d < length shape)%nat -> 0 <= coord d p < nth d shape 0) ->
  (forall q, length q = length shape -> (forall d, (d < length shape)%nat -> 0 <= coord d q < nth d shape 0) ->
     (forall d, coord d q / 8 = coord d p / 8) -> (Rabs (num junk (m (LNum (k * n + idx shape q)))) <= M)%R) ->
  (Rabs (num junk (m2 (LNum (k * n + idx shape p))) - num junk (m (LNum (k * n + idx shape p)))) <= M / 254)%R.
Proof.
  intros Hc Hd Hj k p M Hk Hl Hp HM.
  rewrite (cuda_roundtrip m m1 m' m2 Hc Hd Hj k p (fun _ => Byte 0) (fun _ => 0%R) Hk); [|apply inb_abox; split; assumption].
  cbn [num one]. apply (compression_error shape ds junk (shotx m k)); assumption.
Qed.
End G3.
