(** * Facts about compression and storage (StorageModel.v) *)
From Coq Require Import List ZArith Reals Lia Lra Bool.
From Verif Require Import Ops Grid ScalarModel ScalarForward ShotsModel StorageModel.
Import ListNotations.
Local Open Scope Z_scope.

(** ** Sequences of writes *)

Definition updA {A} (m : Z -> A) (k : Z) (x : A) : Z -> A := fun j => if j =? k then x else m j.
Definition puts {A} (l : list (Z * A)) (m : Z -> A) : Z -> A :=
  fold_left (fun m kv => updA m (fst kv) (snd kv)) l m.

Lemma puts_app {A} (l1 l2 : list (Z * A)) m : puts (l1 ++ l2) m = puts l2 (puts l1 m).
Proof. apply fold_left_app. Qed.

Lemma puts_keep {A} (l : list (Z * A)) m j : (forall x, ~ In (j, x) l) -> puts l m j = m j.
Proof.
  revert m; induction l as [|[k x] l IH]; intros m H; [reflexivity|].
  change (puts ((k, x) :: l) m) with (puts l (updA m k x)).
  rewrite IH by (intros y Hy; apply (H y); right; exact Hy).
  unfold updA; cbn. destruct (Z.eqb_spec j k) as [->|]; [|reflexivity].
  exfalso; apply (H x); left; reflexivity.
Qed.

Lemma puts_get {A} (l : list (Z * A)) m j x :
  In (j, x) l -> (forall y, In (j, y) l -> y = x) -> puts l m j = x.
Proof.
  revert m; induction l as [|[k z] l IH]; intros m Hin Hf; [destruct Hin|].
  change (puts ((k, z) :: l) m) with (puts l (updA m k z)).
  destruct (in_dec Z.eq_dec j (map fst l)) as [Hj|Hj].
  - apply in_map_iff in Hj. destruct Hj as ((j' & y) & E & Hy); cbn in E; subst j'.
    assert (y = x) by (apply Hf; right; exact Hy). subst y.
    apply (IH _ Hy). intros y' Hy'; apply Hf; right; exact Hy'.
  - destruct Hin as [E|Hin]; [injection E as -> ->|].
    + rewrite puts_keep.
      * unfold updA. now rewrite Z.eqb_refl.
      * intros y Hy; apply Hj. apply in_map_iff. exists (j, y). auto.
    + exfalso; apply Hj. apply in_map_iff. exists (j, x). auto.
Qed.

Lemma puts_flat {A B} (f : B -> list (Z * A)) (l : list B) m :
  fold_left (fun m b => puts (f b) m) l m = puts (flat_map f l) m.
Proof. revert m; induction l as [|b l IH]; intros m; [reflexivity|]. cbn [fold_left flat_map]. now rewrite puts_app, IH. Qed.

Lemma fold_puts {A B} (f : B -> Z) (g : B -> A) (l : list B) m :
  fold_left (fun m p => updA m (f p) (g p)) l m = puts (map (fun p => (f p, g p)) l) m.
Proof. revert m; induction l as [|p l IH]; intros m; cbn; [reflexivity|]. apply IH. Qed.

Lemma fold_left_ext' {A B} (f g : A -> B -> A) (l : list B) a :
  (forall a b, In b l -> f a b = g a b) -> fold_left f l a = fold_left g l a.
Proof.
  revert a; induction l as [|b l IH]; intros a H; cbn; [reflexivity|].
  rewrite H by (now left). apply IH. intros; apply H; now right.
Qed.

(** ** Blocks *)

Definition blk (p : pt) : pt := map (fun x => x / 8) p.
Definition blocks (shape : list Z) : list pt := box_pts (map (fun n => (0, n)) (nblk shape)).

Lemma blk_in shape p : inb (abox shape) p = true -> inb (abox (nblk shape)) (blk p) = true.
Proof.
  revert p; induction shape as [|n s IH]; intros [|x p]; cbn; try discriminate; auto.
  rewrite !andb_true_iff, !Z.leb_le, !Z.ltb_lt. intros [[H1 H2] H3]. repeat split.
  - apply Z.div_pos; lia.
  - pose proof (Z.div_mod x 8 ltac:(lia)). pose proof (Z.mod_pos_bound x 8 ltac:(lia)).
    pose proof (Z.div_mod (n + 8 - 1) 8 ltac:(lia)). pose proof (Z.mod_pos_bound (n + 8 - 1) 8 ltac:(lia)). nia.
  - apply IH, H3.
Qed.

Lemma block_box_spec shape b p : inb (abox (nblk shape)) b = true ->
  (inb (block_box shape b) p = true <-> inb (abox shape) p = true /\ blk p = b).
Proof.
  revert b p; induction shape as [|n s IH]; intros [|x b] [|y p]; cbn; try discriminate;
    try (intros _; split; [discriminate|intros [H _]; discriminate]).
  - intros _. split; auto.
  - rewrite !andb_true_iff, !Z.leb_le, !Z.ltb_lt. intros [[H1 H2] H3].
    specialize (IH b p H3).
    assert (Hy : (x * 8 <= y /\ y < (if x * 8 + 8 <? n then x * 8 + 8 else n)) <-> (0 <= y < n /\ y / 8 = x)).
    { pose proof (Z.div_mod y 8 ltac:(lia)). pose proof (Z.mod_pos_bound y 8 ltac:(lia)).
      destruct (Z.ltb_spec (x * 8 + 8) n); split; intros; repeat split; try lia; nia. }
    split.
    + intros [H4 H5]. apply Hy in H4. apply IH in H5. destruct H5 as [H5 E]. unfold blk in *; cbn.
      rewrite E. destruct H4 as [H4 ->]. auto.
    + intros [[H4 H5] E]. unfold blk in E; cbn in E. injection E as E1 E2. split.
      * apply Hy. split; [lia|exact E1].
      * apply IH. split; [exact H5|exact E2].
Qed.

Lemma In_blocks shape b : In b (blocks shape) <-> inb (abox (nblk shape)) b = true.
Proof. unfold blocks. apply In_box_pts. Qed.

Lemma In_block shape b p : In b (blocks shape) ->
  (In p (box_pts (block_box shape b)) <-> inb (abox shape) p = true /\ blk p = b).
Proof. intros H. rewrite In_box_pts. apply block_box_spec, In_blocks, H. Qed.

Lemma fold_ceil ds' s a : fold_left (fun a n => a * ((n + 7) / 8)) s a * ds' = a * prodZ (nblk s) * ds'.
Proof.
  revert a; induction s as [|n s IH]; intros a.
  { change (a * ds' = a * 1 * ds'). ring. }
  change (prodZ (nblk (n :: s))) with ((n + 8 - 1) / 8 * prodZ (nblk s)). cbn [fold_left]. rewrite IH. replace (n + 8 - 1) with (n + 7) by lia. ring.
Qed.

Lemma bytes_comp_eq s ds : bytes_comp s ds = (n_cells s + n_blocks s * ds + ds - 1) / ds * ds.
Proof. unfold bytes_comp, n_blocks. rewrite fold_ceil. f_equal. f_equal. ring. Qed.

Lemma bytes_comp_bounds s ds : 0 < ds ->
  n_cells s + n_blocks s * ds <= bytes_comp s ds < n_cells s + n_blocks s * ds + ds /\
  bytes_comp s ds mod ds = 0 /\ bytes_comp s ds / ds * ds = bytes_comp s ds.
Proof.
  intros H. rewrite bytes_comp_eq. set (a := n_cells s + n_blocks s * ds).
  pose proof (Z.div_mod (a + ds - 1) ds ltac:(lia)). pose proof (Z.mod_pos_bound (a + ds - 1) ds H).
  split; [nia|]. split; [apply Z.mod_mul; lia|]. rewrite Z.div_mul by lia. reflexivity.
Qed.

Lemma blocks_pos shape b : In b (blocks shape) -> 0 < n_cells shape.
Proof.
  intros Hb. apply In_blocks in Hb. revert b Hb. unfold n_cells.
  induction shape as [|n s IH]; intros [|y b]; cbn; try discriminate; try lia.
  rewrite !andb_true_iff, !Z.leb_le, !Z.ltb_lt. intros [[H1 H2] H3]. specialize (IH b H3).
  pose proof (Z.div_mod (n + 8 - 1) 8 ltac:(lia)). pose proof (Z.mod_pos_bound (n + 8 - 1) 8 ltac:(lia)). nia.
Qed.

Section C.
Variable shape : list Z.
Variable ds : Z.
Variable junk : R.
Hypothesis Hds : 0 < ds.

Definition cwrites (inp : Z -> R) (b : pt) : list (Z * item) :=
  map (fun i => (idx (nblk shape) b * ds + i, Part (max_abs shape inp b) i)) (zrange 0 ds) ++
  map (fun p => (n_blocks shape * ds + idx shape p, Byte (code inp (max_abs shape inp b) (idx shape p))))
      (box_pts (block_box shape b)).

Lemma compress_puts inp out : compress shape ds inp out = puts (flat_map (cwrites inp) (blocks shape)) out.
Proof.
  unfold compress, blocks. rewrite <- puts_flat. apply fold_left_ext'. intros m b _.
  unfold compress_block, cwrites, put_flt. rewrite puts_app.
  rewrite <- (fold_puts (fun p => n_blocks shape * ds + idx shape p)).
  rewrite <- (fold_puts (fun i => idx (nblk shape) b * ds + i) (fun i => Part (max_abs shape inp b) i)).
  reflexivity.
Qed.

Definition dwrites (inp : mem) (b : pt) : list (Z * R) :=
  map (fun p => (idx shape p, ((rd_byte junk inp (n_blocks shape * ds + idx shape p) - 128)
                               * (rd_flt ds junk inp (idx (nblk shape) b * ds) / 127))%R))
      (box_pts (block_box shape b)).

Lemma decompress_puts inp out :
  decompress shape ds junk inp out = puts (flat_map (dwrites inp) (blocks shape)) out.
Proof.
  unfold decompress, blocks. rewrite <- puts_flat. apply fold_left_ext'. intros m b _.
  unfold decompress_block, dwrites. rewrite <- (fold_puts (fun p => idx shape p)). reflexivity.
Qed.

Lemma block_idx_bound b : In b (blocks shape) -> 0 <= idx (nblk shape) b < n_blocks shape.
Proof. intros H. apply In_blocks in H. apply idx_bound, H. Qed.

(** ** Where compression writes *)

Lemma compress_range inp out j : ~ (0 <= j < n_blocks shape * ds + n_cells shape) ->
  compress shape ds inp out j = out j.
Proof.
  intros Hj. rewrite compress_puts. apply puts_keep. intros x Hx. apply Hj.
  apply in_flat_map in Hx. destruct Hx as (b & Hb & Hx). pose proof (block_idx_bound b Hb) as B.
  unfold cwrites in Hx. apply in_app_iff in Hx. destruct Hx as [Hx|Hx].
  - apply in_map_iff in Hx. destruct Hx as (i & E & Hi). injection E as E _. apply In_zrange in Hi.
    pose proof (blocks_pos shape b Hb). nia.
  - apply in_map_iff in Hx. destruct Hx as (p & E & Hp). injection E as E _.
    apply (In_block _ _ _ Hb) in Hp. destruct Hp as [Hp _]. pose proof (idx_bound _ _ Hp). unfold n_cells. nia.
Qed.

Lemma compress_byte inp out p : inb (abox shape) p = true ->
  compress shape ds inp out (n_blocks shape * ds + idx shape p) =
  Byte (code inp (max_abs shape inp (blk p)) (idx shape p)).
Proof.
  intros Hp. rewrite compress_puts. apply puts_get.
  - apply in_flat_map. exists (blk p). split; [apply In_blocks, blk_in, Hp|].
    unfold cwrites. apply in_app_iff. right. apply in_map_iff. exists p. split; [reflexivity|].
    apply In_block; [apply In_blocks, blk_in, Hp|]. auto.
  - intros y Hy. apply in_flat_map in Hy. destruct Hy as (b & Hb & Hy). pose proof (block_idx_bound b Hb) as B.
    unfold cwrites in Hy. apply in_app_iff in Hy. destruct Hy as [Hy|Hy].
    + apply in_map_iff in Hy. destruct Hy as (i & E & Hi). injection E as E _. apply In_zrange in Hi.
      pose proof (idx_bound _ _ Hp). nia.
    + apply in_map_iff in Hy. destruct Hy as (q & E & Hq). injection E as E <-.
      apply (In_block _ _ _ Hb) in Hq. destruct Hq as [Hq <-].
      assert (q = p) by (apply (idx_inj shape); try assumption; lia). now subst q.
Qed.

Lemma compress_head inp out b i : In b (blocks shape) -> 0 <= i < ds ->
  compress shape ds inp out (idx (nblk shape) b * ds + i) = Part (max_abs shape inp b) i.
Proof.
  intros Hb Hi. rewrite compress_puts. apply puts_get.
  - apply in_flat_map. exists b. split; [exact Hb|]. unfold cwrites. apply in_app_iff. left.
    apply in_map_iff. exists i. split; [reflexivity|]. apply In_zrange; lia.
  - intros y Hy. apply in_flat_map in Hy. destruct Hy as (c & Hc & Hy).
    pose proof (block_idx_bound b Hb) as B. pose proof (block_idx_bound c Hc) as B'.
    unfold cwrites in Hy. apply in_app_iff in Hy. destruct Hy as [Hy|Hy].
    + apply in_map_iff in Hy. destruct Hy as (i' & E & Hi'). injection E as E <-. apply In_zrange in Hi'.
      assert (idx (nblk shape) c = idx (nblk shape) b) by nia. assert (i' = i) by nia. subst i'.
      apply In_blocks in Hb, Hc. now rewrite (idx_inj _ _ _ Hc Hb H).
    + apply in_map_iff in Hy. destruct Hy as (q & E & Hq). injection E as E _.
      apply (In_block _ _ _ Hc) in Hq. destruct Hq as [Hq _]. pose proof (idx_bound _ _ Hq). nia.
Qed.

Lemma rd_flt_parts m k x : (forall i, 0 <= i < ds -> m (k + i) = Part x i) -> rd_flt ds junk m k = x.
Proof.
  intros H. unfold rd_flt. pose proof (H 0 ltac:(lia)) as H0. rewrite Z.add_0_r in H0. rewrite H0.
  match goal with |- (if ?c then _ else _) = _ => assert (E : c = true) end.
  { apply forallb_forall. intros i Hi. apply In_zrange in Hi. rewrite (H i Hi), Z.eqb_refl.
    destruct (Req_EM_T x x); [reflexivity|congruence]. }
  now rewrite E.
Qed.

(** Only the bytes of the compressed snapshot matter to decompression. *)
Lemma decompress_at m out p : inb (abox shape) p = true ->
  decompress shape ds junk m out (idx shape p) =
  ((rd_byte junk m (n_blocks shape * ds + idx shape p) - 128)
   * (rd_flt ds junk m (idx (nblk shape) (blk p) * ds) / 127))%R.
Proof.
  intros Hp. rewrite decompress_puts. apply puts_get.
  - apply in_flat_map. exists (blk p). split; [apply In_blocks, blk_in, Hp|].
    unfold dwrites. apply in_map_iff. exists p. split; [reflexivity|].
    apply In_block; [apply In_blocks, blk_in, Hp|]. auto.
  - intros y Hy. apply in_flat_map in Hy. destruct Hy as (b & Hb & Hy).
    unfold dwrites in Hy. apply in_map_iff in Hy. destruct Hy as (q & E & Hq).
    apply (In_block _ _ _ Hb) in Hq. destruct Hq as [Hq <-]. injection E as E <-.
    now rewrite (idx_inj _ _ _ Hq Hp E).
Qed.

Lemma decompress_range m out j : ~ (0 <= j < n_cells shape) -> decompress shape ds junk m out j = out j.
Proof.
  intros Hj. rewrite decompress_puts. apply puts_keep. intros x Hx. apply Hj.
  apply in_flat_map in Hx. destruct Hx as (b & Hb & Hx). unfold dwrites in Hx.
  apply in_map_iff in Hx. destruct Hx as (q & E & Hq). apply (In_block _ _ _ Hb) in Hq.
  destruct Hq as [Hq _]. injection E as E _. pose proof (idx_bound _ _ Hq). unfold n_cells. lia.
Qed.

(** Decompressed value of a compressed snapshot. *)
Lemma roundtrip_at inp out out' m p : inb (abox shape) p = true ->
  (forall j, 0 <= j < n_blocks shape * ds + n_cells shape -> m j = compress shape ds inp out j) ->
  decompress shape ds junk m out' (idx shape p) =
  ((IZR (code inp (max_abs shape inp (blk p)) (idx shape p)) - 128) * (max_abs shape inp (blk p) / 127))%R.
Proof.
  intros Hp Hm. rewrite decompress_at by exact Hp.
  assert (Hb : In (blk p) (blocks shape)) by (apply In_blocks, blk_in, Hp).
  pose proof (block_idx_bound _ Hb) as B. pose proof (idx_bound _ _ Hp) as Bp.
  rewrite (rd_flt_parts _ _ (max_abs shape inp (blk p))).
  - unfold rd_byte. rewrite Hm by (unfold n_cells; nia). rewrite compress_byte by exact Hp. reflexivity.
  - intros i Hi. rewrite Hm by (unfold n_cells; nia). apply compress_head; assumption.
Qed.

(** ** The maximum of a block *)

Lemma fold_max (f : pt -> R) l m0 :
  let r := fold_left (fun m p => if Rlt_dec m (f p) then f p else m) l m0 in
  (m0 <= r)%R /\ (forall p, In p l -> f p <= r)%R /\ (r = m0 \/ exists p, In p l /\ r = f p).
Proof.
  revert m0; induction l as [|p l IH]; intros m0; cbn.
  - split; [lra|]. split; [tauto|]. now left.
  - destruct (IH (if Rlt_dec m0 (f p) then f p else m0)) as (H1 & H2 & H3). cbv zeta in *.
    destruct (Rlt_dec m0 (f p)).
    + split; [lra|]. split.
      * intros q [->|Hq]; [lra|auto].
      * right. destruct H3 as [H3|(q & Hq & H3)]; [exists p; auto|exists q; auto].
    + split; [lra|]. split.
      * intros q [->|Hq]; [lra|auto].
      * destruct H3 as [H3|(q & Hq & H3)]; [auto|right; exists q; auto].
Qed.

Lemma max_abs_spec inp b :
  (0 <= max_abs shape inp b)%R /\
  (forall p, In p (box_pts (block_box shape b)) -> Rabs (inp (idx shape p)) <= max_abs shape inp b)%R /\
  (max_abs shape inp b = 0%R \/
   exists p, In p (box_pts (block_box shape b)) /\ max_abs shape inp b = Rabs (inp (idx shape p))).
Proof. unfold max_abs. apply (fold_max (fun p => Rabs (inp (idx shape p)))). Qed.

Lemma u8_spec y : (0 <= y < 256)%R -> (IZR (u8 y) <= y < IZR (u8 y) + 1)%R.
Proof.
  intros H. unfold u8. destruct (base_Int_part y) as [H1 H2].
  assert (0 <= Int_part y < 256).
  { split.
    - apply Z.lt_succ_r. apply lt_IZR. unfold Z.succ. rewrite plus_IZR. lra.
    - apply lt_IZR. lra. }
  rewrite Z.mod_small by lia. lra.
Qed.

Lemma code_error inp m i : (Rabs (inp i) <= m)%R ->
  (Rabs ((IZR (code inp m i) - 128) * (m / 127) - inp i) <= m / 254)%R.
Proof.
  intros H. unfold code, scale_of. pose proof (Rabs_pos (inp i)).
  assert (Hi : (- m <= inp i <= m)%R) by (pose proof (Rle_abs (inp i)); pose proof (Rle_abs (- inp i)); rewrite Rabs_Ropp in *; lra).
  destruct (Rlt_dec 0 m) as [Hm|Hm].
  - assert (Hy : (-127 <= inp i * (127 / m) <= 127)%R).
    { assert (Hq : (0 < 127 / m)%R) by (apply Rdiv_lt_0_compat; lra).
      assert (E : (m * (127 / m) = 127)%R) by (field; lra). set (q := (127 / m)%R) in *. nra. }
    pose proof (u8_spec (128 + inp i * (127 / m) + 1 / 2) ltac:(lra)) as Hc.
    set (c := IZR (u8 (128 + inp i * (127 / m) + 1 / 2))) in *.
    replace ((c - 128) * (m / 127) - inp i)%R with ((c - 128 - inp i * (127 / m)) * (m / 127))%R by (field; lra).
    rewrite Rabs_mult. rewrite (Rabs_pos_eq (m / 127)) by (apply Rlt_le, Rdiv_lt_0_compat; lra).
    assert (Rabs (c - 128 - inp i * (127 / m)) <= 1 / 2)%R by (apply Rabs_le; lra).
    replace (m / 254)%R with (1 / 2 * (m / 127))%R by (field; lra).
    apply Rmult_le_compat_r; [|assumption]. apply Rlt_le, Rdiv_lt_0_compat; lra.
  - assert (m = 0)%R by lra. subst m. assert (inp i = 0)%R by lra. rewrite H1.
    replace ((IZR (u8 (128 + 0 * 0 + 1 / 2)) - 128) * (0 / 127) - 0)%R with 0%R by field.
    rewrite Rabs_R0. lra.
Qed.

Lemma blk_coord p q : length p = length q -> (forall d, coord d p / 8 = coord d q / 8) -> blk p = blk q.
Proof.
  revert q; induction p as [|x p IH]; intros [|y q] L H; cbn in *; try discriminate; [reflexivity|].
  unfold blk; cbn. f_equal.
  - exact (H 0%nat).
  - apply IH; [lia|]. intros d. exact (H (S d)).
Qed.
Lemma blk_coord' p q : blk p = blk q -> forall d, coord d p / 8 = coord d q / 8.
Proof.
  intros H d. unfold coord.
  rewrite <- (map_nth (fun x => x / 8) p 0 d).
  rewrite <- (map_nth (fun x => x / 8) q 0 d).
  unfold blk in H. now rewrite H.
Qed.

Lemma roundtrip_error inp out out' m p M : inb (abox shape) p = true ->
  (forall j, 0 <= j < n_blocks shape * ds + n_cells shape -> m j = compress shape ds inp out j) ->
  (forall q, inb (abox shape) q = true -> (forall d, coord d q / 8 = coord d p / 8) ->
     (Rabs (inp (idx shape q)) <= M)%R) ->
  (Rabs (decompress shape ds junk m out' (idx shape p) - inp (idx shape p)) <= M / 254)%R.
Proof.
  intros Hp Hm HM. rewrite (roundtrip_at inp out out' m p Hp Hm).
  assert (Hb : In (blk p) (blocks shape)) by (apply In_blocks, blk_in, Hp).
  destruct (max_abs_spec inp (blk p)) as (M0 & M1 & M2).
  assert (max_abs shape inp (blk p) <= M)%R.
  { destruct M2 as [->|(q & Hq & ->)].
    - pose proof (HM p Hp ltac:(reflexivity)). pose proof (Rabs_pos (inp (idx shape p))). lra.
    - apply (In_block _ _ _ Hb) in Hq. destruct Hq as [Hq E]. apply HM; [exact Hq|].
      apply blk_coord', E. }
  eapply Rle_trans; [apply code_error|].
  - apply M1. apply In_block; auto.
  - unfold Rdiv. apply Rmult_le_compat_r; lra.
Qed.

(** Compression only looks at the cells of the array. *)
Lemma compress_ext inp inp' out : (forall i, 0 <= i < n_cells shape -> inp i = inp' i) ->
  compress shape ds inp out = compress shape ds inp' out.
Proof.
  intros H. unfold compress. apply fold_left_ext'. intros m b Hb.
  change (box_pts (map (fun n => (0, n)) (nblk shape))) with (blocks shape) in Hb.
  assert (Hcell : forall p, In p (box_pts (block_box shape b)) -> inp (idx shape p) = inp' (idx shape p)).
  { intros p Hp. apply (In_block _ _ _ Hb) in Hp. apply H, idx_bound, Hp. }
  assert (E : max_abs shape inp b = max_abs shape inp' b).
  { unfold max_abs. apply fold_left_ext'. intros r p Hp. now rewrite (Hcell p Hp). }
  unfold compress_block. rewrite E. apply fold_left_ext'. intros o p Hp. unfold code. now rewrite (Hcell p Hp).
Qed.
End C.
