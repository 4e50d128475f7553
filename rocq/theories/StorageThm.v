(** * Storage properties in the form of PropStorage.v *)
From Coq Require Import List ZArith Reals Lia Lra Bool.
From Verif Require Import Ops Grid ScalarModel ShotsModel StorageModel Storage Storage2.
Import ListNotations.
Local Open Scope Z_scope.

Lemma read_back : forall shape ds junk mode NS sr vis (w : Z -> Z -> Z -> R) N cf ev ls k s i,
  0 < ds -> 0 < sr -> (forall n, In n shape -> 0 <= n) -> (forall i, In i vis -> 0 <= i < prodZ shape) ->
  0 <= N -> 0 < cf -> interleaves NS (fun _ => saved_steps sr N cf) ev ->
  Forall (fun e => 0 <= fst e < NS /\ exists s', snd e = s' * sr) ls ->
  0 <= k < NS -> 0 <= s < N -> 0 <= i < prodZ shape ->
  st1 (load shape ds junk mode false NS sr k (s * sr)
         (run_loads shape ds junk mode false NS sr ls
            (run_saves shape ds mode false NS sr vis w ev (sinit ds junk))))
      (boff1 shape mode false NS sr k (s * sr) + i)
  = if in_dec Z.eq_dec i vis then w k s i else 0%R.
Proof.
  intros shape ds junk mode NS sr vis w N cf ev ls k s i Hds Hsr Hsh Hvis HN Hcf Hev Hls Hk Hs Hi.
  apply (load_exact shape ds junk mode false NS sr vis w Hds Hsr); [reflexivity| |exact Hi].
  apply loads_keep; try assumption. eapply stored; eassumption.
Qed.

Lemma read_back_comp : forall shape ds junk mode NS sr vis (w : Z -> Z -> Z -> R) N cf ev ls k s p M,
  0 < ds -> 0 < sr -> (forall n, In n shape -> 0 <= n) -> (forall i, In i vis -> 0 <= i < prodZ shape) ->
  0 <= N -> 0 < cf -> interleaves NS (fun _ => saved_steps sr N cf) ev ->
  Forall (fun e => 0 <= fst e < NS /\ exists s', snd e = s' * sr) ls ->
  0 <= k < NS -> 0 <= s < N ->
  length p = length shape -> (forall d, (d < length shape)%nat -> 0 <= coord d p < nth d shape 0) ->
  let snap i := if in_dec Z.eq_dec i vis then w k s i else 0%R in
  (forall q, length q = length shape -> (forall d, (d < length shape)%nat -> 0 <= coord d q < nth d shape 0) ->
     (forall d, coord d q / 8 = coord d p / 8) -> (Rabs (snap (idx shape q)) <= M)%R) ->
  (Rabs (st1 (load shape ds junk mode true NS sr k (s * sr)
                (run_loads shape ds junk mode true NS sr ls
                   (run_saves shape ds mode true NS sr vis w ev (sinit ds junk))))
             (boff1 shape mode true NS sr k (s * sr) + idx shape p)%Z
         - snap (idx shape p)) <= M / 254)%R.
Proof.
  intros shape ds junk mode NS sr vis w N cf ev ls k s p M Hds Hsr Hsh Hvis HN Hcf Hev Hls Hk Hs Lp Hp snap HM.
  apply (load_comp shape ds junk mode true NS sr vis w Hds Hsr); [reflexivity| | |].
  - apply loads_keep; try assumption. eapply stored; eassumption.
  - apply inb_abox. auto.
  - intros q Hq. apply inb_abox in Hq. destruct Hq. apply HM; assumption.
Qed.

Lemma storage_inside : forall shape ds junk mode comp NS sr vis (w : Z -> Z -> Z -> R) N cf ev k s,
  0 < ds -> 0 < sr -> (forall n, In n shape -> 0 <= n) -> (forall i, In i vis -> 0 <= i < prodZ shape) ->
  0 <= N -> 0 < cf -> interleaves NS (fun _ => saved_steps sr N cf) ev ->
  0 <= k < NS -> 0 <= s < N ->
  (forall i, 0 <= i < prodZ shape ->
     0 <= foff1 shape mode comp NS sr k (s * sr) + i < size1 shape mode comp NS N /\
     0 <= boff1 shape mode comp NS sr k (s * sr) + i < size1 shape mode comp NS N) /\
  (comp = true -> forall j, 0 <= j < bytes_comp shape ds ->
     0 <= foff2 shape ds mode comp NS sr k (s * sr) + j < size2 shape ds mode comp NS N /\
     0 <= boff2 shape ds mode comp NS sr k (s * sr) + j < size2 shape ds mode comp NS N) /\
  (mode = DISK ->
     s * (if comp then bytes_comp shape ds else bytes_uncomp shape ds)
       + (if comp then bytes_comp shape ds else bytes_uncomp shape ds)
     <= fst (fil (run_saves shape ds mode comp NS sr vis w ev (sinit ds junk)) k)).
Proof.
  intros shape ds junk mode comp NS sr vis w N cf ev k s Hds Hsr Hsh Hvis HN Hcf Hev Hk Hs.
  split; [|split].
  - intros i Hi. rewrite foff1_slot, boff1_slot by exact Hsr. split; apply inside1; assumption.
  - intros Hc j Hj. rewrite foff2_slot, boff2_slot by exact Hsr. split; apply inside2; assumption.
  - intros Hm.
    assert (O : slot_ok shape ds mode comp NS vis w k s (run_saves shape ds mode comp NS sr vis w ev (sinit ds junk))).
    { eapply stored; eassumption. }
    unfold slot_ok in O. subst mode. destruct comp; destruct O as [O _]; lia.
Qed.

Lemma compression_error : forall shape ds junk (x : Z -> R) out out' p M,
  0 < ds ->
  length p = length shape -> (forall d, (d < length shape)%nat -> 0 <= coord d p < nth d shape 0) ->
  (forall q, length q = length shape -> (forall d, (d < length shape)%nat -> 0 <= coord d q < nth d shape 0) ->
     (forall d, coord d q / 8 = coord d p / 8) -> (Rabs (x (idx shape q)) <= M)%R) ->
  (Rabs (decompress shape ds junk (compress shape ds x out) out' (idx shape p) - x (idx shape p)) <= M / 254)%R.
Proof.
  intros shape ds junk x out out' p M Hds Lp Hp HM.
  apply (roundtrip_error shape ds junk Hds x out).
  - apply inb_abox. auto.
  - reflexivity.
  - intros q Hq. apply inb_abox in Hq. destruct Hq. apply HM; assumption.
Qed.

Lemma forallb_ext_in' {A} (f g : A -> bool) l : (forall x, In x l -> f x = g x) -> forallb f l = forallb g l.
Proof.
  induction l as [|a l IH]; intros H; [reflexivity|]. cbn. rewrite (H a) by now left.
  f_equal. apply IH. intros; apply H; now right.
Qed.

Lemma compression_size : forall shape ds junk (x : Z -> R) out m m' out',
  0 < ds ->
  (forall j, ~ (0 <= j < bytes_comp shape ds) -> compress shape ds x out j = out j) /\
  ((forall j, 0 <= j < bytes_comp shape ds -> m j = m' j) ->
     forall j, decompress shape ds junk m out' j = decompress shape ds junk m' out' j) /\
  (forall j, ~ (0 <= j < prodZ shape) -> decompress shape ds junk m out' j = out' j) /\
  (let need := prodZ shape + prodZ (map (fun n => (n + 7) / 8) shape) * ds in
   need <= bytes_comp shape ds < need + ds /\ bytes_comp shape ds mod ds = 0).
Proof.
  intros shape ds junk x out m m' out' Hds.
  assert (E : n_blocks shape = prodZ (map (fun n => (n + 7) / 8) shape)).
  { unfold n_blocks, nblk. f_equal. apply map_ext. intros n. f_equal. lia. }
  destruct (bytes_comp_bounds shape ds Hds) as (B1 & B2 & _). unfold n_cells in *.
  split; [|split; [|split]].
  - intros j Hj. apply compress_range; [exact Hds|]. unfold n_cells. lia.
  - intros H j. rewrite !decompress_puts. 
    assert (Ed : forall b, In b (blocks shape) -> dwrites shape ds junk m b = dwrites shape ds junk m' b).
    { intros b Hb. unfold dwrites. apply map_ext_in. intros p Hp.
      pose proof (block_idx_bound shape b Hb) as Bb. apply (In_block _ _ _ Hb) in Hp. destruct Hp as [Hp _].
      pose proof (idx_bound _ _ Hp) as Bp.
      assert (R1 : rd_byte junk m (n_blocks shape * ds + idx shape p) = rd_byte junk m' (n_blocks shape * ds + idx shape p)).
      { unfold rd_byte. rewrite H; [reflexivity|]. nia. }
      assert (R2 : rd_flt ds junk m (idx (nblk shape) b * ds) = rd_flt ds junk m' (idx (nblk shape) b * ds)).
      { unfold rd_flt. rewrite H by nia. destruct (m' (idx (nblk shape) b * ds)) as [y i|]; [|reflexivity].
        match goal with |- (if ?a then _ else _) = (if ?b then _ else _) => assert (Ef : a = b) end.
        { apply forallb_ext_in'. intros i' Hi'. apply In_zrange in Hi'. rewrite H by nia. reflexivity. }
        now rewrite Ef. }
      now rewrite R1, R2. }
    assert (El : flat_map (dwrites shape ds junk m) (blocks shape) = flat_map (dwrites shape ds junk m') (blocks shape)).
    { rewrite !flat_map_concat_map. f_equal. apply map_ext_in. exact Ed. }
    now rewrite El.
  - intros j Hj. apply decompress_range. exact Hj.
  - cbv zeta. rewrite <- E. split; [lia|exact B2].
Qed.

Lemma conversion_range : forall shape (x : Z -> R) b p,
  In b (box_pts (abox (nblk shape))) -> In p (box_pts (block_box shape b)) ->
  (1 <= 128 + x (idx shape p) * scale_of (max_abs shape x b) + 1 / 2 < 256)%R.
Proof.
  intros shape x b p Hb Hp. destruct (max_abs_spec shape x b) as (_ & H & _). specialize (H p Hp).
  generalize dependent (max_abs shape x b). intros m H. unfold scale_of.
  assert (Hi : (- m <= x (idx shape p) <= m)%R)
    by (pose proof (Rle_abs (x (idx shape p))); pose proof (Rle_abs (- x (idx shape p))); rewrite Rabs_Ropp in *; lra).
  destruct (Rlt_dec 0 m) as [Hm|Hm].
  - assert (Hq : (0 < 127 / m)%R) by (apply Rdiv_lt_0_compat; lra).
    assert (E : (m * (127 / m) = 127)%R) by (field; lra). set (q := (127 / m)%R) in *. nra.
  - lra.
Qed.
