(** * Properties of snapshot storage and compression (C23, C24) *)
From Coq Require Import List ZArith Reals Lia Lra Bool.
From Verif Require Import Ops Grid ScalarModel ShotsModel StorageModel Storage Storage2 StorageThm.
Import ListNotations.
Local Open Scope Z_scope.

(** Without compression, the backward pass finds in its buffer, for step [s * sr] of shot [k],
    exactly what the forward pass computed for that step and shot (zero in the cells it does not
    visit), whatever the shots' order of execution, the chunking [cf] of the forward pass, and the
    loads [ls] made before. *)
Theorem C23_read_back : forall shape ds junk mode NS sr vis (w : Z -> Z -> Z -> R) N cf ev ls k s i,
  0 < ds -> 0 < sr -> (forall n, In n shape -> 0 <= n) -> (forall i, In i vis -> 0 <= i < prodZ shape) ->
  0 <= N -> 0 < cf -> interleaves NS (fun _ => saved_steps sr N cf) ev ->
  Forall (fun e => 0 <= fst e < NS /\ exists s', snd e = s' * sr) ls ->
  0 <= k < NS -> 0 <= s < N -> 0 <= i < prodZ shape ->
  st1 (load shape ds junk mode false NS sr k (s * sr)
         (run_loads shape ds junk mode false NS sr ls
            (run_saves shape ds mode false NS sr vis w ev (sinit ds junk))))
      (boff1 shape mode false NS sr k (s * sr) + i)
  = if in_dec Z.eq_dec i vis then w k s i else 0%R.
Proof. exact read_back. Qed.
Print Assumptions C23_read_back.

(** A 2-D grid of 3 x 2 cells, two shots, three snapshots at every second step, saved in two chunks. *)
Example C23_read_back_example : forall mode w,
  let ev := [(1, 0); (0, 0); (1, 2); (0, 2); (0, 4); (1, 4)] in
  interleaves 2 (fun _ => saved_steps 2 3 2) ev /\
  st1 (load [3; 2] 4 7%R mode false 2 2 1 (1 * 2)
         (run_loads [3; 2] 4 7%R mode false 2 2 [(0, 2 * 2); (1, 2 * 2)]
            (run_saves [3; 2] 4 mode false 2 2 [2; 3] w ev (sinit 4 7%R))))
      (boff1 [3; 2] mode false 2 2 1 (1 * 2) + 3) = w 1 1 3.
Proof.
  intros mode w ev.
  assert (H : interleaves 2 (fun _ => saved_steps 2 3 2) ev).
  { split.
    - unfold ev. repeat (constructor; [cbn; lia|]). constructor.
    - intros k Hk. assert (k = 0 \/ k = 1) as [-> | ->] by lia; reflexivity. }
  split; [exact H|].
  rewrite (C23_read_back [3; 2] 4 7%R mode 2 2 [2; 3] w 3 2 ev); try lia.
  - reflexivity.
  - intros n [<-|[<-|[]]]; lia.
  - intros i [<-|[<-|[]]]; cbn; lia.
  - exact H.
  - repeat constructor; cbn; try lia; eexists; reflexivity.
  - cbn; lia.
Qed.

(** Every element and byte of the snapshot buffers that is read or written lies inside the
    allocation, and every read of a file lies inside what was written to it; with and without
    compression. *)
Theorem C23_inside : forall shape ds junk mode comp NS sr vis (w : Z -> Z -> Z -> R) N cf ev k s,
  0 < ds -> 0 < sr -> (forall n, In n shape -> 0 <= n) -> (forall i, In i vis -> 0 <= i < prodZ shape) ->
  0 <= N -> 0 < cf -> interleaves NS (fun _ => saved_steps sr N cf) ev ->
  0 <= k < NS -> 0 <= s < N ->
  (forall i, 0 <= i < prodZ shape ->
     0 <= foff1 shape mode comp NS sr k (s * sr) + i < size1 shape mode comp NS N /\
     0 <= boff1 shape mode comp NS sr k (s * sr) + i < size1 shape mode comp NS N) /\
  (comp = true -> forall j, 0 <= j < bytes_comp shape ds ->
     0 <= foff2 shape ds mode comp NS sr k (s * sr) + j < size2 shape ds mode comp NS N /\
     0 <= boff2 shape ds mode comp NS sr k (s * sr) + j < size2 shape ds mode comp NS N) /\
  (mode = DISK ->
     s * (if comp then bytes_comp shape ds else bytes_uncomp shape ds)
       + (if comp then bytes_comp shape ds else bytes_uncomp shape ds)
     <= fst (fil (run_saves shape ds mode comp NS sr vis w ev (sinit ds junk)) k)).
Proof. exact storage_inside. Qed.
Print Assumptions C23_inside.

Example C23_inside_example :
  let ev := [(1, 0); (0, 0); (1, 2); (0, 2); (0, 4); (1, 4)] in
  72 <= fst (fil (run_saves [3; 2] 4 DISK false 2 2 [2; 3] (fun _ _ _ => 1%R) ev (sinit 4 7%R)) 1).
Proof.
  intros ev.
  assert (H : interleaves 2 (fun _ => saved_steps 2 3 2) ev).
  { split.
    - unfold ev. repeat (constructor; [cbn; lia|]). constructor.
    - intros k Hk. assert (k = 0 \/ k = 1) as [-> | ->] by lia; reflexivity. }
  destruct (C23_inside [3; 2] 4 7%R DISK false 2 2 [2; 3] (fun _ _ _ => 1%R) 3 2 ev 1 2) as (_ & _ & F); try lia.
  - intros n [<-|[<-|[]]]; lia.
  - intros i [<-|[<-|[]]]; cbn; lia.
  - exact H.
  - exact (F eq_refl).
Qed.

(** Compression: in exact arithmetic the decompressed value differs from the original by at most
    1/254 of any bound on the magnitudes in its block of 8 cells per dimension. *)
Theorem C24_error : forall shape ds junk (x : Z -> R) out out' p M,
  0 < ds ->
  length p = length shape -> (forall d, (d < length shape)%nat -> 0 <= coord d p < nth d shape 0) ->
  (forall q, length q = length shape -> (forall d, (d < length shape)%nat -> 0 <= coord d q < nth d shape 0) ->
     (forall d, coord d q / 8 = coord d p / 8) -> (Rabs (x (idx shape q)) <= M)%R) ->
  (Rabs (decompress shape ds junk (compress shape ds x out) out' (idx shape p) - x (idx shape p)) <= M / 254)%R.
Proof. exact compression_error. Qed.
Print Assumptions C24_error.

(** The block of the last cell of a 9 x 10 grid has two cells. *)
Example C24_error_example :
  let y := decompress [9; 10] 4 7%R (compress [9; 10] 4 (fun i => IZR (45 - i)) (fun _ => Byte 3)) (fun _ => 0%R) 89 in
  (Rabs (y - -44) <= 44 / 254)%R.
Proof.
  intros y. apply (C24_error [9; 10] 4 7%R (fun i => IZR (45 - i)) (fun _ => Byte 3) (fun _ => 0%R) [8; 9] 44%R); try lia.
  - reflexivity.
  - intros [|[|d]] Hd; cbn in *; lia.
  - intros q Hl Hq Hb. destruct q as [|a [|b [|? ?]]]; try discriminate.
    pose proof (Hq 0%nat ltac:(cbn; lia)) as H1. pose proof (Hq 1%nat ltac:(cbn; lia)) as H2.
    pose proof (Hb 0%nat) as H3. pose proof (Hb 1%nat) as H4. cbn in H1, H2.
    change (a / 8 = 1) in H3. change (b / 8 = 1) in H4.
    assert (a = 8) by (pose proof (Z.div_mod a 8); pose proof (Z.mod_pos_bound a 8); lia).
    assert (b = 8 \/ b = 9) as [-> | ->] by (pose proof (Z.div_mod b 8); pose proof (Z.mod_pos_bound b 8); lia);
      subst a; [change (Rabs (-43) <= 44)%R|change (Rabs (-44) <= 44)%R]; rewrite Rabs_left; lra.
Qed.

(** The compressed snapshot fits the bytes reserved for it: nothing outside them is written, and
    decompression depends on nothing else; the number of bytes reserved is one per cell plus one
    number per block, rounded up to whole numbers. *)
Theorem C24_size : forall shape ds junk (x : Z -> R) out m m' out',
  0 < ds ->
  (forall j, ~ (0 <= j < bytes_comp shape ds) -> compress shape ds x out j = out j) /\
  ((forall j, 0 <= j < bytes_comp shape ds -> m j = m' j) ->
     forall j, decompress shape ds junk m out' j = decompress shape ds junk m' out' j) /\
  (forall j, ~ (0 <= j < prodZ shape) -> decompress shape ds junk m out' j = out' j) /\
  (let need := prodZ shape + prodZ (map (fun n => (n + 7) / 8) shape) * ds in
   need <= bytes_comp shape ds < need + ds /\ bytes_comp shape ds mod ds = 0).
Proof. exact compression_size. Qed.
Print Assumptions C24_size.

Example C24_size_example : bytes_comp [9; 10] 8 = 128.
Proof. reflexivity. Qed.

(** The number converted to [uint8_t] is in the range of that type. *)
Theorem C24_conversion : forall shape (x : Z -> R) b p,
  In b (box_pts (abox (nblk shape))) -> In p (box_pts (block_box shape b)) ->
  (1 <= 128 + x (idx shape p) * scale_of (max_abs shape x b) + 1 / 2 < 256)%R.
Proof. exact conversion_range. Qed.
Print Assumptions C24_conversion.

Example C24_conversion_example :
  In [1; 1] (box_pts (abox (nblk [9; 10]))) /\ In [8; 9] (box_pts (block_box [9; 10] [1; 1])).
Proof. split; apply In_box_pts; reflexivity. Qed.

(** With compression, what the backward pass finds in its buffer differs from what the forward pass
    computed by at most 1/254 of any bound on the magnitudes in the block. *)
Theorem C24_read_back : forall shape ds junk mode NS sr vis (w : Z -> Z -> Z -> R) N cf ev ls k s p M,
  0 < ds -> 0 < sr -> (forall n, In n shape -> 0 <= n) -> (forall i, In i vis -> 0 <= i < prodZ shape) ->
  0 <= N -> 0 < cf -> interleaves NS (fun _ => saved_steps sr N cf) ev ->
  Forall (fun e => 0 <= fst e < NS /\ exists s', snd e = s' * sr) ls ->
  0 <= k < NS -> 0 <= s < N ->
  length p = length shape -> (forall d, (d < length shape)%nat -> 0 <= coord d p < nth d shape 0) ->
  let snap i := if in_dec Z.eq_dec i vis then w k s i else 0%R in
  (forall q, length q = length shape -> (forall d, (d < length shape)%nat -> 0 <= coord d q < nth d shape 0) ->
     (forall d, coord d q / 8 = coord d p / 8) -> (Rabs (snap (idx shape q)) <= M)%R) ->
  (Rabs (st1 (load shape ds junk mode true NS sr k (s * sr)
                (run_loads shape ds junk mode true NS sr ls
                   (run_saves shape ds mode true NS sr vis w ev (sinit ds junk))))
             (boff1 shape mode true NS sr k (s * sr) + idx shape p)%Z
         - snap (idx shape p)) <= M / 254)%R.
Proof. exact read_back_comp. Qed.
Print Assumptions C24_read_back.

Example C24_read_back_example : forall mode,
  let ev := [(1, 0); (0, 0); (1, 2); (0, 2); (0, 4); (1, 4)] in
  let y := st1 (load [3; 2] 4 7%R mode true 2 2 1 (1 * 2)
                  (run_loads [3; 2] 4 7%R mode true 2 2 [(0, 2 * 2); (1, 2 * 2)]
                     (run_saves [3; 2] 4 mode true 2 2 [2; 3] (fun k s i => IZR (k + s + i)) ev (sinit 4 7%R))))
               (boff1 [3; 2] mode true 2 2 1 (1 * 2) + 3) in
  (Rabs (y - 5) <= 5 / 254)%R.
Proof.
  intros mode ev y.
  assert (H : interleaves 2 (fun _ => saved_steps 2 3 2) ev).
  { split.
    - unfold ev. repeat (constructor; [cbn; lia|]). constructor.
    - intros k Hk. assert (k = 0 \/ k = 1) as [-> | ->] by lia; reflexivity. }
  apply (C24_read_back [3; 2] 4 7%R mode 2 2 [2; 3] (fun k s i => IZR (k + s + i)) 3 2 ev
           [(0, 2 * 2); (1, 2 * 2)] 1 1 [1; 1] 5%R); try lia.
  - intros n [<-|[<-|[]]]; lia.
  - intros i [<-|[<-|[]]]; cbn; lia.
  - exact H.
  - repeat constructor; cbn; try lia; eexists; reflexivity.
  - reflexivity.
  - intros [|[|d]] Hd; cbn in *; lia.
  - intros q _ _ _. generalize (idx [3; 2] q). intros i. cbv beta.
    destruct (in_dec Z.eq_dec i [2; 3]) as [[<-|[<-|[]]]|_].
    + change (Rabs 4 <= 5)%R. rewrite Rabs_pos_eq; lra.
    + change (Rabs 5 <= 5)%R. rewrite Rabs_pos_eq; lra.
    + rewrite Rabs_R0. lra.
Qed.
