(** * Properties of compression on a CUDA device (C62) *)
From Coq Require Import List ZArith Reals Lia Lra Bool.
From Verif Require Import Grid StorageModel Threads Barrier GpuCompModel GpuComp3.
Import ListNotations.
Local Open Scope Z_scope.

(** In every execution of the two kernels, a snapshot of all shots compressed by the device and decompressed by it is, for each
    shot, the one the CPU gets by compressing and decompressing that shot alone.  Between the two kernels only the bytes reserved for the snapshot are kept. *)
Theorem C62_as_cpu : forall shape ds junk NS, (1 <= length shape <= 3)%nat -> (forall n, In n shape -> 0 < n) -> 0 < ds ->
  0 < NS * prodZ (map (fun n => (n + 7) / 8) shape) < 2 ^ 31 ->
  forall m m1 m' m2, compress_cuda shape ds junk NS m m1 -> decompress_cuda shape ds junk NS m' m2 ->
  (forall j, 0 <= j < NS * bytes_comp shape ds -> m' (LByte j) = m1 (LByte j)) ->
  forall k p out out', 0 <= k < NS -> inb (abox shape) p = true ->
  m2 (LNum (k * prodZ shape + idx shape p)) =
  Part (decompress shape ds junk (compress shape ds (fun i => num junk (m (LNum (k * prodZ shape + i)))) out) out' (idx shape p)) 0.
Proof. exact cuda_roundtrip. Qed.
Print Assumptions C62_as_cpu.

(** Its error is at most 1/254 of the largest magnitude in the block of the cell, in that shot. *)
Theorem C62_error : forall shape ds junk NS, (1 <= length shape <= 3)%nat -> (forall n, In n shape -> 0 < n) -> 0 < ds ->
  0 < NS * prodZ (map (fun n => (n + 7) / 8) shape) < 2 ^ 31 ->
  forall m m1 m' m2, compress_cuda shape ds junk NS m m1 -> decompress_cuda shape ds junk NS m' m2 ->
  (forall j, 0 <= j < NS * bytes_comp shape ds -> m' (LByte j) = m1 (LByte j)) ->
  forall k p M, 0 <= k < NS -> length p = length shape -> (forall d, (d < length shape)%nat -> 0 <= coord d p < nth d shape 0) ->
  (forall q, length q = length shape -> (forall d, (d < length shape)%nat -> 0 <= coord d q < nth d shape 0) ->
     (forall d, coord d q / 8 = coord d p / 8) -> (Rabs (num junk (m (LNum (k * prodZ shape + idx shape q)))) <= M)%R) ->
  (Rabs (num junk (m2 (LNum (k * prodZ shape + idx shape p))) - num junk (m (LNum (k * prodZ shape + idx shape p)))) <= M / 254)%R.
Proof. exact cuda_error. Qed.
Print Assumptions C62_error.

(** The kernels change nothing outside the bytes reserved for the snapshots of all shots (and their own shared memory and variables), and nothing outside the snapshot. *)
Theorem C62_inside : forall shape ds junk NS, (1 <= length shape <= 3)%nat -> (forall n, In n shape -> 0 < n) -> 0 < ds ->
  0 < NS * prodZ (map (fun n => (n + 7) / 8) shape) < 2 ^ 31 ->
  forall m m1,
  (compress_cuda shape ds junk NS m m1 -> forall l, match l with LByte j => 0 <= j < NS * bytes_comp shape ds | LNum _ => False | _ => True end \/ m1 l = m l) /\
  (decompress_cuda shape ds junk NS m m1 -> forall l, match l with LNum i => 0 <= i < NS * prodZ shape | _ => False end \/ m1 l = m l).
Proof. exact cuda_inside. Qed.
Print Assumptions C62_inside.

(** Two shots of 9 x 10 cells: executions exist, and the last cell of the second shot, in a block of two cells, has the error of its block. *)
Definition gcx (l : loc) : item := match l with LNum i => Part (IZR (135 - i)) 0 | _ => Byte 3 end.
Example gpu_compression_example : exists m1 m2, compress_cuda [9; 10] 4 7%R 2 gcx m1 /\ decompress_cuda [9; 10] 4 7%R 2 m1 m2 /\
  (Rabs (num 7%R (m2 (LNum 179)) - -44) <= 44 / 254)%R /\
  m2 (LNum 179) = Part (decompress [9; 10] 4 7%R (compress [9; 10] 4 (fun i => IZR (135 - (90 + i))) (fun _ => Byte 0)) (fun _ => 0%R) 89) 0 /\
  m2 (LNum 180) = Part (IZR (-45)) 0.
Proof.
  destruct (proj1 (cuda_exists [9; 10] 4 7%R 2 gcx)) as (m1 & H1). destruct (proj2 (cuda_exists [9; 10] 4 7%R 2 m1)) as (m2 & H2). exists m1, m2. split; [exact H1|]. split; [exact H2|].
  assert (D : (1 <= length [9; 10] <= 3)%nat) by (cbn; lia). assert (P : forall n, In n [9; 10] -> 0 < n) by (intros n [<-|[<-|[]]]; lia).
  assert (Q : 0 < 2 * prodZ (map (fun n => (n + 7) / 8) [9; 10]) < 2 ^ 31) by (split; reflexivity).
  split; [|split].
  - refine (C62_error [9; 10] 4 7%R 2 D P ltac:(lia) Q gcx m1 m1 m2 H1 H2 ltac:(reflexivity) 1 [8; 9] 44%R ltac:(lia) eq_refl _ _).
    + intros [|[|d]] Hd; cbn in *; lia.
    + intros q Hl Hq Hb. destruct q as [|a [|b [|? ?]]]; try discriminate.
      pose proof (Hq 0%nat ltac:(cbn; lia)) as X1. pose proof (Hq 1%nat ltac:(cbn; lia)) as X2. pose proof (Hb 0%nat) as X3. pose proof (Hb 1%nat) as X4. cbn in X1, X2.
      change (a / 8 = 1) in X3. change (b / 8 = 1) in X4.
      assert (a = 8) by (pose proof (Z.div_mod a 8); pose proof (Z.mod_pos_bound a 8); lia).
      assert (b = 8 \/ b = 9) as [-> | ->] by (pose proof (Z.div_mod b 8); pose proof (Z.mod_pos_bound b 8); lia);
        subst a; [change (Rabs (-43) <= 44)%R|change (Rabs (-44) <= 44)%R]; rewrite Rabs_left; lra.
  - exact (C62_as_cpu [9; 10] 4 7%R 2 D P ltac:(lia) Q gcx m1 m1 m2 H1 H2 ltac:(reflexivity) 1 [8; 9] (fun _ => Byte 0) (fun _ => 0%R) ltac:(lia) eq_refl).
  - destruct (proj2 (C62_inside [9; 10] 4 7%R 2 D P ltac:(lia) Q m1 m2) H2 (LNum 180)) as [X|X]; [cbn in X; lia|]. rewrite X.
    destruct (proj1 (C62_inside [9; 10] 4 7%R 2 D P ltac:(lia) Q gcx m1) H1 (LNum 180)) as [Y|Y]; [destruct Y|]. exact Y.
Qed.
