(** * Compression of snapshots on a CUDA device.

    Source: simple_compress.cu:18-309.  Floating point numbers are real numbers; memory is as in StorageModel.v, a number in
    the output taking [ds] bytes, each loaded and stored on its own (more interleavings than the device has). *)
From Coq Require Import List ZArith Reals Bool.
From Verif Require Import Grid StorageModel Threads Barrier.
Import ListNotations.
Local Open Scope Z_scope.

(** [input[i]] and [output[i]] of the numbers, [output[j]] of the bytes; [s_max_abs[t]] and the variable [val] of thread [t] of block [b]. *)
Inductive loc := LNum (i : Z) | LByte (j : Z) | LShared (b t : Z) | LVal (b t : Z).
Definition loc_eq (a b : loc) : {a = b} + {a <> b}.
Proof. decide equality; apply Z.eq_dec. Defined.

Section GComp.
Variable shape : list Z.  (* nz, ny, nx *)
Variable ds : Z.          (* sizeof(DW_DTYPE) *)
Variable junk : R.        (* value of bytes that are not one number *)
Variable NS : Z.          (* n_batch *)

Definition num (v : item) : R := match v with Part x _ => x | Byte _ => junk end.
Definition one (x : R) : item := Part x 0.

(** simple_compress.cu:8-14: THREADS_PER_BLOCK. *)
Definition threads : Z := match shape with [_] => 8 | [_; _] => 8 * 8 | _ => 8 * 8 * 8 end.
(** simple_compress.cu:40-47 (with the numbers of blocks), 50-57 (with 8): an index split into one number per dimension. *)
Definition split (s : list Z) (b : Z) : pt :=
  match s with
  | [nx] => [b mod nx]
  | [ny; nx] => [(b / nx) mod ny; b mod nx]
  | [nz; ny; nx] => [b / nx / ny; (b / nx) mod ny; b mod nx]
  | _ => []
  end.
(** simple_compress.cu:231-247, 277-291: the grid is [total_blocks], converted to 32 bits. *)
Definition per_shot : Z := prodZ (nblk shape).
Definition total : Z := NS * per_shot.
Definition grid : Z := total mod 2 ^ 32.
(** simple_compress.cu:59-65: the cell of thread [t] of block [b]. *)
Definition add8 (c : Z * Z) : Z := fst c * 8 + snd c.
Definition gcell (b t : Z) : pt :=
  map add8 (combine (split (nblk shape) (b mod per_shot)) (split (repeat 8 (length shape)) t)).
(** simple_compress.cu:68-75. *)
Fixpoint below (p : pt) (s : list Z) : bool :=
  match p, s with x :: p', n :: s' => (x <? n) && below p' s' | _, _ => true end.
Definition inside (b t : Z) : bool := below (gcell b t) shape.
(** simple_compress.cu:37, 79-91. *)
Definition gidx (b t : Z) : Z := b / per_shot * prodZ shape + idx shape (gcell b t).

(** simple_compress.cu:67-103. *)
Definition start_thread (b t : Z) : prog loc item :=
  let absv x := if Rle_dec 0 x then x else (- x)%R in
  if inside b t
  then Load (LNum (gidx b t)) (fun v => Store (LVal b t) (one (num v)) (Store (LShared b t) (one (absv (num v))) Ret))
  else Store (LVal b t) (one 0%R) (Store (LShared b t) (one (absv 0%R)) Ret).
(** simple_compress.cu:107-112. *)
Definition reduce_thread (b s t : Z) : prog loc item :=
  if t <? s
  then Load (LShared b (t + s)) (fun x => Load (LShared b t) (fun y =>
         if Rlt_dec (num y) (num x) then Load (LShared b (t + s)) (fun x' => Store (LShared b t) (one (num x')) Ret) else Ret))
  else Ret.
(** simple_compress.cu:106: for (s = T / 2; s > 0; s >>= 1). *)
Fixpoint halvings (fuel : nat) (s : Z) : list Z :=
  match fuel with O => [] | S n => if 0 <? s then s :: halvings n (s / 2) else [] end.
(** A number stored to [ds] bytes. *)
Fixpoint store_bytes (k : Z) (x : R) (is : list Z) (p : prog loc item) : prog loc item :=
  match is with [] => p | i :: is' => Store (LByte (k + i)) (Part x i) (store_bytes k x is' p) end.
(** simple_compress.cu:115-130. *)
Definition finish_thread (b t : Z) : prog loc item :=
  Load (LShared b 0) (fun mv =>
    let m := num mv in
    bind (if t =? 0 then store_bytes (b * ds) m (zrange 0 ds) Ret else Ret)
         (if inside b t
          then Load (LVal b t) (fun v => Store (LByte (grid * ds + gidx b t)) (Byte (u8 (128 + num v * scale_of m + 1 / 2)%R)) Ret)
          else Ret)).
(** simple_compress.cu:19-131: the block, from barrier to barrier. *)
Definition ts : list Z := zrange 0 threads.
Definition compress_block (b : Z) : list (prog loc item) * list (list (prog loc item)) :=
  (map (start_thread b) ts,
   map (fun s => map (reduce_thread b s) ts) (halvings (Z.to_nat threads) (threads / 2)) ++ [map (finish_thread b) ts]).
(** simple_compress.cu:220-265. *)
Definition compress_cuda (m m' : Threads.mem loc item) : Prop := bexec loc_eq (map compress_block (zrange 0 grid)) m m'.

(** Loading a number from [ds] bytes: [rd_flt] of what they contain. *)
Fixpoint load_bytes (k : Z) (is : list Z) (M : StorageModel.mem) (p : StorageModel.mem -> prog loc item) : prog loc item :=
  match is with [] => p M | i :: is' => Load (LByte (k + i)) (fun v => load_bytes k is' (StorageModel.put M (k + i) v) p) end.
(** simple_compress.cu:134-215. *)
Definition decompress_thread (b t : Z) : prog loc item :=
  if inside b t
  then load_bytes (b * ds) (zrange 0 ds) (fun _ => Byte 0) (fun M =>
         let scale := (rd_flt ds junk M (b * ds) / 127)%R in
         Load (LByte (grid * ds + gidx b t)) (fun v =>
           Store (LNum (gidx b t)) (one ((rd_byte junk (fun _ => v) 0 - 128) * scale)%R) Ret))
  else Ret.
(** simple_compress.cu:267-309. *)
Definition decompress_cuda (m m' : Threads.mem loc item) : Prop :=
  bexec loc_eq (map (fun b => (map (decompress_thread b) ts, [])) (zrange 0 grid)) m m'.
End GComp.
