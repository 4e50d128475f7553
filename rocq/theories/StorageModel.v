(** * Snapshot storage on the CPU: compression, buffers and files.

    Sources: simple_compress.c:15-217, storage_utils.c:11-85, common.py:116-291 (StorageManager),
    scalar.c:258-300, 396-404, 538-594 (the pointers passed and the sampled steps).  Floating point
    numbers are real numbers.  Memory is indexed by byte; reading a floating point number whose bytes do not all belong to
    one number gives the arbitrary value [junk].  On the CPU backend the mode "cpu"
    is replaced by "device" (scalar.py:668-669); "none" turns the gradient off (scalar.py:903). *)
From Coq Require Import List ZArith Reals Lia Bool.
From Verif Require Import Ops Grid ScalarModel.
Import ListNotations.
Local Open Scope Z_scope.

(** One byte of memory: byte [i] of the floating point number [x], or a [uint8_t]. *)
Inductive item := Part (x : R) (i : Z) | Byte (z : Z).
Definition mem := Z -> item.
Definition put (m : mem) (k : Z) (x : item) : mem := fun j => if j =? k then x else m j.
Definition upr (a : Z -> R) (k : Z) (x : R) : Z -> R := fun j => if j =? k then x else a j.

(** Conversion of a real number to [uint8_t]: truncation (of a non-negative number) modulo 256;
    simple_compress.c:112. *)
Definition u8 (y : R) : Z := Int_part y mod 256.

Section Comp.
Variable shape : list Z.  (* nz, ny, nx *)
Variable ds : Z.          (* sizeof(DW_DTYPE) *)
Variable junk : R.        (* value of bytes that are not one number *)

(** Writing and reading a floating point number at byte [k]. *)
Definition put_flt (m : mem) (k : Z) (x : R) : mem :=
  fold_left (fun m i => put m (k + i) (Part x i)) (zrange 0 ds) m.
Definition rd_flt (m : mem) (k : Z) : R :=
  match m k with
  | Part x _ =>
      if forallb (fun i => match m (k + i) with
                           | Part y j => (j =? i) && (if Req_EM_T y x then true else false)
                           | Byte _ => false
                           end) (zrange 0 ds)
      then x else junk
  | Byte _ => junk
  end.
Definition rd_byte (m : mem) (k : Z) : R := match m k with Byte z => IZR z | Part _ _ => junk end.

(** simple_compress.c:24-35: blocks of 8 along every dimension. *)
Definition nblk : list Z := map (fun n => (n + 8 - 1) / 8) shape.
Definition n_blocks : Z := prodZ nblk.

(** simple_compress.c:41-64: the cells of block [b]. *)
Fixpoint block_box (s : list Z) (b : pt) : box :=
  match s, b with
  | n :: s', x :: b' => (x * 8, if x * 8 + 8 <? n then x * 8 + 8 else n) :: block_box s' b'
  | _, _ => []
  end.

(** simple_compress.c:59-87: maximum absolute value in the block. *)
Definition max_abs (inp : Z -> R) (b : pt) : R :=
  fold_left (fun m p => if Rlt_dec m (Rabs (inp (idx shape p))) then Rabs (inp (idx shape p)) else m)
            (box_pts (block_box shape b)) 0%R.

(** simple_compress.c:92-93. *)
Definition scale_of (m : R) : R := if Rlt_dec 0 m then (127 / m)%R else 0%R.

(** simple_compress.c:111-112. *)
Definition code (inp : Z -> R) (m : R) (i : Z) : Z := u8 (128 + inp i * scale_of m + 1 / 2)%R.

(** simple_compress.c:58-127, one block: header, then one byte per cell behind all headers. *)
Definition compress_block (inp : Z -> R) (out : mem) (b : pt) : mem :=
  let m := max_abs inp b in
  fold_left (fun o p => put o (n_blocks * ds + idx shape p) (Byte (code inp m (idx shape p))))
            (box_pts (block_box shape b)) (put_flt out (idx nblk b * ds) m).

(** simple_compress.c:15-135. *)
Definition compress (inp : Z -> R) (out : mem) : mem :=
  fold_left (compress_block inp) (box_pts (map (fun n => (0, n)) nblk)) out.

(** simple_compress.c:138-217. *)
Definition decompress_block (inp : mem) (out : Z -> R) (b : pt) : Z -> R :=
  let scale := (rd_flt inp (idx nblk b * ds) / 127)%R in
  fold_left (fun o p => upr o (idx shape p) ((rd_byte inp (n_blocks * ds + idx shape p) - 128) * scale)%R)
            (box_pts (block_box shape b)) out.
Definition decompress (inp : mem) (out : Z -> R) : Z -> R :=
  fold_left (decompress_block inp) (box_pts (map (fun n => (0, n)) nblk)) out.

(** common.py:158-173: bytes of one snapshot of one shot. *)
Definition n_cells : Z := prodZ shape.
Definition bytes_uncomp : Z := n_cells * ds.
Definition bytes_comp : Z :=
  (n_cells + fold_left (fun a n => a * ((n + 7) / 8)) shape 1 * ds + ds - 1) / ds * ds.

(** ** Buffers *)

Inductive smode := DEVICE | DISK.

(** [st1], [st2]: the tensors [store_1a], [store_2]; [fil k]: length and contents of the file of
    shot [k]. *)
Record sst := mksst { st1 : Z -> R; st2 : mem; fil : Z -> Z * mem }.

Variable mode : smode.
Variable comp : bool.     (* storage_compression *)
Variable NS : Z.          (* n_shots *)
Variable sr : Z.          (* step_ratio *)
Variable vis : list Z.    (* the cells the kernel visits *)

(** scalar.c:284-295 (forward): elements, respectively bytes, from the start of the tensor. *)
Definition foff1 (k t : Z) : Z :=
  k * n_cells + match mode, comp with DEVICE, false => t / sr * NS * n_cells | _, _ => 0 end.
Definition foff2 (k t : Z) : Z :=
  (k + match mode, comp with DEVICE, true => t / sr * NS | _, _ => 0 end) * bytes_comp.

(** scalar.c:570-581 (backward). *)
Definition boff1 (k t : Z) : Z :=
  k * n_cells + match mode, comp with DEVICE, false => t / sr * NS * n_cells | _, _ => 0 end.
Definition boff2 (k t : Z) : Z :=
  (k + match mode, comp with DEVICE, true => t / sr * NS | _, _ => 0 end) * bytes_comp.

(** The bytes of an array of floating point numbers. *)
Definition flt_bytes (a : Z -> R) : mem := fun j => Part (a (j / ds)) (j mod ds).

(** [fwrite] on a file opened with mode "ab" (scalar.c:260): the position set by [fseek] is
    ignored, the bytes are appended. *)
Definition append (f : Z * mem) (src : mem) (size : Z) : Z * mem :=
  (fst f + size, fun j => if (fst f <=? j) && (j <? fst f + size) then src (j - fst f) else snd f j).

(** The cells of a sampled step [t] of shot [k] are written to [store_1] (scalar.c:392-394), then
    [save_snapshot_cpu] is called (scalar.c:399-404, storage_utils.c:11-49). *)
Definition save (w : Z -> R) (k t : Z) (M : sst) : sst :=
  let o1 := foff1 k t in
  let o2 := foff2 k t in
  let a := fold_left (fun a i => upr a (o1 + i) (w i)) vis (st1 M) in
  let b := if comp then (fun j => compress (fun i => a (o1 + i)) (fun j => st2 M (o2 + j)) (j - o2)) else st2 M in
  let f := match mode with
           | DISK => fun q => if q =? k
                              then if comp then append (fil M k) (fun j => b (o2 + j)) bytes_comp
                                   else append (fil M k) (flt_bytes (fun i => a (o1 + i))) bytes_uncomp
                              else fil M q
           | DEVICE => fil M
           end in
  mksst a b f.

(** [load_snapshot_cpu] (storage_utils.c:51-85); the file is opened with mode "rb". *)
Definition load (k t : Z) (M : sst) : sst :=
  let o1 := boff1 k t in
  let o2 := boff2 k t in
  let step := t / sr in
  let F j := snd (fil M k) j in
  let b := match mode, comp with
           | DISK, true => fun j => if (o2 <=? j) && (j <? o2 + bytes_comp) then F (step * bytes_comp + (j - o2)) else st2 M j
           | _, _ => st2 M
           end in
  let a := match mode, comp with
           | DISK, false => fun j => if (o1 <=? j) && (j <? o1 + n_cells)
                                     then rd_flt F (step * bytes_uncomp + (j - o1) * ds) else st1 M j
           | _, _ => st1 M
           end in
  mksst (if comp then fun j => decompress (fun j => b (o2 + j)) (fun i => a (o1 + i)) (j - o1) else a) b (fil M).

(** The sampled steps of one shot: every call of the kernel makes [step_nt * step_ratio] steps from
    [step * step_ratio] on (scalar.py:843-921) and stores those divisible by [step_ratio]
    (scalar.c:297). *)
Definition saved_steps (N cf : Z) : list Z :=
  flat_map (fun s => filter (fun t => t mod sr =? 0) (zrange (s * sr) (s * sr + Z.min (N - s) cf * sr)))
           (range_up N cf).

(** Tensors are allocated with zeros, files do not exist before (common.py:183-287). *)
Definition sinit : sst := mksst (fun _ => 0%R) (flt_bytes (fun _ => 0%R)) (fun _ => (0, flt_bytes (fun _ => junk))).

(** The shots are processed by several threads; the events of one shot stay in order. *)
Definition run_saves (w : Z -> Z -> Z -> R) (ev : list (Z * Z)) (M : sst) : sst :=
  fold_left (fun M e => save (w (fst e) (snd e / sr)) (fst e) (snd e) M) ev M.
Definition run_loads (ev : list (Z * Z)) (M : sst) : sst :=
  fold_left (fun M e => load (fst e) (snd e) M) ev M.

(** Elements of [store_1a], bytes of [store_2] (common.py:187-214, 254-276). *)
Definition size1 (N : Z) : Z := match mode, comp with DEVICE, false => N * NS * n_cells | _, _ => NS * n_cells end.
Definition size2 (N : Z) : Z :=
  match comp with
  | true => match mode with DEVICE => N * NS * (bytes_comp / ds) * ds | DISK => NS * (bytes_comp / ds) * ds end
  | false => 0
  end.
End Comp.
