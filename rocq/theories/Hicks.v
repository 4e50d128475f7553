(** * Interpolation of off-grid locations (location_interpolation.py): model.

    Weights are values of two unspecified functions of the offset (monopole: windowed sinc, dipole: its
    derivative; lines 83-99); everything else is modelled as written: cells, cache of weights and its
    modification by the folding at free surfaces, merging of shared cells, [source] and [receiver].
    Simplifications: the computations made with Python floats (distance to the nearest cell, cache key, free
    surfaces) are exact; one time sample; type and shape checks are left out.  Tensor computations use the
    arithmetic [A]: exact, or binary32 as specified by the standard library ([SpecFloat]). *)
From Coq Require Import List ZArith QArith Qround Lia Bool Floats.SpecFloat.
From Verif Require Import Ops Sums Grid ScalarModel.
Import ListNotations.

(** Arithmetic of tensors: value (as used on the Python side), conversion of integers, [+], [-], [.long()]. *)
Record arith := mkarith {
  num : Type;
  toQ : num -> Q;
  n_of : Z -> num;
  n_add : num -> num -> num;
  n_sub : num -> num -> num;
  n_trunc : num -> Z
}.

(** [int(q)]. *)
Definition qtrunc (q : Q) : Z := Z.quot (Qnum q) (QDen q).
(** [round(q)] (ties to even). *)
Definition qround (q : Q) : Z :=
  let f := Qfloor q in
  match Qcompare (q - inject_Z f) (1#2) with
  | Lt => f
  | Gt => (f + 1)%Z
  | Eq => if Z.even f then f else (f + 1)%Z
  end.
Definition qabs (q : Q) : Q := if Qle_bool 0 q then q else - q.
Definition qlt (a b : Q) : bool := negb (Qle_bool b a).
(** [math.isclose(round(q), q)] with the default [rel_tol=1e-9]. *)
Definition q_isint (q : Q) : bool :=
  let r := inject_Z (qround q) in
  let m := if Qle_bool (qabs r) (qabs q) then qabs q else qabs r in
  Qle_bool (qabs (r - q)) ((1#1000000000) * m).

Definition exact : arith := mkarith Q (fun q => q) inject_Z Qplus Qminus qtrunc.

(** binary32. *)
Definition sf_of (z : Z) : spec_float := binary_normalize 24 128 z 0 false.
Definition sf_trunc (f : spec_float) : Z :=
  match f with
  | S754_finite s m e => let a := (if (0 <=? e)%Z then Zpos m * 2 ^ e else Zpos m / 2 ^ (- e))%Z in if s then (- a)%Z else a
  | _ => 0%Z
  end.
Definition sf_Q (f : spec_float) : Q :=
  match f with
  | S754_finite s m e =>
      let a := if (0 <=? e)%Z then inject_Z (Zpos m * 2 ^ e) else (Zpos m # Z.to_pos (2 ^ (- e))) in
      if s then - a else a
  | _ => 0
  end.
Definition f32 : arith := mkarith spec_float sf_Q sf_of (SFadd 24 128) (SFsub 24 128) sf_trunc.

Local Open Scope K_scope.
Section Hicks.
Variable A : arith.
Variable K : ops.
(** Weight of a monopole ([true]) or dipole at an offset (lines 83-99). *)
Variable wf : bool -> num A -> K.
Variable hw : Z.        (* [halfwidth] *)
Variable eps : Q.

(** [x] (lines 66-75) and [locations = (location + x).long()] (line 76). *)
Definition offsets (l : num A) : list (num A) :=
  map (fun k => n_add A (n_sub A (n_of A k) l) (n_of A (qtrunc (toQ A l)))) (zrange (- hw + 1) (hw + 1)).
Definition wcells (l : num A) : list Z := map (fun x => n_trunc A (n_add A l x)) (offsets l).

(** [hicks_weight_cache]; [halfwidth] is the same for all entries. *)
Definition key := (Z * bool)%type.
Definition key_of (l : num A) (mono : bool) : key :=
  (qtrunc ((toQ A l - inject_Z (qtrunc (toQ A l))) / eps), mono).
Definition key_eqb (a b : key) : bool := (fst a =? fst b)%Z && Bool.eqb (snd a) (snd b).
Definition cache := list (key * list K).
Definition cget (c : cache) (k : key) : option (list K) :=
  option_map snd (find (fun e => key_eqb (fst e) k) c).

(** [weights[i : i + len(f)] -= f]. *)
Definition sub_at (i : nat) (f w : list K) : list K :=
  map (fun j => if (i <=? j)%nat && (j <? i + length f)%nat then nth j w 0 - nth (j - i) f 0 else nth j w 0)
      (seq 0 (length w)).

(** Free surface at the beginning (lines 102-113): cells, whole vector of weights (the tensor kept in the
    cache), position of the first weight used.  [None]: the slices do not fit (error in torch). *)
Definition fold_begin (l0 : Q) (ls : list Z) (w : list K) : option (list Z * list K * nat) :=
  let first := nth 0 ls 0%Z in
  if qlt (inject_Z first) l0
  then
    let idx0 := Z.to_nat (Qceiling (l0 - inject_Z first)) in
    let idx1 := (idx0 + if q_isint l0 then 1 else 0)%nat in
    let flipped := rev (firstn idx1 w) in
    if (idx0 + length flipped <=? length w)%nat
    then Some (skipn idx0 ls, sub_at idx0 flipped w, idx0)
    else None
  else Some (ls, w, 0%nat).

(** Free surface at the end (lines 114-124), applied to the part of the vector from [off] on. *)
Definition fold_end (l1 : Q) (ls : list Z) (w : list K) (off : nat) : option (list Z * list K * nat * nat) :=
  let last := nth (length ls - 1) ls 0%Z in
  let len := (length w - off)%nat in
  if qlt l1 (inject_Z last)
  then
    let idx0 := (Z.of_nat len - 1 - Qceiling (inject_Z last - l1))%Z in
    let idx1 := (idx0 - if q_isint l1 then 1 else 0)%Z in
    let flipped := rev (skipn (off + Z.to_nat (idx1 + 1)) w) in
    let start := (idx0 + 1 - Z.of_nat (length flipped))%Z in
    if (-1 <=? idx1)%Z && (0 <=? start)%Z
    then Some (firstn (Z.to_nat (idx0 + 1)) ls, sub_at (off + Z.to_nat start) flipped w, off, Z.to_nat (idx0 + 1))
    else None
  else Some (ls, w, off, len).

(** [_get_hicks_for_one_location_dim] (lines 14-125).  The weights put in the cache are the tensor that the
    folding then modifies; weights found in the cache are cloned (line 80). *)
Definition one_dim (c : cache) (l : num A) (fs : bool * bool) (fl : Q * Q) (mono : bool)
    : option (list Z * list K * cache) :=
  let q := toQ A l in
  if mono && qlt (qabs (q - inject_Z (qround q))) eps
  then Some ([qround q], [1], c)
  else
    let k := key_of l mono in
    let w := match cget c k with Some w => w | None => map (wf mono) (offsets l) end in
    match (if fst fs then fold_begin (fst fl) (wcells l) w else Some (wcells l, w, 0%nat)) with
    | None => None
    | Some (ls1, w1, off) =>
        match (if snd fs then fold_end (snd fl) ls1 w1 off else Some (ls1, w1, off, (length w1 - off)%nat)) with
        | None => None
        | Some (ls2, w2, off2, len) =>
            Some (ls2, firstn len (skipn off2 w2), match cget c k with Some _ => c | None => (k, w2) :: c end)
        end
    end.

(** A location with its [monopole] and [dipole_dim]; cells and weights of its two dimensions. *)
Record point := mkpoint { pt_l : num A * num A; pt_mono : bool; pt_dip : Z }.
Definition pw2 := ((list Z * list K) * (list Z * list K))%type.

Definition one_point (fs : (bool * bool) * (bool * bool)) (fl : (Q * Q) * (Q * Q)) (c : cache) (p : point)
    : option (pw2 * cache) :=
  match one_dim c (fst (pt_l p)) (fst fs) (fst fl) (pt_mono p || (negb (pt_mono p) && (pt_dip p =? 1)%Z)) with
  | None => None
  | Some (l0, w0, c1) =>
      match one_dim c1 (snd (pt_l p)) (snd fs) (snd fl) (pt_mono p || (negb (pt_mono p) && (pt_dip p =? 0)%Z)) with
      | None => None
      | Some (l1, w1, c2) => Some ((l0, w0), (l1, w1), c2)
      end
  end.

(** All points of all shots in order, sharing the cache (lines 159-196). *)
Fixpoint mapc {X Y} (f : cache -> X -> option (Y * cache)) (c : cache) (l : list X) : option (list Y * cache) :=
  match l with
  | [] => Some ([], c)
  | x :: l => match f c x with
              | None => None
              | Some (y, c1) => match mapc f c1 l with None => None | Some (ys, c2) => Some (y :: ys, c2) end
              end
  end.
Definition hicks_points fs fl (shots : list (list point)) : option (list (list pw2)) :=
  option_map fst (mapc (mapc (one_point fs fl)) [] shots).

(** ** Merging (lines 197-226) *)

(** [cartesian_prod] of the cells; products of weights (lines 432-435), both with the first dimension slowest. *)
Definition cells2 (p : pw2) : list (Z * Z) :=
  flat_map (fun a => map (fun b => (a, b)) (fst (snd p))) (fst (fst p)).
Definition weights2 (p : pw2) : list K :=
  flat_map (fun a => map (fun b => a * b) (snd (snd p))) (snd (fst p)).

Definition zz_dec (a b : Z * Z) : {a = b} + {a <> b}. Proof. decide equality; apply Z.eq_dec. Defined.
(** [locations_dict]: the locations in order of insertion; the value of a key is its position. *)
Fixpoint pos_of (d : list (Z * Z)) (l : Z * Z) : option nat :=
  match d with
  | [] => None
  | x :: d => if zz_dec x l then Some 0%nat else option_map Datatypes.S (pos_of d l)
  end.
Definition merge_loc (st : list (Z * Z) * list nat) (l : Z * Z) : list (Z * Z) * list nat :=
  let '(d, ix) := st in
  match pos_of d l with
  | Some i => (d, ix ++ [i])
  | None => (d ++ [l], ix ++ [length d])
  end.
Definition merge_point (st : list (Z * Z) * list (list nat)) (cs : list (Z * Z)) : list (Z * Z) * list (list nat) :=
  let '(d, ixs) := st in
  let '(d', ix) := fold_left merge_loc cs (d, []) in
  (d', ixs ++ [ix]).
Definition merge_shot (pts : list pw2) : list (Z * Z) * list (list nat) :=
  fold_left merge_point (map cells2 pts) ([], []).

(** [Hicks.__init__]: [hicks_locations] (padded with [IGNORE_LOCATION]), [idxs], [weights] of each shot. *)
Record hicks := mkhicks {
  h_locs : list (list (Z * Z));
  h_idxs : list (list (list nat));
  h_w : list (list (list K))
}.
Definition pad_locs (n : nat) (d : list (Z * Z)) : list (Z * Z) := d ++ repeat (IGNORE, IGNORE) (n - length d).
Definition hicks_of (shots : list (list pw2)) : hicks :=
  let ms := map merge_shot shots in
  let n := fold_left Nat.max (map (fun m => length (fst m)) ms) 0%nat in
  mkhicks (map (fun m => pad_locs n (fst m)) ms) (map snd ms) (map (map weights2) shots).

(** ** [source] and [receiver] (lines 384-514), one time sample *)

(** Shots of the batch. *)
Definition batch (shot_idxs : option (list nat)) (n : nat) : list nat :=
  match shot_idxs with Some l => l | None => seq 0 n end.
(** [get_locations] (lines 362-382). *)
Definition get_locations (h : hicks) (shot_idxs : option (list nat)) : list (list (Z * Z)) :=
  match shot_idxs with Some l => map (fun s => nth s (h_locs h) []) l | None => h_locs h end.

(** [out[ix] += v]: values are read, added and written, the last write to a position prevails. *)
Definition index_add (out : list K) (ix : list nat) (v : list K) : list K :=
  map (fun k => fold_left (fun o iv => if (fst iv =? k)%nat then nth k out 0 + snd iv else o) (combine ix v) (nth k out 0))
      (seq 0 (length out)).
Definition source_shot (nh : nat) (idxs : list (list nat)) (ws : list (list K)) (a : list K) : list K :=
  fold_left (fun out i => index_add out (nth i idxs []) (map (fun w => nth i a 0 * w) (nth i ws [])))
            (seq 0 (length a)) (repeat 0 nh).
Definition receiver_shot (n_per_shot : nat) (idxs : list (list nat)) (ws : list (list K)) (r : list K) : list K :=
  map (fun i => sumf (combine (nth i idxs []) (nth i ws [])) (fun iw => nth (fst iw) r 0 * snd iw)) (seq 0 n_per_shot).
Definition nh (h : hicks) : nat := length (nth 0 (h_locs h) []).
Definition source (h : hicks) (shot_idxs : option (list nat)) (amps : list (list K)) : list (list K) :=
  map (fun sa => source_shot (nh h) (nth (fst sa) (h_idxs h) []) (nth (fst sa) (h_w h) []) (snd sa))
      (combine (batch shot_idxs (length amps)) amps).
Definition receiver (h : hicks) (n_per_shot : nat) (shot_idxs : option (list nat)) (amps : list (list K)) : list (list K) :=
  map (fun sa => receiver_shot n_per_shot (nth (fst sa) (h_idxs h) []) (nth (fst sa) (h_w h) []) (snd sa))
      (combine (batch shot_idxs (length amps)) amps).
End Hicks.
