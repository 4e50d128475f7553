(** * Survey extraction (common.py): survey area, padded models, location indices.

    A raised Python exception is [None].  Device, dtype and Python type checks are not
    modelled; locations are integers (the [eps] test of [_validate_location_tensor],
    common.py:2099-2107, only serves to reject others). *)
From Coq Require Import List ZArith Lia Bool.
From Verif Require Import Grid ScalarModel.
Import ListNotations.
Local Open Scope Z_scope.

(** ** Tensors *)

(** A tensor: shape and element function. *)
Record tens (X : Type) := mktens { t_shape : list Z; t_at : pt -> X }.
Arguments mktens {X}. Arguments t_shape {X}. Arguments t_at {X}.

(** Python's clamping of slice bounds for a dimension of length [n] ([slice.indices]). *)
Definition slice_ix (n i : Z) : Z := if i <? 0 then Z.max (i + n) 0 else Z.min i n.

(** [x[..., b0:e0, b1:e1, ...]]: [bs] has one entry per dimension, [None] for [:]. *)
Fixpoint slice_shape (s : list Z) (bs : list (option (Z * Z))) : list Z :=
  match s, bs with
  | n :: s', Some (b, e) :: bs' => Z.max 0 (slice_ix n e - slice_ix n b) :: slice_shape s' bs'
  | n :: s', None :: bs' => n :: slice_shape s' bs'
  | s, _ => s
  end.

Fixpoint slice_pt (s : list Z) (bs : list (option (Z * Z))) (p : pt) : pt :=
  match s, bs, p with
  | n :: s', Some (b, e) :: bs', x :: p' => x + slice_ix n b :: slice_pt s' bs' p'
  | n :: s', None :: bs', x :: p' => x :: slice_pt s' bs' p'
  | _, _, p => p
  end.

Definition tslice {X} (t : tens X) (bs : list (option (Z * Z))) : tens X :=
  mktens (slice_shape (t_shape t) bs) (fun p => t_at t (slice_pt (t_shape t) bs p)).

(** [torch.nn.functional.pad(x, pads, mode)]: [pads] lists (before, after) starting with the
    LAST dimension.  [pad_of r pads d]: the padding of dimension [d] of a tensor of rank [r]. *)
Definition pad_of (r : nat) (pads : list Z) (d : nat) : Z * Z :=
  let j := (r - 1 - d)%nat in
  if (2 * j + 1 <? length pads)%nat then (nth (2 * j) pads 0, nth (2 * j + 1) pads 0)
  else (0, 0).

Inductive pad_mode := Replicate | Constant.

Definition clampZ (x lo hi : Z) : Z := Z.min (Z.max x lo) hi.

Definition tpad {X} (z : X) (m : pad_mode) (pads : list Z) (t : tens X) : option (tens X) :=
  let r := length (t_shape t) in
  let lo d := fst (pad_of r pads d) in
  let hi d := snd (pad_of r pads d) in
  let shape' := map (fun d => nth d (t_shape t) 0 + lo d + hi d) (seq 0 r) in
  match m with
  | Constant =>
      Some (mktens shape' (fun p =>
        let q := map (fun d => coord d p - lo d) (seq 0 r) in
        if inb (abox (t_shape t)) q then t_at t q else z))
  | Replicate =>
      (* replication padding needs at least one element in each padded dimension *)
      if forallb (fun d => (0 <? nth d (t_shape t) 0) || ((lo d =? 0) && (hi d =? 0))) (seq 0 r)
      then Some (mktens shape' (fun p =>
        t_at t (map (fun d => clampZ (coord d p - lo d) 0 (nth d (t_shape t) 0 - 1)) (seq 0 r))))
      else None
  end.

(** ** Locations *)

(** A location tensor of shape [n_shots, n_per_shot, ndim]. *)
Record loct := mkloct { lt_dim : nat; lt_data : list (list pt) }.
Definition lt_wf (l : loct) : Prop := Forall (Forall (fun p => length p = lt_dim l)) (lt_data l).

(** [dim_location = location[..., dim]; dim_location[dim_location != IGNORE_LOCATION]]
    (common.py:1619-1620, 1783-1784, 1929-1930). *)
Definition dim_locs (d : nat) (l : loct) : list Z :=
  filter (fun x => negb (x =? IGNORE)) (map (coord d) (concat (lt_data l))).

(** [.min()], [.max()] of a non-empty tensor; PyTorch raises on an empty one. *)
Definition lmin (l : list Z) : option Z :=
  match l with [] => None | x :: r => Some (fold_left Z.min r x) end.
Definition lmax (l : list Z) : option Z :=
  match l with [] => None | x :: r => Some (fold_left Z.max r x) end.

Definition present {X} (l : list (option X)) : list X :=
  flat_map (fun o => match o with Some x => [x] | None => [] end) l.

(** common.py:1609-1627 *)
Definition check_locations_are_within_model (shape : list Z) (locs : list (option loct)) : bool :=
  negb (Nat.eqb (length shape) 0) && forallb (fun n => 0 <? n) shape &&
  forallb (fun l =>
    forallb (fun d =>
      (d <? lt_dim l)%nat (* location[..., dim] *) &&
      match lmin (dim_locs d l), lmax (dim_locs d l) with
      | Some a, Some b => (0 <=? a) && (b <? nth d shape 0)
      | _, _ => true
      end) (seq 0 (length shape))) (present locs).

(** ** Survey area *)

(** The values accepted for [survey_pad]. *)
Inductive survey_pad := SPnone | SPint (n : Z) | SPlist (l : list (option Z)).

(** common.py:1649-1681 *)
Definition set_survey_pad (sp : survey_pad) (ndim : nat) : option (list Z) :=
  if (ndim =? 0)%nat then None else
  let l := match sp with
           | SPnone => Some (repeat (-1) (2 * ndim))
           | SPint n => if n <? 0 then None else Some (repeat n (2 * ndim))
           | SPlist l =>
               if forallb (fun o => match o with Some n => 0 <=? n | None => true end) l
               then Some (map (fun o => match o with Some n => n | None => -1 end) l)
               else None
           end in
  match l with
  | Some l => if (length l =? 2 * ndim)%nat then Some l else None
  | None => None
  end.

(** Body of the loop in [get_survey_extents_one_side] (common.py:1781-1806). *)
Definition one_side_step (pad : Z) (left : bool) (d : nat) (shape : Z) (acc : option Z)
    (l : loct) : option Z :=
  match acc with
  | None => None
  | Some e =>
      match lmin (dim_locs d l), lmax (dim_locs d l) with
      | Some a, Some b =>
          if (a <? 0) || (shape <=? b) then None
          else Some (if left then Z.min e (a - pad) else Z.max e (b + pad))
      | _, _ => Some e
      end
  end.

(** common.py:1738-1813 *)
Definition get_survey_extents_one_side (pad : Z) (left : bool) (d : nat)
    (locs : list (option loct)) (shape : Z) : option Z :=
  if (pad <? 0) || (length (present locs) =? 0)%nat then Some (if left then 0 else shape)
  else
    match fold_left (one_side_step pad left d shape) (present locs)
                    (Some (if left then shape else 0)) with
    | None => None
    | Some e => Some (Z.min (Z.max (if left then e else e + 1) 0) shape)
    end.

Fixpoint sequence {X} (l : list (option X)) : option (list X) :=
  match l with
  | [] => Some []
  | Some x :: r => match sequence r with Some r' => Some (x :: r') | None => None end
  | None :: _ => None
  end.

(** common.py:1684-1735; the result is a list of (begin, end). *)
Definition get_survey_extents_from_locations (shape : list Z) (locs : list (option loct))
    (sp : survey_pad) : option (list (Z * Z)) :=
  if (length shape =? 0)%nat || negb (forallb (fun n => 0 <? n) shape) then None else
  match set_survey_pad sp (length shape) with
  | None => None
  | Some pads =>
      sequence (map (fun d =>
        match get_survey_extents_one_side (nth (2 * d) pads 0) true d locs (nth d shape 0),
              get_survey_extents_one_side (nth (2 * d + 1) pads 0) false d locs (nth d shape 0) with
        | Some l, Some r => Some (l, r)
        | _, _ => None
        end) (seq 0 (length shape)))
  end.

(** common.py:1816-1882; wavefields are given by their shapes [batch :: spatial]. *)
Definition get_survey_extents_from_wavefields (wfs : list (option (list Z)))
    (origin : option (list Z)) (pw : list Z) : option (list (Z * Z)) :=
  let ndims := (length pw / 2)%nat in
  let origin_ok := match origin with
                   | Some o => (length o =? ndims)%nat && forallb (fun x => 0 <=? x) o
                   | None => true
                   end in
  if negb origin_ok || negb (forallb (fun x => 0 <=? x) pw) then None else
  match present wfs with
  | [] => None
  | w :: _ =>
      if negb (length w =? ndims + 1)%nat then None else
      sequence (map (fun d =>
        let o := match origin with Some o => nth d o 0 | None => 0 end in
        let size := nth (1 + d) w 0 - nth (2 * d) pw 0 - nth (2 * d + 1) pw 0 in
        if size <? 0 then None else Some (o, o + size)) (seq 0 ndims))
  end.

(** common.py:1885-1907 *)
Definition check_extents_within_model (E : list (Z * Z)) (shape : list Z) : bool :=
  forallb (fun en => (0 <=? fst (fst en)) && (snd (fst en) <=? snd en)) (combine E shape).

(** common.py:1910-1942; [.min()] raises when every location is ignored. *)
Definition check_locations_within_extents (E : list (Z * Z)) (locs : list (option loct)) : bool :=
  forallb (fun l =>
    forallb (fun d =>
      match lmin (dim_locs d l), lmax (dim_locs d l), nth_error E d with
      | Some a, Some b, Some (e0, e1) => (e0 <=? a) && (b <? e1)
      | _, _, _ => false
      end) (seq 0 (lt_dim l))) (present locs).

(** common.py:1945-1984 *)
Definition check_extents_match_wavefields_shape (E : list (Z * Z)) (wfs : list (option (list Z)))
    (pw : list Z) : bool :=
  (length pw =? 2 * length E)%nat &&
  forallb (fun w => (length w =? length E + 1)%nat &&
    forallb (fun d =>
      nth (1 + d) w 0 =? snd (nth d E (0, 0)) - fst (nth d E (0, 0)) + nth (2 * d + 1) pw 0 + nth (2 * d) pw 0)
      (seq 0 (length E))) (present wfs).

(** ** Models *)

(** common.py:1987-2009 *)
Definition reverse_pad (pad : list Z) : list Z :=
  flat_map (fun d => [nth (2 * d) pad 0; nth (2 * d + 1) pad 0]) (rev (seq 0 (length pad / 2))).

Definition last_n {X} (n : nat) (l : list X) : list X := skipn (length l - n) l.

(** common.py:2012-2087, for [n_batch > 0] (for an empty batch the code returns empty
    tensors without padding). *)
Definition extract_models {X} (z : X) (models : list (tens X)) (E : list (Z * Z)) (pad : list Z)
    (modes : list pad_mode) (n_batch : Z) : option (list (tens X)) :=
  let ndims := (length pad / 2)%nat in
  if negb (length models =? length modes)%nat || negb (length E =? ndims)%nat then None else
  match models with
  | [] => None
  | m0 :: _ =>
      let spatial := last_n ndims (t_shape m0) in
      if forallb (fun m =>
           ((length (t_shape m) =? ndims)%nat || (length (t_shape m) =? ndims + 1)%nat) &&
           (if list_eq_dec Z.eq_dec (last_n ndims (t_shape m)) spatial then true else false)) models
      then
        let models := map (fun m => if (length (t_shape m) =? ndims)%nat
                                    then mktens (1 :: t_shape m) (fun p => t_at m (tl p)) else m) models in
        if forallb (fun m => (hd 0 (t_shape m) =? 1) || (hd 0 (t_shape m) =? n_batch)) models
        then sequence (map (fun mm => tpad z (snd mm) (reverse_pad pad)
                                        (tslice (fst mm) (None :: map Some E))) (combine models modes))
        else None
      else None
  end.

(** ** Location indices *)

(** The stride loop of common.py:2138-2140. *)
Fixpoint strides (s : list Z) : list Z :=
  match s with
  | [] => []
  | _ :: s' => match strides s' with t :: r => t * hd 0 s' :: t :: r | [] => [1] end
  end.

(** common.py:2125-2141: origin and stride of the padded area. *)
Definition origin_of (E : list (Z * Z)) (pad : list Z) : list Z :=
  map (fun d => fst (nth d E (0, 0)) - nth (2 * d) pad 0) (seq 0 (length E)).
Definition padded_shape (E : list (Z * Z)) (pad : list Z) : list Z :=
  map (fun d => snd (nth d E (0, 0)) - fst (nth d E (0, 0)) + nth (2 * d) pad 0 + nth (2 * d + 1) pad 0)
      (seq 0 (length E)).

(** common.py:2154-2172, one location. *)
Definition to_1d (origin strd : list Z) (ndims : nat) (p : pt) : Z :=
  let sh := map (fun d => if coord d p =? IGNORE then IGNORE else coord d p - nth d origin 0) (seq 0 ndims) in
  let base := if coord 0 sh =? IGNORE then IGNORE else 0 in
  fold_left (fun acc d => acc + (if coord d sh =? IGNORE then 0 else coord d sh * nth d strd 0))
            (seq 0 ndims) base.

(** common.py:2174-2184: [len(x) != len(torch.unique(x))] *)
Definition unique_ok (l : list Z) : bool :=
  let a := filter (fun x => negb (x =? IGNORE)) l in
  (length a =? length (nodup Z.eq_dec a))%nat.

(** common.py:2188-2245, with [_validate_location_tensor] (2090-2122). *)
Definition extract_locations (locs : list (option loct)) (E : list (Z * Z)) (pad : list Z)
    (n_batch : Z) : option (list (list (list Z))) :=
  let ndims := length E in
  let origin := origin_of E pad in
  let strd := strides (padded_shape E pad) in
  sequence (map (fun o =>
    match o with
    | Some l =>
        if (Z.of_nat (length (lt_data l)) =? n_batch) && (lt_dim l =? ndims)%nat then
          let r := map (map (to_1d origin strd ndims)) (lt_data l) in
          if forallb unique_ok r then Some r else None
        else None
    | None => Some (repeat [] (Z.to_nat n_batch))
    end) locs).

(** common.py:2248-2326: shape checks of the initial wavefields. *)
Definition prepare_wavefields (wfs : list (option (list Z))) (E : list (Z * Z)) (pw : list Z)
    (n_batch : Z) : bool :=
  forallb (fun w => if list_eq_dec Z.eq_dec w (n_batch :: padded_shape E pw) then true else false)
          (present wfs).

(** common.py:1454-1591.  The extents are returned as well, to be able to talk about them. *)
Definition extract_survey {X} (z : X) (models : list (tens X))
    (src rec : list (option loct)) (wfs : list (option (list Z)))
    (sp : survey_pad) (origin : option (list Z)) (fdp pw : list Z) (modes : list pad_mode)
    (n_batch : Z) (ndims : nat)
  : option (list (Z * Z) * list (tens X) * list (list (list Z)) * list (list (list Z))) :=
  match models with
  | [] => None
  | m0 :: _ =>
      let shape := last_n ndims (t_shape m0) in
      let locs := src ++ rec in
      let sp_none := match sp with SPnone => true | _ => false end in
      if negb sp_none && (match origin with Some _ => true | None => false end) then None else
      if negb (check_locations_are_within_model shape locs) then None else
      let pad := map (fun fp => fst fp + snd fp) (combine fdp pw) in
      let E :=
        if sp_none && negb (length (present wfs) =? 0)%nat then
          match get_survey_extents_from_wavefields wfs origin pw with
          | Some E => if check_extents_within_model E shape && check_locations_within_extents E locs
                      then Some E else None
          | None => None
          end
        else
          match get_survey_extents_from_locations shape locs sp with
          | Some E => if check_extents_match_wavefields_shape E wfs pw then Some E else None
          | None => None
          end in
      match E with
      | None => None
      | Some E =>
          match extract_models z models E pad modes n_batch, extract_locations src E pad n_batch,
                extract_locations rec E pad n_batch with
          | Some ms, Some s, Some r =>
              if prepare_wavefields wfs E pw n_batch then Some (E, ms, s, r) else None
          | _, _, _ => None
          end
      end
  end.
