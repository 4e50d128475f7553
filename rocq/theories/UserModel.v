(** * [setup_propagator] and the function [scalar], from the user's arguments to the kernel and back.

    Exact reals; a raised Python exception is [None].  Device, dtype and Python type checks and warnings are not modelled. *)
From Coq Require Import List ZArith QArith Reals Lra Lia Bool.
From Verif Require Import Ops Grid Stencil StencilOrder ScalarModel ScalarFunc ScalarApi ScalarPhys GeomModel SetupModel RealModel Resample.
Import ListNotations.
Local Open Scope Z_scope.

Definition rle (x y : R) : bool := if Rle_dec x y then true else false.
Definition req (x y : R) : bool := if Req_EM_T x y then true else false.

(** One value for everything, or one value each. *)
Inductive per_dim (X : Type) := One (x : X) | Each (l : list X).
Arguments One {X}. Arguments Each {X}.
Definition per_list {X} (p : per_dim X) (n : nat) : list X := match p with One x => repeat x n | Each l => l end.

(** [set_grid_spacing] (common.py:701-743). *)
Definition set_grid_spacing (g : per_dim R) (nd : nat) : option (list R) :=
  let l := per_list g nd in
  if existsb (fun s => rle s 0) l then None else if (length l =? nd)%nat then Some l else None.

(** [set_accuracy] (common.py:746-764). *)
Definition set_accuracy (a : Z) : option acc :=
  if a =? 2 then Some A2 else if a =? 4 then Some A4 else if a =? 6 then Some A6 else if a =? 8 then Some A8 else None.

(** [set_pml_width] (common.py:767-810), for integers. *)
Definition set_pml_width (w : per_dim Z) (nd : nat) : option (list Z) :=
  let l := per_list w (2 * nd) in
  if existsb (fun x => x <? 0) l then None else if (length l =? 2 * nd)%nat then Some l else None.

(** [set_pml_freq] (common.py:813-854). *)
Definition set_pml_freq (f : option R) (dt : R) : option R :=
  if req dt 0 then None
  else let f := match f with Some f => f | None => IZR 25 end in
       if Rlt_dec f 0 then None else Some f.

(** [set_max_vel] (common.py:857-889). *)
Definition set_max_vel (m : option R) (model_vel : R) : option R :=
  match m with
  | None => Some model_vel
  | Some v => if rle (Rabs v) 0 then None else Some (Rabs v)
  end.

(** [set_model_gradient_sampling_interval] (common.py:942-961). *)
Definition set_sampling_interval (k : Z) : option Z := if k <? 0 then None else Some k.

(** [set_freq_taper_frac], [set_time_pad_frac] (common.py:964-1007). *)
Definition set_frac (q : Q) : option Q := if Qle_bool 0 q && Qle_bool q 1 then Some q else None.

(** [check_points_per_wavelength] (common.py:1153-1197): whether it does not raise; [max] of no spacing raises. *)
Definition check_points_per_wavelength (min_vel freq : R) (gs : list R) : bool :=
  req min_vel 0 || (rle 0 min_vel && rle 0 freq && negb (existsb (fun g => rle g 0) gs) && negb (length gs =? 0)%nat).

(** The size of the second dimension of a location tensor. *)
Definition lt_count (l : loct) : Z := Z.of_nat (length (hd [] (lt_data l))).

(** [check_source_amplitudes_locations_match] (common.py:1010-1058); amplitudes by their shapes. *)
Definition check_amplitudes_locations (amps : list (option (list Z))) (locs : list (option loct)) : bool :=
  (length amps =? length locs)%nat &&
  forallb (fun al => match al with
                     | (None, None) => true
                     | (Some a, Some l) => (1 <? length a)%nat && (nth 1 a 0 =? lt_count l)
                     | _ => false
                     end) (combine amps locs).

(** [get_n_batch] (common.py:631-658). *)
Definition get_n_batch (src : list (option loct)) (wfs : list (option (list Z))) : option Z :=
  match present src with
  | l :: _ => Some (Z.of_nat (length (lt_data l)))
  | [] => match present wfs with w :: _ => Some (hd 0 w) | [] => None end
  end.

Definition oshape {X} (o : option (tens X)) : option (list Z) := match o with Some t => Some (t_shape t) | None => None end.
(** The amplitudes of source [k] of shot [b]. *)
Definition trace (a : tens R) (b k : Z) : list R := map (fun t => t_at a [b; k; Z.of_nat t]) (seq 0 (Z.to_nat (nth 2 (t_shape a) 0))).
(** [set_source_amplitudes] (common.py:1061-1150): resampled, with the time first. *)
Definition source_amplitudes (amps : list (option (tens R))) (n_batch nt ratio : Z) (ft tp : Q) (taper : bool) : option (list (tens R)) :=
  match set_source_amplitudes (map oshape amps) n_batch nt ratio tp with
  | None => None
  | Some shapes => Some (map (fun sa => mktens (fst sa) (fun p =>
      match snd sa with
      | None => 0%R
      | Some a => nth (Z.to_nat (coord 0 p)) (upsample (Z.to_nat ratio) ft tp taper (trace a (coord 1 p) (coord 2 p))) 0%R
      end)) (combine shapes amps))
  end.

(** What [setup_propagator] returns (the survey area is added, to be able to talk about it). *)
Record setup := mksetup {
  su_ext : list (Z * Z); su_models : list (tens R); su_amps : list (tens R);
  su_src : list (list (list Z)); su_rec : list (list (list Z));
  su_gs : list R; su_dt : R; su_nt : Z; su_nb : Z; su_ratio : Z; su_interval : Z;
  su_acc : acc; su_pw : list Z; su_freq : R; su_vel : R; su_ft : Q; su_tp : Q }.

Notation "'let?' x ':=' a 'in' b" := (match a with Some x => b | None => None end) (at level 200, x pattern, a at level 100, b at level 200).

(** [setup_propagator] (common.py:412-628), the checks in the order of the code; [fdp]: fd_pad. *)
Definition setup_propagator (models : list (tens R)) (modes : list pad_mode) (gs : per_dim R) (dt : R)
    (amps : list (option (tens R))) (src rec : list (option loct)) (accuracy : Z) (fdp : list Z) (pw : per_dim Z)
    (freq max_vel : option R) (min_model_vel max_model_vel : R) (sp : survey_pad) (wfs : list (option (list Z)))
    (origin : option (list Z)) (nt : option Z) (interval : Z) (ft tp : Q) (taper : bool) (nd : nat) : option setup :=
  let? nb := get_n_batch src wfs in
  let? gs := set_grid_spacing gs nd in
  let? vel := set_max_vel max_vel max_model_vel in
  let? (dt, ratio) := cfl_condition_n gs dt vel cfl_eps cfl_c_max in
  let? ac := set_accuracy accuracy in
  let? pw := set_pml_width pw nd in
  let? freq := set_pml_freq freq dt in
  if negb (check_points_per_wavelength min_model_vel freq gs) then None else
  let? nt := set_nt nt (map oshape amps) ratio in
  let? interval := set_sampling_interval interval in
  let? ft := set_frac ft in
  let? tp := set_frac tp in
  if negb (check_amplitudes_locations (map oshape amps) src) then None else
  let? amps := source_amplitudes amps nb nt ratio ft tp taper in
  let? (E, ms, s, r) := extract_survey 0%R models src rec wfs sp origin fdp pw modes nb nd in
  Some (mksetup E ms amps s r gs dt nt nb ratio interval ac pw freq vel ft tp).

(** ** The function [scalar] (scalar.py:146-588), without initial wavefields and callbacks. *)
Record call := mkcall {
  c_v : tens R; c_gs : per_dim R; c_dt : R; c_amps : option (tens R); c_src : option loct; c_rec : option loct;
  c_accuracy : Z; c_pw : per_dim Z; c_freq : option R; c_max_vel : option R; c_sp : survey_pad; c_nt : option Z;
  c_interval : Z; c_ft : Q; c_tp : Q; c_taper : bool }.
Definition set_sp (c : call) (sp : survey_pad) : call :=
  mkcall (c_v c) (c_gs c) (c_dt c) (c_amps c) (c_src c) (c_rec c) (c_accuracy c) (c_pw c) (c_freq c) (c_max_vel c) sp (c_nt c)
    (c_interval c) (c_ft c) (c_tp c) (c_taper c).

(** All elements of a tensor; [.abs().max()] and the smallest magnitude other than zero (scalar.py:441-447). *)
Definition elems (t : tens R) : list R := map (t_at t) (box_pts (abox (t_shape t))).
Definition max_abs (t : tens R) : option R := match map Rabs (elems t) with [] => None | x :: l => Some (fold_left Rmax l x) end.
Definition min_nonzero (t : tens R) : R :=
  match map Rabs (filter (fun x => negb (req x 0)) (elems t)) with [] => 0%R | x :: l => fold_left Rmin l x end.

Definition orank (o : option loct) : option Z := match o with Some l => Some (Z.of_nat (lt_dim l)) | None => None end.
(** scalar.py:405-412: the number of dimensions. *)
Definition call_ndim (c : call) : option nat :=
  let? nd := get_ndim [Z.of_nat (length (t_shape (c_v c)))] [None; None] [orank (c_src c); orank (c_rec c)] [None; None] [None; None] [None; None] in
  Some (Z.to_nat nd).
(** scalar.py:441-487. *)
Definition scalar_setup (c : call) (nd : nat) : option setup :=
  let? mv := max_abs (c_v c) in
  setup_propagator [c_v c] [Replicate] (c_gs c) (c_dt c) [c_amps c] [c_src c] [c_rec c] (c_accuracy c)
    (repeat (c_accuracy c / 2) (2 * nd)) (c_pw c) (c_freq c) (c_max_vel c) (min_nonzero (c_v c)) mv (c_sp c)
    (repeat None (2 + 2 * nd)) None (c_nt c) (c_interval c) (c_ft c) (c_tp c) (c_taper c) nd.

(** The problem that the kernel is given for shot [b] (scalar.py:489-566). *)
Definition pw_of (pw : list Z) (d : nat) : Z * Z := (nth (2 * d) pw 0, nth (2 * d + 1) pw 0).
Definition shot_row (l : list (list (list Z))) (b : nat) : list Z := nth b (nth 0 l []) [].
Definition su_shape (s : setup) : list Z := tl (t_shape (nth 0 (su_models s) (mktens [] (fun _ => 0%R)))).
(** A model of batch size one is expanded to all shots (scalar.py:519-525, scalar.c: shot offsets of batched models). *)
Definition shot_model (s : setup) (b : nat) : arr R_ops := fun i =>
  let m := nth 0 (su_models s) (mktens [] (fun _ => 0%R)) in
  t_at m ((if hd 0 (t_shape m) =? 1 then 0 else Z.of_nat b) :: unidx (su_shape s) i).
Definition shot_par (s : setup) (b : nat) : par R_ops :=
  scalar_par (su_acc s) (su_shape s) (pw_of (su_pw s)) (su_dt s) (su_gs s) (su_vel s) (su_freq s) (shot_row (su_src s) b) (shot_row (su_rec s) b).
(** scalar.py:508-530. *)
Definition shot_amps (s : setup) (b : nat) (t : Z) : list R :=
  let a := nth 0 (su_amps s) (mktens [] (fun _ => 0%R)) in
  scale_sources (K := R_ops) (shot_model s b) (su_dt s ^ 2)%R (shot_row (su_src s) b)
    (map (fun k => t_at a [t; Z.of_nat b; Z.of_nat k]) (seq 0 (length (shot_row (su_src s) b)))).
(** The kernel run of shot [b]; [vis]: the order of the cells, [st]: the snapshot memory.  [nt // 0] raises. *)
Definition shot_run (s : setup) (b : nat) (vis : list (list Z * pt)) (vrg : bool) (store : Z -> arr R_ops) :=
  if su_ratio s * su_interval s =? 0 then None else
  scalar_forward R_ops (shot_par s b) (pw_of (su_pw s)) (shot_model s b) vis vrg (su_ratio s * su_interval s)
    (shot_amps s b) (su_nt s) None store (zero_st R_ops).
(** The receiver data returned to the user for shot [b], one trace per receiver (scalar.py:575-581, common.py:661-698). *)
Definition shot_data (c : call) (s : setup) (b : nat) (R : Z -> list R) : list (list Rdefinitions.R) :=
  map (fun j => downsample (Z.to_nat (su_ratio s)) (su_ft s) (su_tp s) (c_taper c) 0%R
                  (map (fun t => nth j (R (Z.of_nat t)) 0%R) (seq 0 (Z.to_nat (su_nt s)))))
      (seq 0 (length (shot_row (su_rec s) b))).
