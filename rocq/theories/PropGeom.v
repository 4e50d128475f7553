(** * Properties C19, C20, C21, C32, C33, C42: geometry and input handling. *)
From Coq Require Import List ZArith QArith Qcanon Lia Bool.
From Verif Require Import Ops Grid Stencil ScalarModel ScalarRefine GeomModel Geom Geom2 SetupModel GeomLocs GeomEx ScalarEx.
Import ListNotations.
Local Open Scope Z_scope.

(** C19: a location none of whose coordinates is ignored is turned into the index of a cell
    of the padded array; this cell lies in the survey area part of the array and holds, in
    every extracted model, the value the user's model has at the location. *)
Theorem C19_location_cell {X : Type} (z : X) models src rec wfs sp origin fdp pw modes nb nd E ms s r :
  length fdp = (2 * nd)%nat -> length pw = (2 * nd)%nat -> (0 < nd)%nat ->
  Forall (fun x => 0 <= x) fdp -> Forall (fun x => 0 <= x) pw ->
  extract_survey z models src rec wfs sp origin fdp pw modes nb nd = Some (E, ms, s, r) ->
  forall (w : bool) k sh j p,
  loc3 (if w then src else rec) k sh j = Some p -> active_pt nd p ->
  let S := map (fun d => snd (nth d E (0, 0)) - fst (nth d E (0, 0)) + nth (2 * d) (sum_pad fdp pw) 0 + nth (2 * d + 1) (sum_pad fdp pw) 0) (seq 0 (length E)) in
  exists i, at3 (if w then s else r) k sh j = Some i /\ 0 <= i < prodZ S /\
    (forall d, (d < nd)%nat ->
       nth (2 * d) fdp 0 + nth (2 * d) pw 0 <= coord d (unidx S i) <
       nth d S 0 - nth (2 * d + 1) fdp 0 - nth (2 * d + 1) pw 0) /\
    forall n m mode m', nth_error models n = Some m -> nth_error modes n = Some mode -> nth_error ms n = Some m' ->
      t_shape m' = mbatch nd m :: S /\
      forall b, 0 <= b < mbatch nd m -> t_at m' (b :: unidx S i) = mval nd m b p.
Proof. exact (location_maps z models src rec wfs sp origin fdp pw modes nb nd E ms s r). Qed.
Print Assumptions C19_location_cell.

(** A location all of whose coordinates are ignored stays ignored. *)
Theorem C19_ignored {X : Type} (z : X) models src rec wfs sp origin fdp pw modes nb nd E ms s r :
  length fdp = (2 * nd)%nat -> length pw = (2 * nd)%nat -> (0 < nd)%nat ->
  extract_survey z models src rec wfs sp origin fdp pw modes nb nd = Some (E, ms, s, r) ->
  forall (w : bool) k sh j p,
  loc3 (if w then src else rec) k sh j = Some p -> ignored_pt nd p ->
  at3 (if w then s else r) k sh j = Some IGNORE.
Proof. exact (location_ignored z models src rec wfs sp origin fdp pw modes nb nd E ms s r). Qed.
Print Assumptions C19_ignored.

(** Different locations get different indices, across shots, sources and receivers. *)
Theorem C19_injective {X : Type} (z : X) models src rec wfs sp origin fdp pw modes nb nd E ms s r :
  length fdp = (2 * nd)%nat -> length pw = (2 * nd)%nat -> (0 < nd)%nat ->
  Forall (fun x => 0 <= x) fdp -> Forall (fun x => 0 <= x) pw ->
  extract_survey z models src rec wfs sp origin fdp pw modes nb nd = Some (E, ms, s, r) ->
  forall (w w' : bool) k sh j p k' sh' j' p' i,
  loc3 (if w then src else rec) k sh j = Some p -> active_pt nd p ->
  loc3 (if w' then src else rec) k' sh' j' = Some p' -> active_pt nd p' ->
  at3 (if w then s else r) k sh j = Some i -> at3 (if w' then s else r) k' sh' j' = Some i -> p = p'.
Proof. exact (location_injective z models src rec wfs sp origin fdp pw modes nb nd E ms s r). Qed.
Print Assumptions C19_injective.

(** Two entries of one shot never share a cell. *)
Theorem C19_unique {X : Type} (z : X) models src rec wfs sp origin fdp pw modes nb nd E ms s r :
  length fdp = (2 * nd)%nat -> length pw = (2 * nd)%nat -> (0 < nd)%nat ->
  Forall (fun x => 0 <= x) fdp -> Forall (fun x => 0 <= x) pw ->
  extract_survey z models src rec wfs sp origin fdp pw modes nb nd = Some (E, ms, s, r) ->
  forall (w : bool) k sh j p j' p' i,
  loc3 (if w then src else rec) k sh j = Some p -> active_pt nd p ->
  loc3 (if w then src else rec) k sh j' = Some p' -> active_pt nd p' ->
  at3 (if w then s else r) k sh j = Some i -> at3 (if w then s else r) k sh j' = Some i -> j = j'.
Proof. exact (location_unique z models src rec wfs sp origin fdp pw modes nb nd E ms s r). Qed.
Print Assumptions C19_unique.

(** The indices are what the propagators expect: negative or an interior cell. *)
Theorem C19_kernel_locations {X : Type} (z : X) models src rec wfs sp origin fdp pw modes nb nd E ms s r :
  length fdp = (2 * nd)%nat -> length pw = (2 * nd)%nat -> (0 < nd)%nat ->
  Forall (fun x => 0 <= x) fdp -> Forall (fun x => 0 <= x) pw ->
  extract_survey z models src rec wfs sp origin fdp pw modes nb nd = Some (E, ms, s, r) ->
  forall (K : ops) (P : par K) (w : bool),
  fdp = repeat (fd_pad (p_acc P)) (2 * nd) -> p_shape P = map (fun d => snd (nth d E (0, 0)) - fst (nth d E (0, 0)) + nth (2 * d) (sum_pad fdp pw) 0 + nth (2 * d + 1) (sum_pad fdp pw) 0) (seq 0 (length E)) ->
  locs_whole nd (if w then src else rec) ->
  forall k sh j i, at3 (if w then s else r) k sh j = Some i -> loc_ok K P i.
Proof. exact (extracted_loc_ok z models src rec wfs sp origin fdp pw modes nb nd E ms s r). Qed.
Print Assumptions C19_kernel_locations.

Example C19_example : exists ms s r, gx_run = Some (gx_E, ms, s, r) /\
  loc3 gx_rec 0 0 1 = Some [4; 3] /\ active_pt 2 [4; 3] /\
  (exists i, at3 r 0 0 1 = Some i /\ i = 6 * 12 + 5 /\
     match nth_error ms 1 with Some m' => t_at m' [1; 6; 5] = 1043 | None => False end) /\
  at3 r 0 1 0 = Some IGNORE.
Proof.
  destruct gx_some as (ms & s & r & H). exists ms, s, r. split; [exact H|]. split; [reflexivity|]. split.
  { split; [reflexivity|]. intros d Hd. destruct d as [|[|d]]; [cbv; lia|cbv; lia|lia]. }
  assert (G : match gx_run with Some (_, ms, s, r) =>
     at3 r 0 0 1 = Some 77 /\ match nth_error ms 1 with Some m' => t_at m' [1; 6; 5] = 1043 | None => False end
     /\ at3 r 0 1 0 = Some IGNORE
     | None => False end) by (vm_compute; auto).
  rewrite H in G. destruct G as (G1 & G2 & G3). split; [|exact G3]. exists 77. auto.
Qed.

Example C19_cell_example : exists ms s r i, gx_run = Some (gx_E, ms, s, r) /\ at3 r 0 0 1 = Some i /\
  0 <= i < prodZ (padded_shape gx_E (sum_pad gx_fdp gx_pw)).
Proof.
  destruct gx_some as (ms & s & r & H). exists ms, s, r.
  destruct (C19_location_cell 0 _ _ _ _ _ _ gx_fdp gx_pw _ _ 2 _ _ _ _ eq_refl eq_refl ltac:(lia)
     (proj1 gx_nonneg) (proj2 gx_nonneg) H false 0 0 1 [4; 3] eq_refl) as (i & A & B & _).
  { split; [reflexivity|]. intros d Hd. destruct d as [|[|d]]; [cbv; lia|cbv; lia|lia]. }
  exists i. auto.
Qed.

(** A location with only some coordinates ignored passes every check; it is turned into a cell
    outside the interior, here in the halo columns, to which the propagators write. *)
Theorem C19_partly_ignored_refuted :
  exists E ms s r i,
    extract_survey 0 [gx_m] [Some (mkloct 2 [[[2; IGNORE]]])] [] [] SPnone None [2; 2; 2; 2] [0; 0; 0; 0] [Replicate] 1 2
      = Some (E, ms, s, r) /\
    at3 s 0 0 0 = Some i /\ 0 <= i < prodZ (padded_shape E [2; 2; 2; 2]) /\
    coord 1 (unidx (padded_shape E [2; 2; 2; 2]) i) = 0.
Proof.
  destruct (extract_survey 0 [gx_m] [Some (mkloct 2 [[[2; IGNORE]]])] [] [] SPnone None [2; 2; 2; 2] [0; 0; 0; 0] [Replicate] 1 2)
    as [[[[E ms] s] r]|] eqn:H.
  - exists E, ms, s, r, 44. split; [reflexivity|].
    assert (G : match extract_survey 0 [gx_m] [Some (mkloct 2 [[[2; IGNORE]]])] [] [] SPnone None [2; 2; 2; 2] [0; 0; 0; 0] [Replicate] 1 2 with
      Some (E, _, s, _) => at3 s 0 0 0 = Some 44 /\ padded_shape E [2; 2; 2; 2] = [10; 11] | None => False end) by (vm_compute; auto).
    rewrite H in G. destruct G as [G1 G2]. rewrite G2. split; [exact G1|]. split; [split; [lia|reflexivity]|reflexivity].
  - exfalso. assert (G : match extract_survey 0 [gx_m] [Some (mkloct 2 [[[2; IGNORE]]])] [] [] SPnone None [2; 2; 2; 2] [0; 0; 0; 0] [Replicate] 1 2 with Some _ => true | None => false end = true) by (vm_compute; reflexivity).
    rewrite H in G. discriminate.
Qed.
Print Assumptions C19_partly_ignored_refuted.

(** C20: the survey area derived from the locations. *)
Theorem C20_survey_area shape locs sp E :
  get_survey_extents_from_locations shape locs sp = Some E ->
  (forall d x, (d < length shape)%nat -> is_active locs d x -> 0 <= x < nth d shape 0) ->
  length E = length shape /\
  forall d, (d < length shape)%nat ->
    let n := nth d shape 0 in
    let l := fst (nth d E (0, 0)) in
    let r := snd (nth d E (0, 0)) in
    (0 <= l <= n /\ 0 <= r <= n) /\
    ((forall L, ~ In (Some L) locs) -> l = 0 /\ r = n) /\
    (sp_side sp (2 * d) = None -> l = 0) /\ (sp_side sp (2 * d + 1) = None -> r = n) /\
    (forall x, is_active locs d x -> l <= x < r) /\
    (forall p, sp_side sp (2 * d) = Some p ->
       (forall x, is_active locs d x -> l <= Z.max 0 (x - p)) /\
       ((exists x, is_active locs d x) -> exists x, is_active locs d x /\ l = Z.max 0 (x - p))) /\
    (forall p, sp_side sp (2 * d + 1) = Some p ->
       (forall x, is_active locs d x -> Z.min n (x + p + 1) <= r) /\
       ((exists x, is_active locs d x) -> exists x, is_active locs d x /\ r = Z.min n (x + p + 1))).
Proof. exact (survey_area shape locs sp E). Qed.
Print Assumptions C20_survey_area.

Example C20_example :
  get_survey_extents_from_locations [6; 7] (gx_src ++ gx_rec) gx_sp = Some [(1, 6); (2, 7)] /\
  (forall d x, (d < 2)%nat -> is_active (gx_src ++ gx_rec) d x -> 0 <= x < nth d [6; 7] 0) /\
  is_active (gx_src ++ gx_rec) 0 1.
Proof.
  split; [reflexivity|]. split.
  - intros d x Hd Hx. apply is_active_In in Hx. destruct d as [|[|d]]; [| |lia]; vm_compute in Hx;
      cbn [nth]; intuition lia.
  - apply is_active_In. vm_compute. tauto.
Qed.

(** With survey_pad given and every location ignored, the "area" has its left end at the far side
    of the model and its right end at 1. *)
Theorem C20_all_ignored_refuted : exists shape locs sp E,
  get_survey_extents_from_locations shape locs sp = Some E /\
  (forall d x, (d < length shape)%nat -> is_active locs d x -> 0 <= x < nth d shape 0) /\
  snd (nth 0 E (0, 0)) < fst (nth 0 E (0, 0)).
Proof.
  exists [6], [Some (mkloct 1 [[[IGNORE]]])], (SPint 2), [(6, 1)]. split; [reflexivity|]. split.
  - intros d x Hd Hx. apply is_active_In in Hx. destruct d as [|d]; [vm_compute in Hx; contradiction|cbn in Hd; lia].
  - cbn. lia.
Qed.
Print Assumptions C20_all_ignored_refuted.

(** C21: the padded models. *)
Theorem C21_padded_models {X : Type} (z : X) models E pad modes nb nd ms shape :
  length pad = (2 * nd)%nat -> (0 < nd)%nat ->
  match models with m0 :: _ => last_n nd (t_shape m0) = shape | [] => True end ->
  ext_in E shape ->
  extract_models z models E pad modes nb = Some ms ->
  length ms = length models /\ length modes = length models /\
  forall k m mode m', nth_error models k = Some m -> nth_error modes k = Some mode -> nth_error ms k = Some m' ->
    (mbatch nd m = 1 \/ mbatch nd m = nb) /\
    t_shape m' = mbatch nd m ::
      map (fun d => snd (nth d E (0, 0)) - fst (nth d E (0, 0)) + nth (2 * d) pad 0 + nth (2 * d + 1) pad 0) (seq 0 (length E)) /\
    forall b q, 0 <= b < mbatch nd m -> length q = nd ->
      t_at m' (b :: q) =
        match mode with
        | Replicate => mval nd m b (nearest E (under E pad q))
        | Constant => if inb E (under E pad q) then mval nd m b (under E pad q) else z
        end.
Proof. exact (extract_models_spec z models E pad modes nb nd ms shape). Qed.
Print Assumptions C21_padded_models.

Example C21_example : exists ms, extract_models 0 [gx_m; gx_s] gx_E [3; 2; 4; 3] [Replicate; Constant] 2 = Some ms /\
  ext_in gx_E [6; 7] /\
  match ms with
  | [a; b] => t_at a [0; 0; 0] = 112 /\ t_at a [0; 9; 11] = 156 /\ t_at a [0; 4; 5] = 123 /\
              t_at b [1; 4; 5] = 1023 /\ t_at b [1; 0; 5] = 0
  | _ => False
  end.
Proof.
  destruct (extract_models 0 [gx_m; gx_s] gx_E [3; 2; 4; 3] [Replicate; Constant] 2) as [ms|] eqn:H.
  - exists ms. split; [reflexivity|]. split.
    { split; [reflexivity|]. intros d Hd. destruct d as [|[|d]]; cbn in *; lia. }
    assert (G : match extract_models 0 [gx_m; gx_s] gx_E [3; 2; 4; 3] [Replicate; Constant] 2 with Some ms => 
      match ms with
      | [a; b] => t_at a [0; 0; 0] = 112 /\ t_at a [0; 9; 11] = 156 /\ t_at a [0; 4; 5] = 123 /\
              t_at b [1; 4; 5] = 1023 /\ t_at b [1; 0; 5] = 0
      | _ => False end | None => False end) by (vm_compute; auto).
    rewrite H in G. exact G.
  - exfalso. assert (G : match extract_models 0 [gx_m; gx_s] gx_E [3; 2; 4; 3] [Replicate; Constant] 2 with Some ms => true | None => false end = true) by (vm_compute; reflexivity).
    rewrite H in G. discriminate.
Qed.

(** C32: the views nest; [E] is the survey area. *)
Theorem C32_views {X : Type} (x : tens X) fdp pw E nd nb :
  length fdp = (2 * nd)%nat -> length pw = (2 * nd)%nat -> length E = nd ->
  Forall (fun a => 0 <= a) fdp -> Forall (fun a => 0 <= a) pw ->
  (forall d, (d < nd)%nat -> fst (nth d E (0, 0)) <= snd (nth d E (0, 0))) ->
  t_shape x = nb :: map (fun d => snd (nth d E (0, 0)) - fst (nth d E (0, 0)) + nth (2 * d) (sum_pad fdp pw) 0 + nth (2 * d + 1) (sum_pad fdp pw) 0) (seq 0 (length E)) ->
  t_shape (get_view fdp pw x VFull) = nb :: map (fun d => snd (nth d E (0, 0)) - fst (nth d E (0, 0)) + nth (2 * d) (sum_pad fdp pw) 0 + nth (2 * d + 1) (sum_pad fdp pw) 0) (seq 0 (length E)) /\
  t_shape (get_view fdp pw x VPml) = nb :: map (fun d => snd (nth d E (0, 0)) - fst (nth d E (0, 0)) + nth (2 * d) pw 0 + nth (2 * d + 1) pw 0) (seq 0 (length E)) /\
  t_shape (get_view fdp pw x VInner) = nb :: map (fun e => snd e - fst e) E /\
  (forall b q, length q = nd ->
     t_at (get_view fdp pw x VPml) (b :: q) =
     t_at (get_view fdp pw x VFull) (b :: map (fun d => coord d q + nth (2 * d) fdp 0) (seq 0 nd))) /\
  (forall b q, length q = nd ->
     t_at (get_view fdp pw x VInner) (b :: q) =
     t_at (get_view fdp pw x VPml) (b :: map (fun d => coord d q + nth (2 * d) pw 0) (seq 0 nd))).
Proof. exact (view_spec x fdp pw E nd nb). Qed.
Print Assumptions C32_views.

(** For a model the inner view is the user's model on the survey area, nothing more or less. *)
Theorem C32_inner_model {X : Type} (z : X) models src rec wfs sp origin fdp pw modes nb nd E ms s r :
  length fdp = (2 * nd)%nat -> length pw = (2 * nd)%nat -> (0 < nd)%nat ->
  Forall (fun x => 0 <= x) fdp -> Forall (fun x => 0 <= x) pw ->
  extract_survey z models src rec wfs sp origin fdp pw modes nb nd = Some (E, ms, s, r) ->
  ext_in E (match models with m0 :: _ => last_n nd (t_shape m0) | [] => [] end) ->
  forall n m m', nth_error models n = Some m -> nth_error ms n = Some m' ->
    t_shape (get_view fdp pw m' VInner) = mbatch nd m :: map (fun e => snd e - fst e) E /\
    forall b q, 0 <= b < mbatch nd m -> length q = nd ->
      (forall d, (d < nd)%nat -> 0 <= coord d q < snd (nth d E (0, 0)) - fst (nth d E (0, 0))) ->
      t_at (get_view fdp pw m' VInner) (b :: q) =
      mval nd m b (map (fun d => fst (nth d E (0, 0)) + coord d q) (seq 0 nd)).
Proof. exact (inner_view_model z models src rec wfs sp origin fdp pw modes nb nd E ms s r). Qed.
Print Assumptions C32_inner_model.

Example C32_example : exists ms s r m', gx_run = Some (gx_E, ms, s, r) /\ nth_error ms 0 = Some m' /\
  t_shape (get_view gx_fdp gx_pw m' VInner) = [1; 5; 5] /\
  t_shape (get_view gx_fdp gx_pw m' VPml) = [1; 6; 8] /\
  t_at (get_view gx_fdp gx_pw m' VInner) [0; 1; 1] = 123.
Proof.
  destruct gx_some as (ms & s & r & H). 
  assert (G : match gx_run with Some (_, ms, _, _) => match nth_error ms 0 with Some m' =>
     t_shape (get_view gx_fdp gx_pw m' VInner) = [1; 5; 5] /\ t_shape (get_view gx_fdp gx_pw m' VPml) = [1; 6; 8] /\
     t_at (get_view gx_fdp gx_pw m' VInner) [0; 1; 1] = 123 | None => False end | None => False end) by (vm_compute; auto).
  rewrite H in G. destruct (nth_error ms 0) as [m'|] eqn:Em; [|contradiction]. exists ms, s, r, m'. auto.
Qed.

(** C33: the inferred number of dimensions agrees with every input that has at least one
    dimension; a tensor is given by its rank, locations by the size of their last dimension. *)
Theorem C33_agrees_partial models wfs locs zf yf xf nd :
  all_present (fun k => 1 <= k) wfs -> all_present (fun k => 0 <= k) locs ->
  all_present (fun k => 1 <= k) zf -> all_present (fun k => 1 <= k) yf -> all_present (fun k => 1 <= k) xf ->
  get_ndim models wfs locs zf yf xf = Some nd ->
  0 <= nd /\ Forall (fun m => m = nd \/ m = nd + 1) models /\
  all_present (fun k => k = nd + 1) wfs /\ all_present (fun k => k = nd) locs /\
  all_present (fun k => k = nd + 1) zf /\ all_present (fun k => k = nd + 1) yf /\
  all_present (fun k => k = nd + 1) xf /\
  (present wfs <> [] \/ present locs <> [] \/ present xf <> [] ->
     (present zf <> [] -> 3 <= nd) /\ (present yf <> [] -> 2 <= nd)).
Proof. exact (get_ndim_spec models wfs locs zf yf xf nd). Qed.
Print Assumptions C33_agrees_partial.

(** Consistent inputs are accepted. *)
Theorem C33_consistent_accepted models wfs locs zf yf xf nd :
  1 <= nd -> Forall (fun m => m = nd \/ m = nd + 1) models ->
  all_present (fun k => k = nd + 1) wfs -> all_present (fun k => k = nd) locs ->
  all_present (fun k => k = nd + 1) zf -> all_present (fun k => k = nd + 1) yf ->
  all_present (fun k => k = nd + 1) xf ->
  (present zf <> [] -> 3 <= nd) -> (present yf <> [] -> 2 <= nd) ->
  present (wfs ++ locs ++ zf ++ yf ++ xf) <> [] ->
  get_ndim models wfs locs zf yf xf = Some nd.
Proof. exact (get_ndim_complete models wfs locs zf yf xf nd). Qed.
Print Assumptions C33_consistent_accepted.

Example C33_example :
  get_ndim [2; 3; 2] [None; Some 3] [Some 2; None] [] [Some 3] [None] = Some 2 /\
  get_ndim [2; 3; 2] [None; Some 3] [Some 3; None] [] [Some 3] [None] = None /\
  get_ndim [2] [] [Some 2] [Some 3] [] [] = None.
Proof. repeat split; reflexivity. Qed.

(** The result is not checked to be at most 3 (nor at least 1). *)
Theorem C33_range_refuted :
  get_ndim [4] [] [Some 4] [] [] [] = Some 4 /\ get_ndim [0] [] [Some 0] [] [] [] = Some 0.
Proof. split; reflexivity. Qed.
Print Assumptions C33_range_refuted.

(** A z field that is the first input is not checked to belong to a three-dimensional run. *)
Theorem C33_z_field_refuted : get_ndim [2] [] [] [Some 3] [] [] = Some 2.
Proof. reflexivity. Qed.
Print Assumptions C33_z_field_refuted.

(** A tensor without dimensions does not count. *)
Theorem C33_scalar_refuted : get_ndim [2] [Some 0; Some 3] [] [] [] [] = Some 2.
Proof. reflexivity. Qed.
Print Assumptions C33_scalar_refuted.

(** C42: number of time steps and amplitude shapes; results have shape time, shot, source. *)
Theorem C42_amplitudes nt_opt amps n_batch ratio frac nt out :
  set_nt nt_opt amps ratio = Some nt ->
  set_source_amplitudes amps n_batch nt ratio frac = Some out ->
  1 <= ratio /\
  exists n, 0 <= n /\ nt = n * ratio /\ (forall m, nt_opt = Some m -> n = m) /\
    length out = length amps /\
    forall k, match nth_error amps k with
      | Some (Some a) => exists a1, a = [n_batch; a1; n] /\
          exists len, nth_error out k = Some [len; n_batch; a1] /\ (0 < n_batch -> 0 < a1 -> len = nt)
      | Some None => nth_error out k = Some [nt; n_batch; 0]
      | None => nth_error out k = None
      end.
Proof. exact (source_amplitudes_spec nt_opt amps n_batch ratio frac nt out). Qed.
Print Assumptions C42_amplitudes.

Example C42_example :
  set_nt None [None; Some [2; 3; 10]] 4 = Some 40 /\
  set_source_amplitudes [None; Some [2; 3; 10]] 2 40 4 (1 # 3) = Some [[40; 2; 0]; [40; 2; 3]] /\
  set_nt (Some 11) [None; Some [2; 3; 10]] 4 = None /\
  set_source_amplitudes [Some [2; 3; 10]; Some [2; 1; 9]] 2 40 4 0 = None.
Proof. repeat split; reflexivity. Qed.
