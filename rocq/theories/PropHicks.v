(** * C34: off-grid (Hicks) sources and receivers. *)
From Coq Require Import List ZArith QArith Qround Lia Bool Floats.SpecFloat.
From Verif Require Import Ops Sums Grid ScalarModel ScalarAdjoint ScalarForward Shots Hicks HicksThm HicksCells HicksFold HicksEx ScalarEx.
Import ListNotations.
Local Open Scope K_scope.

(** Spreading the amplitudes of any batch of shots and gathering at the same points are transposes. *)
Theorem C34_transpose : forall (K : ops) (Kr : is_ring K) wf hw eps fs fl shots pts np si amps res,
  hicks_points exact K wf hw eps fs fl shots = Some pts ->
  length (batch si (length amps)) = length amps -> (forall s, In s (batch si (length amps)) -> (s < length shots)%nat) ->
  length res = length amps -> Forall (fun a => length a = np) amps -> Forall (fun r => length r = nh K (hicks_of K pts)) res ->
  sumf (seq 0 (length amps)) (fun k => ldot (nth k (source K (hicks_of K pts) si amps) []) (nth k res []))
  = sumf (seq 0 (length amps)) (fun k => ldot (nth k amps []) (nth k (receiver K (hicks_of K pts) np si res) [])).
Proof. exact hicks_transpose_ok. Qed.
Print Assumptions C34_transpose.

(** The amplitudes put on the locations handed to the propagator that are cell [c] add up to the contributions
    of the points of the shot: none is lost, none counted twice. *)
Theorem C34_spread : forall (K : ops) (Kr : is_ring K) wf hw eps fs fl shots pts si amps k c,
  hicks_points exact K wf hw eps fs fl shots = Some pts ->
  length (batch si (length amps)) = length amps -> (forall s, In s (batch si (length amps)) -> (s < length shots)%nat) ->
  (k < length amps)%nat -> c <> (IGNORE, IGNORE) ->
  sumf (combine (nth k (get_locations K (hicks_of K pts) si) []) (nth k (source K (hicks_of K pts) si amps) []))
       (fun q => if zz_dec (fst q) c then snd q else 0)
  = sumf (seq 0 (length (nth k amps []))) (fun i =>
      let p := nth i (nth (nth k (batch si (length amps)) 0%nat) pts []) (([], []), ([], [])) in
      nth i (nth k amps []) 0 * (wt1 K (fst p) (fst c) * wt1 K (snd p) (snd c))).
Proof. exact hicks_spread_ok. Qed.
Print Assumptions C34_spread.

(** Values gathered from a field sampled at those locations. *)
Theorem C34_gather : forall (K : ops) (Kr : is_ring K) wf hw eps fs fl shots pts np si (f : nat -> Z * Z -> K) n k i,
  hicks_points exact K wf hw eps fs fl shots = Some pts ->
  length (batch si n) = n -> (forall s, In s (batch si n) -> (s < length shots)%nat) -> (k < n)%nat -> (i < np)%nat ->
  nth i (nth k (receiver K (hicks_of K pts) np si (map (fun j => map (f j) (nth j (get_locations K (hicks_of K pts) si) [])) (seq 0 n))) []) 0
  = let p := nth i (nth (nth k (batch si n) 0%nat) pts []) (([], []), ([], [])) in
    sumf (combine (fst (fst p)) (snd (fst p))) (fun a => sumf (combine (fst (snd p)) (snd (snd p))) (fun b => snd a * snd b * f k (fst a, fst b))).
Proof. exact hicks_gather_ok. Qed.
Print Assumptions C34_gather.

(** Every cell of every point of a shot occurs once among its locations; the rest is ignored padding. *)
Theorem C34_locations : forall (K : ops) wf hw eps fs fl shots pts s,
  hicks_points exact K wf hw eps fs fl shots = Some pts -> (s < length shots)%nat ->
  exists d m, nth s (h_locs K (hicks_of K pts)) [] = d ++ repeat (IGNORE, IGNORE) m /\ NoDup d /\
    forall c, In c d <-> exists p, In p (nth s pts []) /\ In (fst c) (fst (fst p)) /\ In (snd c) (fst (snd p)).
Proof. exact hicks_locations_ok. Qed.
Print Assumptions C34_locations.

(** Without free surfaces each point gets, in each dimension, the cell it lies on or the [2 * hw] cells around
    it with the weights of a location whose fraction differs by less than [eps]. *)
Theorem C34_weights : forall (K : ops) (wf : bool -> Q -> K) hw eps fl shots pts, 0 < eps ->
  Forall (Forall (fun p => 0 <= fst (pt_l exact p) /\ 0 <= snd (pt_l exact p))) shots ->
  hicks_points exact K wf hw eps ((false, false), (false, false)) fl shots = Some pts ->
  Forall2 (Forall2 (fun p q => wt_like K wf hw eps (fst (pt_l exact p)) (mono_in p 0) (fst q) /\
                               wt_like K wf hw eps (snd (pt_l exact p)) (mono_in p 1) (snd q))) shots pts.
Proof. exact hicks_weights. Qed.
Print Assumptions C34_weights.

(** First location with its fraction, surfaces on cells or half way between cells: weights minus those of the
    images.  Not for later locations with that fraction ([C34_cache_refuted]). *)
Theorem C34_free_surface_partial : forall (K : ops) (Kr : is_ring K) (wf : bool -> Q -> K) hw eps c (l : Q) fs (fl : Q * Q) mono s0 s1,
  (1 <= hw)%Z -> (fst fl == (s0 # 2))%Q -> (snd fl == (s1 # 2))%Q -> (Z.abs s0 < 700000000)%Z -> (Z.abs s1 < 700000000)%Z ->
  (s0 <= 2 * qtrunc l + 1)%Z -> (2 * qtrunc l + 1 <= s1)%Z -> (qtrunc l + hw + (s0 + 1) / 2 <= s1)%Z ->
  mono && qlt (qabs (l - inject_Z (qround l))%Q) eps = false -> cget K c (key_of exact eps l mono) = None ->
  exists ls w c', one_dim exact K wf hw eps c l fs fl mono = Some (ls, w, c') /\
    let b := fst fs && (2 * (qtrunc l - hw + 1) <? s0)%Z in
    let e := snd fs && (s1 <? 2 * (qtrunc l + hw))%Z in
    let f1 y := free_wt K wf hw mono l y - (if b then free_wt K wf hw mono l (s0 - y) else 0) in
    forall y, wt1 K (ls, w) y
      = if (negb (fst fs) || (s0 <=? 2 * y)%Z) && (negb (snd fs) || (2 * y <=? s1)%Z)
        then f1 y - (if e then f1 (s1 - y)%Z else 0) else 0.
Proof. exact one_dim_image. Qed.
Print Assumptions C34_free_surface_partial.

(** In binary32 two offsets of one location are sent to the same cell and a contribution is lost, unless the
    weight of the first offset is zero. *)
Theorem C34_float32_refuted : exists (hw : Z) (l : spec_float) (x0 : spec_float), (sf_Q l == 16137307 # 4194304)%Q /\
  wcells f32 hw l = [0; 0; 1; 3; 4; 5; 6; 7]%Z /\
  forall (K : ops) (Kr : is_ring K) (wf : bool -> spec_float -> K), wf true x0 <> 0 ->
  exists pts, hicks_points f32 K wf hw (1#100000) ((false, false), (false, false)) ((0, 0), (0, 0))%Q [[mkpoint f32 (l, sf_of 5) true 0]] = Some pts /\
  exists a r : list K, length a = 1%nat /\ length r = nh K (hicks_of K pts) /\
    ldot (nth 0 (source K (hicks_of K pts) None [a]) []) r <> ldot a (nth 0 (receiver K (hicks_of K pts) 1 None [r]) []).
Proof. exact f32_refuted_ok. Qed.
Print Assumptions C34_float32_refuted.

(** With a free surface, the value gathered at a point far from it depends on the other points: weights kept in
    the cache are those modified for a point near the surface. *)
Theorem C34_cache_refuted : exists (near far : point exact) fs fl hw, forall (K : ops) (Kr : is_ring K) (wf : bool -> Q -> K),
  wf true (-(1#2))%Q <> 0 ->
  exists p1 p2, hicks_points exact K wf hw (1#100000) fs fl [[far]] = Some p1 /\
    hicks_points exact K wf hw (1#100000) fs fl [[near; far]] = Some p2 /\
    exists f : Z * Z -> K,
    nth 0 (nth 0 (receiver K (hicks_of K p1) 1 None [map f (nth 0 (get_locations K (hicks_of K p1) None) [])]) []) 0
    <> nth 1 (nth 0 (receiver K (hicks_of K p2) 2 None [map f (nth 0 (get_locations K (hicks_of K p2) None) [])]) []) 0.
Proof. exact cache_refuted_ok. Qed.
Print Assumptions C34_cache_refuted.

(** ** Examples *)
Example hx_points : hicks_points exact Qc_ops hx_w 2 (1#100000) hx_fs hx_fl hx_shots = Some hx_get.
Proof. exact hx_some. Qed.
Example hx_batch : length (batch (Some [1; 0; 1]%nat) 3) = 3%nat /\ forall s, In s (batch (Some [1; 0; 1]%nat) 3) -> (s < length hx_shots)%nat.
Proof. split; [reflexivity|]. intros s [<-|[<-|[<-|[]]]]; cbn; lia. Qed.
(** Cell (4, 5) gets contributions of all three points of the first shot. *)
Example hx_shared : forallb (fun p : pw2 Qc_ops => nz (wt1 Qc_ops (fst p) 4 * wt1 Qc_ops (snd p) 5)) (nth 0 hx_get []) = true.
Proof. vm_compute. reflexivity. Qed.
(** First shot: 36 uses of cells, 20 cells, 12 entries of padding. *)
Example hx_sizes : map (@length _) (h_locs Qc_ops (hicks_of Qc_ops hx_get)) = [32; 32]%nat /\
  map (map (@length _)) (h_idxs Qc_ops (hicks_of Qc_ops hx_get)) = [[16; 4; 16]; [12; 16; 16]]%nat /\
  map (fun l => length (filter (fun c => (0 <=? fst c)%Z) l)) (h_locs Qc_ops (hicks_of Qc_ops hx_get)) = [20; 32]%nat.
Proof. vm_compute. repeat split; reflexivity. Qed.
Example hx_nonneg : Forall (Forall (fun p => 0 <= fst (pt_l exact p) /\ 0 <= snd (pt_l exact p))) hx_shots.
Proof. repeat constructor; cbn; discriminate. Qed.
(** Surface at cell 1 and between cells 3 and 4, location 9/4, half width 2: cells 1, 2, 3. *)
Example fx_hyps : (1 <= 2 /\ 2 <= 2 * qtrunc (9#4) + 1 /\ 2 * qtrunc (9#4) + 1 <= 7 /\ qtrunc (9#4) + 2 + (2 + 1) / 2 <= 7)%Z /\
  true && qlt (qabs ((9#4) - inject_Z (qround (9#4)))%Q) (1#100000) = false /\
  (option_map (fun r => fst (fst r)) (one_dim exact Qc_ops hx_w 2 (1#100000) [] (9#4) (true, true) (1, 7#2)%Q true) = Some [1; 2; 3]%Z).
Proof. vm_compute. repeat split; discriminate || reflexivity. Qed.
