(** * Off-grid locations: examples and counterexamples. *)
From Coq Require Import List ZArith QArith Qcanon Qround Lia Bool Floats.SpecFloat.
From Verif Require Import Ops Sums Grid ScalarModel ScalarAdjoint ScalarForward Shots Hicks HicksThm HicksCells HicksFold.
Import ListNotations.

(** ** Example: three points whose windows overlap, two shots, one dipole, a free surface *)
Definition hx_w (mono : bool) (x : Q) : Qc := if mono then Q2Qc (1 - x * x / 5) else Q2Qc (x / 3 + 1).
Definition hx_p (a b : Q) (m : bool) (d : Z) : point exact := mkpoint exact (a, b) m d.
Definition hx_shots : list (list (point exact)) :=
  [[hx_p (13#4) (9#2) true 0; hx_p (15#4) 5 true 0; hx_p (17#4) (9#2) false 1];
   [hx_p (1#2) (7#3) true 0; hx_p (3#2) (7#3) true 0; hx_p 6 (1#3) false 0]].
Definition hx_fs := ((true, false), (false, false)).
Definition hx_fl : (Q * Q) * (Q * Q) := ((-(1#2), 0), (0, 0))%Q.
Definition hx_pts := hicks_points exact Qc_ops hx_w 2 (1#100000) hx_fs hx_fl hx_shots.
Definition hx_get : list (list (pw2 Qc_ops)) := match hx_pts with Some p => p | None => [] end.
Lemma hx_some : hx_pts = Some hx_get.
Proof. unfold hx_get. destruct hx_pts eqn:E; [reflexivity|]. exfalso. vm_compute in E. discriminate. Qed.

Local Open Scope K_scope.

(** ** binary32 counterexample *)
Definition f32_l : spec_float := S754_finite false 16137307 (-22).
Definition f32_x0 : spec_float := Eval vm_compute in nth 0 (offsets f32 4 f32_l) S754_nan.
Lemma f32_cells : wcells f32 4 f32_l = [0; 0; 1; 3; 4; 5; 6; 7]%Z.
Proof. vm_compute. reflexivity. Qed.
Lemma f32_value : (sf_Q f32_l == 16137307 # 4194304)%Q.
Proof. reflexivity. Qed.

Section Refute.
Variable K : ops.
Hypothesis Kr : is_ring K.
Add Ring KRingX : Kr.
Definition f32_shots : list (list (point f32)) := [[mkpoint f32 (f32_l, sf_of 5) true 0]].
Definition nofs := ((false, false), (false, false)).
Definition nofl : (Q * Q) * (Q * Q) := ((0, 0), (0, 0))%Q.
Lemma f32_refuted (wf : bool -> spec_float -> K) : wf true f32_x0 <> 0 ->
  exists pts, hicks_points f32 K wf 4 (1#100000) nofs nofl f32_shots = Some pts /\
  exists a r : list K, length a = 1%nat /\ length r = nh K (hicks_of K pts) /\
    ldot (nth 0 (source K (hicks_of K pts) None [a]) []) r <> ldot a (nth 0 (receiver K (hicks_of K pts) 1 None [r]) []).
Proof.
  intros Hw.
  set (pts := [[(([0; 0; 1; 3; 4; 5; 6; 7]%Z, map (wf true) (offsets f32 4 f32_l)), ([5%Z], [1 : K]))]]).
  exists pts. split.
  { unfold hicks_points, pts. vm_compute. reflexivity. }
  exists [1], [1; 0; 0; 0; 0; 0; 0]. split; [reflexivity|]. split; [reflexivity|].
  destruct (offsets f32 4 f32_l) as [|x0 l] eqn:E; [discriminate|].
  assert (X : x0 = f32_x0) by (apply (f_equal (fun l => nth 0 l S754_nan)) in E; vm_compute in E; cbn in E; symmetry; exact E).
  subst x0. do 7 (destruct l as [|? l]; [vm_compute in E; discriminate|]). destruct l; [|vm_compute in E; discriminate].
  unfold pts. intros H. apply Hw.
  cbv - [oadd omul o0 o1 osub oopp car f32_x0] in H.
  match type of H with ?a = ?b => transitivity (b - a); [ring|rewrite <- H; ring] end.
Qed.

(** ** The cache of weights and free surfaces *)
Definition ca_A : point exact := mkpoint exact ((1#2), 5)%Q true 0.
Definition ca_B : point exact := mkpoint exact ((21#2), 5)%Q true 0.
Definition ca_fs := ((true, false), (false, false)).
Definition ca_f (c : Z * Z) : K := if zz_dec c (10, 5)%Z then 1 else 0.
Lemma cache_refuted (wf : bool -> Q -> K) : wf true (-(1#2))%Q <> 0 ->
  exists p1 p2, hicks_points exact K wf 2 (1#100000) ca_fs nofl [[ca_B]] = Some p1 /\
    hicks_points exact K wf 2 (1#100000) ca_fs nofl [[ca_A; ca_B]] = Some p2 /\
    nth 0 (nth 0 (receiver K (hicks_of K p1) 1 None [map ca_f (nth 0 (get_locations K (hicks_of K p1) None) [])]) []) 0
    <> nth 1 (nth 0 (receiver K (hicks_of K p2) 2 None [map ca_f (nth 0 (get_locations K (hicks_of K p2) None) [])]) []) 0.
Proof.
  intros Hw. eexists _, _. split; [cbv - [oadd omul o0 o1 osub oopp car]; reflexivity|]. split; [cbv - [oadd omul o0 o1 osub oopp car]; reflexivity|].
  intros H. apply Hw. cbv - [oadd omul o0 o1 osub oopp car] in H.
  match type of H with ?a = ?b => transitivity (a - b); [|rewrite H; ring] end.
  change (- (1 # 2))%Q with (-1 # 2). ring.
Qed.
End Refute.

(** ** Statements as used in [PropHicks] *)
Lemma hicks_transpose_ok : forall (K : ops) (Kr : is_ring K) wf hw eps fs fl shots pts np si amps res,
  hicks_points exact K wf hw eps fs fl shots = Some pts ->
  length (batch si (length amps)) = length amps -> (forall s, In s (batch si (length amps)) -> (s < length shots)%nat) ->
  length res = length amps -> Forall (fun a => length a = np) amps -> Forall (fun r => length r = nh K (hicks_of K pts)) res ->
  sumf (seq 0 (length amps)) (fun k => ldot (nth k (source K (hicks_of K pts) si amps) []) (nth k res []))
  = sumf (seq 0 (length amps)) (fun k => ldot (nth k amps []) (nth k (receiver K (hicks_of K pts) np si res) [])).
Proof.
  intros K Kr wf hw eps fs fl shots pts np si amps res Hp Hb Hs. pose proof (hicks_points_ok K wf hw eps fs fl shots pts Hp) as F.
  assert (HF : Forall (Forall (pw_ok K)) pts) by (clear - F; induction F as [|? ? ? ? [? ?]]; constructor; assumption).
  assert (HL : length pts = length shots) by (clear - F; induction F; cbn; congruence).
  apply (hicks_transpose K Kr pts HF). split; [exact Hb|]. intros s H. rewrite HL. apply Hs, H.
Qed.
Lemma hicks_spread_ok : forall (K : ops) (Kr : is_ring K) wf hw eps fs fl shots pts si amps k c,
  hicks_points exact K wf hw eps fs fl shots = Some pts ->
  length (batch si (length amps)) = length amps -> (forall s, In s (batch si (length amps)) -> (s < length shots)%nat) ->
  (k < length amps)%nat -> c <> (IGNORE, IGNORE) ->
  sumf (combine (nth k (get_locations K (hicks_of K pts) si) []) (nth k (source K (hicks_of K pts) si amps) []))
       (fun q => if zz_dec (fst q) c then snd q else 0)
  = sumf (seq 0 (length (nth k amps []))) (fun i =>
      let p := nth i (nth (nth k (batch si (length amps)) 0%nat) pts []) (([], []), ([], [])) in
      nth i (nth k amps []) 0 * (wt1 K (fst p) (fst c) * wt1 K (snd p) (snd c))).
Proof.
  intros K Kr wf hw eps fs fl shots pts si amps k c Hp Hb Hs. pose proof (hicks_points_ok K wf hw eps fs fl shots pts Hp) as F.
  assert (HF : Forall (Forall (pw_ok K)) pts) by (clear - F; induction F as [|? ? ? ? [? ?]]; constructor; assumption).
  assert (HL : length pts = length shots) by (clear - F; induction F; cbn; congruence).
  apply (hicks_spread K Kr pts HF). split; [exact Hb|]. intros s H. rewrite HL. apply Hs, H.
Qed.
Lemma hicks_gather_ok : forall (K : ops) (Kr : is_ring K) wf hw eps fs fl shots pts np si (f : nat -> Z * Z -> K) n k i,
  hicks_points exact K wf hw eps fs fl shots = Some pts ->
  length (batch si n) = n -> (forall s, In s (batch si n) -> (s < length shots)%nat) -> (k < n)%nat -> (i < np)%nat ->
  nth i (nth k (receiver K (hicks_of K pts) np si (map (fun j => map (f j) (nth j (get_locations K (hicks_of K pts) si) [])) (seq 0 n))) []) 0
  = let p := nth i (nth (nth k (batch si n) 0%nat) pts []) (([], []), ([], [])) in
    sumf (combine (fst (fst p)) (snd (fst p))) (fun a => sumf (combine (fst (snd p)) (snd (snd p))) (fun b => snd a * snd b * f k (fst a, fst b))).
Proof.
  intros K Kr wf hw eps fs fl shots pts np si f n k i Hp Hb Hs. pose proof (hicks_points_ok K wf hw eps fs fl shots pts Hp) as F.
  assert (HF : Forall (Forall (pw_ok K)) pts) by (clear - F; induction F as [|? ? ? ? [? ?]]; constructor; assumption).
  assert (HL : length pts = length shots) by (clear - F; induction F; cbn; congruence).
  apply (hicks_gather K Kr pts HF). split; [exact Hb|]. intros s H. rewrite HL. apply Hs, H.
Qed.
Lemma hicks_locations_ok : forall (K : ops) wf hw eps fs fl shots pts s,
  hicks_points exact K wf hw eps fs fl shots = Some pts -> (s < length shots)%nat ->
  exists d m, nth s (h_locs K (hicks_of K pts)) [] = d ++ repeat (IGNORE, IGNORE) m /\ NoDup d /\
    forall c, In c d <-> exists p, In p (nth s pts []) /\ In (fst c) (fst (fst p)) /\ In (snd c) (fst (snd p)).
Proof.
  intros K wf hw eps fs fl shots pts s Hp Hs. pose proof (hicks_points_ok K wf hw eps fs fl shots pts Hp) as F.
  assert (HF : Forall (Forall (pw_ok K)) pts) by (clear - F; induction F as [|? ? ? ? [? ?]]; constructor; assumption).
  assert (HL : length pts = length shots) by (clear - F; induction F; cbn; congruence).
  apply (hicks_locs_nodup K pts). rewrite HL. exact Hs.
Qed.
Lemma f32_refuted_ok : exists (hw : Z) (l : spec_float) (x0 : spec_float), (sf_Q l == 16137307 # 4194304)%Q /\
  wcells f32 hw l = [0; 0; 1; 3; 4; 5; 6; 7]%Z /\
  forall (K : ops) (Kr : is_ring K) (wf : bool -> spec_float -> K), wf true x0 <> 0 ->
  exists pts, hicks_points f32 K wf hw (1#100000) ((false, false), (false, false)) ((0, 0), (0, 0))%Q [[mkpoint f32 (l, sf_of 5) true 0]] = Some pts /\
  exists a r : list K, length a = 1%nat /\ length r = nh K (hicks_of K pts) /\
    ldot (nth 0 (source K (hicks_of K pts) None [a]) []) r <> ldot a (nth 0 (receiver K (hicks_of K pts) 1 None [r]) []).
Proof. exists 4%Z, f32_l, f32_x0. split; [exact f32_value|]. split; [exact f32_cells|]. intros K Kr wf. exact (f32_refuted K Kr wf). Qed.
Lemma cache_refuted_ok : exists (near far : point exact) fs fl hw, forall (K : ops) (Kr : is_ring K) (wf : bool -> Q -> K),
  wf true (-(1#2))%Q <> 0 ->
  exists p1 p2, hicks_points exact K wf hw (1#100000) fs fl [[far]] = Some p1 /\
    hicks_points exact K wf hw (1#100000) fs fl [[near; far]] = Some p2 /\
    exists f : Z * Z -> K,
    nth 0 (nth 0 (receiver K (hicks_of K p1) 1 None [map f (nth 0 (get_locations K (hicks_of K p1) None) [])]) []) 0
    <> nth 1 (nth 0 (receiver K (hicks_of K p2) 2 None [map f (nth 0 (get_locations K (hicks_of K p2) None) [])]) []) 0.
Proof.
  exists ca_A, ca_B, ca_fs, nofl, 2%Z. intros K Kr wf Hw. destruct (cache_refuted K Kr wf Hw) as (p1 & p2 & H1 & H2 & H3).
  exists p1, p2. split; [exact H1|]. split; [exact H2|]. exists (ca_f K). exact H3.
Qed.
