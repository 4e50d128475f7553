(** * The Python backend of the scalar propagator and its agreement with the compiled one. *)
From Coq Require Import List ZArith QArith Ring Ring_theory Lia Bool Permutation.
From Verif Require Import Ops Sums Grid Stencil DualNum ScalarModel ScalarRefine ScalarForward
  ScalarBackward ScalarAdjoint ScalarFunc ScalarApi ScalarGrad ScalarMore.
Import ListNotations.
Local Open Scope K_scope.

Local Arguments d1 : simpl never.
Local Arguments d2 : simpl never.
Local Arguments tmpf : simpl never.
Local Arguments wsum : simpl never.
Local Arguments inject : simpl never.
Local Arguments mask : simpl never.
Local Arguments gather : simpl never.

(** scalar.py:1991-2000 [create_or_pad] of every wavefield; no [zero_interior]. *)
Definition py_init (K : ops) (P : par K) (u : st K) : st K :=
  let pad f p := if interior K P p then f (unpad K P p) else 0 in
  mkst K (pad (s_wfc K u)) (pad (s_wfp K u)) (fun d => pad (s_psi K u d)) (fun d => pad (s_zeta K u d)).

(** scalar.py:2045-2081: the two nested loops; [v] is the wavespeed on the points. *)
Definition py_loop (K : ops) (P : par K) (v : field K) (f : Z -> list K) (sr n : Z) (s : st K)
    : st K * list (list K) :=
  fold_left (fun acc step =>
               let '(s, rs) := acc in
               let '(s', r) := py_run K P v f (Z.to_nat sr) (step * sr)%Z s in
               (s', rs ++ r)) (zrange 0 n) (s, []).

(** scalar.py:1950-2100 [scalar_python]: returned wavefields and receiver amplitudes (rows
    that are not written stay zero, scalar.py:2018-2019). *)
Definition scalar_python (K : ops) (P : par K) (v : field K) (sr : Z) (f : Z -> list K) (nt : Z)
    (u : st K) : st K * (Z -> list K) :=
  let '(s, rs) := py_loop K P v f sr (nt / sr) (py_init K P u) in
  (ucrop K P s, fun t => if (0 <=? t)%Z then nth (Z.to_nat t) rs (map (fun _ => 0) (p_rec P))
                         else map (fun _ => 0) (p_rec P)).

(** Locations are IGNORE_LOCATION or an interior cell (C19). *)
Definition loc_ok_py (K : ops) (P : par K) (l : Z) : Prop :=
  l = IGNORE \/ ((0 <= l < prodZ (p_shape P))%Z /\ interior K P (unidx (p_shape P) l) = true).

Section Py.
Variable K : ops.
Hypothesis Kr : is_ring K.
Add Ring KRing : Kr.
Variable P : par K.
Variable pw : nat -> Z * Z.
Notation shape := (p_shape P).
Notation fd := (fd_pad (p_acc P)).
Notation inint p := (interior K P p = true).
Notation inarr p := (inb (abox shape) p = true).
Notation nd := (length shape).
Hypothesis Hg : geom_ok K P pw.
Hypothesis Hsrc : Forall (loc_ok_py K P) (p_src P).
Hypothesis Hrec : Forall (loc_ok_py K P) (p_rec P).

Lemma loc_ok_of_py l : loc_ok_py K P l -> loc_ok K P l.
Proof. intros [->|H]; [left; unfold IGNORE; lia|right; exact H]. Qed.

(** Python state [s] (arrays) and central state [c]. *)
Definition prel (s c : st K) : Prop :=
  ssupp K P c /\
  (forall p, inarr p -> s_wfc K s p = s_wfc K c p) /\
  (forall p, inarr p -> s_wfp K s p = s_wfp K c p) /\
  (forall d p, (d < nd)%nat -> inarr p -> zone K P pw d p = false -> s_psi K s d p = s_psi K c d p) /\
  (forall d p, (d < nd)%nat -> inarr p -> zone K P pw d p = false -> s_zeta K s d p = s_zeta K c d p).

Lemma fits_in_array d k p : inarr p -> py_fits K P d p = true -> (- fd <= k <= fd)%Z -> inarr (shift d k p).
Proof.
  unfold py_fits. intros Ha Hf Hk. apply andb_true_iff in Hf. rewrite Z.leb_le, Z.ltb_lt in Hf.
  apply inb_abox in Ha. destruct Ha as [L Ha]. apply inb_abox. rewrite shift_length. split; [exact L|].
  intros e He. destruct (Nat.eq_dec d e) as [->|N].
  - rewrite coord_shift_same by lia. lia.
  - rewrite coord_shift_other by exact N. apply Ha. exact He.
Qed.
Lemma interior_fits d p : (d < nd)%nat -> inint p -> py_fits K P d p = true.
Proof.
  intros Hd Hp. apply inb_ibox in Hp. destruct Hp as [_ Hp]. specialize (Hp d Hd). unfold py_fits.
  apply andb_true_iff. rewrite Z.leb_le, Z.ltb_lt. lia.
Qed.
(** A point whose stencil fits along [d] but which is not interior has only non-interior
    points along [d]. *)
Lemma fits_line d k p : inarr p -> py_fits K P d p = true -> interior K P p = false -> 
  interior K P (shift d k p) = false.
Proof.
  intros Ha Hf Hi. destruct (interior K P (shift d k p)) eqn:E; [|reflexivity].
  exfalso. assert (H : inint p); [|congruence].
  unfold interior in *. apply inb_ibox in E. destruct E as [L E]. rewrite shift_length in L.
  apply inb_ibox. split; [exact L|]. intros e He. specialize (E e He).
  destruct (Nat.eq_dec d e) as [->|N].
  - unfold py_fits in Hf. apply andb_true_iff in Hf. rewrite Z.leb_le, Z.ltb_lt in Hf. lia.
  - rewrite coord_shift_other in E by exact N. exact E.
Qed.

Lemma py_diff1_mask d (f g : field K) p :
  (d < nd)%nat -> fsupp K P g -> (forall q, inarr q -> f q = g q) -> inarr p ->
  py_diff1 K P d f p = mask K P (d1 K P d g) p.
Proof.
  intros Hd Hs Hfg Hp. unfold py_diff1, mask. destruct (interior K P p) eqn:Hi.
  - rewrite (interior_fits d p Hd Hi). unfold d1, D1. apply DIFF1_ext. intros k Hk _.
    apply Hfg. apply fits_in_array; [assumption|apply interior_fits; assumption|assumption].
  - destruct (py_fits K P d p) eqn:Hf; [|reflexivity].
    unfold d1, D1. apply (DIFF1_zero K Kr). intros k Hk _. rewrite Hfg by (apply fits_in_array; assumption).
    apply Hs. apply fits_line; assumption.
Qed.
Lemma py_diff2_mask d (f g : field K) p :
  (d < nd)%nat -> fsupp K P g -> (forall q, inarr q -> f q = g q) -> inarr p ->
  py_diff2 K P d f p = mask K P (d2 K P d g) p.
Proof.
  intros Hd Hs Hfg Hp. unfold py_diff2, mask. destruct (interior K P p) eqn:Hi.
  - rewrite (interior_fits d p Hd Hi). unfold d2, D2. apply DIFF2_ext. intros k Hk.
    apply Hfg. apply fits_in_array; [assumption|apply interior_fits; assumption|assumption].
  - destruct (py_fits K P d p) eqn:Hf; [|reflexivity].
    unfold d2, D2. apply (DIFF2_zero K Kr). intros k Hk. rewrite Hfg by (apply fits_in_array; assumption).
    apply Hs. apply fits_line; assumption.
Qed.

Lemma pa_zone d p : (d < nd)%nat -> zone K P pw d p = true -> pa K P d p = 0.
Proof. intros Hd Hz. apply (zone_ab K P pw Hg d p Hd Hz). Qed.

Lemma a_psi_eq s c d q : prel s c -> (d < nd)%nat -> inarr q ->
  pa K P d q * s_psi K s d q = pa K P d q * s_psi K c d q.
Proof.
  intros (_ & _ & _ & H & _) Hd Hq. destruct (zone K P pw d q) eqn:Hz.
  - rewrite pa_zone by assumption. ring.
  - rewrite H by assumption. reflexivity.
Qed.
Lemma a_zeta_eq s c d q : prel s c -> (d < nd)%nat -> inarr q ->
  pa K P d q * s_zeta K s d q = pa K P d q * s_zeta K c d q.
Proof.
  intros (_ & _ & _ & _ & H) Hd Hq. destruct (zone K P pw d q) eqn:Hz.
  - rewrite pa_zone by assumption. ring.
  - rewrite H by assumption. reflexivity.
Qed.

Lemma py_tmp_eq s c d p : prel s c -> (d < nd)%nat -> inarr p ->
  py_tmp K P (s_wfc K s) (s_psi K s d) d p = mask K P (tmpf K P (s_wfc K c) (s_psi K c d) d) p.
Proof.
  intros R Hd Hp. pose proof R as ((S1 & S2 & S3 & S4) & W & _). unfold py_tmp.
  rewrite (py_diff1_mask d (s_wfc K s) (s_wfc K c)), (py_diff2_mask d (s_wfc K s) (s_wfc K c)) by assumption.
  rewrite (py_diff1_mask d (fun q => pa K P d q * s_psi K s d q) (fun q => pa K P d q * s_psi K c d q)).
  - unfold mask. destruct (interior K P p); unfold tmpf; ring.
  - exact Hd.
  - apply (fsupp_mul K Kr). apply S3. exact Hd.
  - intros. apply a_psi_eq; assumption.
  - exact Hp.
Qed.

Lemma py_wsum_eq s c p : prel s c -> inarr p -> py_wsum K P s p = mask K P (wsum K P c) p.
Proof.
  intros R Hp. unfold py_wsum.
  assert (G : forall l acc, (forall d, In d l -> (d < nd)%nat) ->
    fold_left (fun acc d => acc + (1 + pb K P d p) * py_tmp K P (s_wfc K s) (s_psi K s d) d p
                                   + pa K P d p * s_zeta K s d p) l acc
    = acc + mask K P (fun p => sumf l (fun d => (1 + pb K P d p) * tmpf K P (s_wfc K c) (s_psi K c d) d p
                                   + pa K P d p * s_zeta K c d p)) p).
  { induction l as [|d l IH]; intros acc Hl; cbn [fold_left sumf].
    - unfold mask. destruct (interior K P p); ring.
    - rewrite IH by (intros; apply Hl; right; assumption).
      rewrite (py_tmp_eq s c) by (assumption || (apply Hl; left; reflexivity)).
      rewrite (a_zeta_eq s c) by (assumption || (apply Hl; left; reflexivity)).
      unfold mask. destruct (interior K P p) eqn:Hi; [ring|].
      pose proof R as ((S1 & S2 & S3 & S4) & _).
      rewrite (S4 d) by (assumption || (apply Hl; left; reflexivity)). ring. }
  rewrite G by (intros d Hd; apply in_seq in Hd; lia). unfold mask, wsum, dims.
  destruct (interior K P p); ring.
Qed.

(** Masked gather and scatter. *)
Lemma py_gather_eq locs (f g : field K) : Forall (loc_ok_py K P) locs -> (forall p, inarr p -> f p = g p) ->
  py_gather K P locs f = gather K P locs g.
Proof.
  intros Hl Hfg. unfold py_gather, gather. apply map_ext_in. intros l Hin.
  rewrite Forall_forall in Hl. destruct (Hl l Hin) as [->|[H1 H2]].
  - reflexivity.
  - unfold py_masked, IGNORE. destruct (Z.eqb_spec l (- 2 ^ 31)); [lia|].
    destruct (Z.leb_spec 0 l); [|lia]. unfold py_flat. apply Hfg. apply (inint_arr K P). exact H2.
Qed.

Lemma py_scatter_eq locs amps (f g : field K) p :
  Forall (loc_ok_py K P) locs -> (forall q, inarr q -> f q = g q) -> inarr p ->
  py_scatter_add K P locs amps f p = inject K P locs amps g p.
Proof.
  intros Hl Hfg Hp. unfold py_scatter_add, py_unflat. rewrite Hp.
  (* the masked scatter is the kernels' [add_to_wavefield] up to adding zeros *)
  assert (G : forall ls am (m m' : arr K), Forall (loc_ok_py K P) ls -> (forall i, m i = m' i) -> forall i,
    fold_left (fun m la => upd m (fst la) (m (fst la) + snd la))
       (map (fun la => (py_masked (fst la), if (fst la =? IGNORE)%Z then 0 else snd la)) (combine ls am)) m i
    = add_to_wavefield K m' ls am i).
  { unfold add_to_wavefield. induction ls as [|l ls IH]; intros am m m' HF Hm i; [cbn; apply Hm|].
    destruct am as [|x am]; [cbn; apply Hm|]. inversion HF as [|? ? Hl1 Hl2]; subst.
    cbn [combine map fold_left fst snd]. apply IH; [exact Hl2|]. intros j.
    destruct Hl1 as [->|[H1 H2]].
    - unfold upd, py_masked. rewrite Z.eqb_refl. change (0 <=? IGNORE)%Z with false. cbv iota. destruct (j =? 0)%Z eqn:E; [apply Z.eqb_eq in E; subst; rewrite Hm; ring|apply Hm].
    - unfold py_masked. destruct (Z.eqb_spec l IGNORE); [unfold IGNORE in *; lia|].
      destruct (Z.leb_spec 0 l); [|lia]. unfold upd. destruct (j =? l)%Z; rewrite ?Hm; reflexivity. }
  rewrite (G locs amps _ (py_flat K P f)) by (assumption || reflexivity).
  apply (add_to_wavefield_inject K Kr P).
  - eapply Forall_impl; [|exact Hl]. apply loc_ok_of_py.
  - intros q Hq. unfold py_flat. rewrite unidx_idx by exact Hq. apply Hfg. exact Hq.
  - exact Hp.
Qed.

Definition py_step (v : field K) (ft : list K) (s : st K) : st K :=
  let s1 := py_forward_step K P v s in
  mkst K (py_scatter_add K P (p_src P) ft (s_wfc K s1)) (s_wfp K s1) (s_psi K s1) (s_zeta K s1).

Lemma py_step_rel v ft s c : prel s c ->
  prel (py_step v ft s) (step K P v ft c) /\
  (forall d p, (d < nd)%nat -> inarr p ->
     s_psi K (py_step v ft s) d p = s_psi K (step K P v ft c) d p /\
     s_zeta K (py_step v ft s) d p = s_zeta K (step K P v ft c) d p).
Proof.
  intros R. pose proof R as ((S1 & S2 & S3 & S4) & W & W' & _).
  assert (HL : Forall (loc_ok K P) (p_src P)) by (eapply Forall_impl; [|exact Hsrc]; apply loc_ok_of_py).
  assert (HZ : forall d p, (d < nd)%nat -> inarr p ->
     s_psi K (py_step v ft s) d p = s_psi K (step K P v ft c) d p /\
     s_zeta K (py_step v ft s) d p = s_zeta K (step K P v ft c) d p).
  { intros d p Hd Hp. cbn. rewrite (py_diff1_mask d (s_wfc K s) (s_wfc K c)) by assumption.
    rewrite (py_tmp_eq s c), (a_psi_eq s c), (a_zeta_eq s c) by assumption.
    unfold mask. destruct (interior K P p) eqn:Hi; [split; reflexivity|].
    rewrite (S3 d Hd p Hi), (S4 d Hd p Hi). split; ring. }
  split; [|exact HZ].
  split; [apply (ssupp_step K Kr P); [exact HL|exact (proj1 R)]|].
  split; [|split; [|split]].
  - intros p Hp. cbn. apply py_scatter_eq; [exact Hsrc| |exact Hp]. intros q Hq.
    rewrite (py_wsum_eq s c), W, W' by assumption. unfold mask.
    destruct (interior K P q) eqn:Hi; [reflexivity|].
    rewrite (S1 q Hi), (S2 q Hi). ring.
  - intros p Hp. cbn. apply W. exact Hp.
  - intros d p Hd Hp _. apply HZ; assumption.
  - intros d p Hd Hp _. apply HZ; assumption.
Qed.

Lemma py_run_spec v f n t s c : prel s c ->
  prel (fst (py_run K P v f n t s)) (state K P (fun _ => v) f n t c) /\
  snd (py_run K P v f n t s)
  = map (fun k => rec_amps K P (state K P (fun _ => v) f k t c)) (seq 0 n) /\
  ((0 < n)%nat -> forall d p, (d < nd)%nat -> inarr p ->
     s_psi K (fst (py_run K P v f n t s)) d p = s_psi K (state K P (fun _ => v) f n t c) d p /\
     s_zeta K (fst (py_run K P v f n t s)) d p = s_zeta K (state K P (fun _ => v) f n t c) d p).
Proof.
  revert t s c. induction n as [|n IH]; intros t s c R; cbn [py_run state].
  - cbn. split; [exact R|]. split; [reflexivity|]. lia.
  - destruct (py_step_rel v (f t) s c R) as [R1 Z1]. specialize (IH (t + 1)%Z _ _ R1).
    change (mkst K (py_scatter_add K P (p_src P) (f t) (s_wfc K (py_forward_step K P v s)))
      (s_wfp K (py_forward_step K P v s)) (s_psi K (py_forward_step K P v s))
      (s_zeta K (py_forward_step K P v s))) with (py_step v (f t) s).
    destruct (py_run K P v f n (t + 1)%Z (py_step v (f t) s)) as [s' rs] eqn:E. cbn [fst snd] in *.
    destruct IH as (I1 & I2 & I3). split; [exact I1|]. split.
    + cbn [seq map]. f_equal.
      * unfold rec_amps. cbn [state]. apply py_gather_eq; [exact Hrec|]. apply R.
      * rewrite I2. rewrite <- seq_shift, map_map. reflexivity.
    + intros _ d p Hd Hp. destruct n as [|n].
      * cbn in E. inversion E; subst. apply Z1; assumption.
      * apply I3; [lia|assumption|assumption].
Qed.

Lemma py_run_add v f n k t s :
  py_run K P v f (n + k) t s =
  (fst (py_run K P v f k (t + Z.of_nat n)%Z (fst (py_run K P v f n t s))),
   snd (py_run K P v f n t s) ++ snd (py_run K P v f k (t + Z.of_nat n)%Z (fst (py_run K P v f n t s)))).
Proof.
  revert t s. induction n as [|n IH]; intros t s; cbn [Nat.add py_run].
  - cbn [fst snd app]. replace (t + Z.of_nat 0)%Z with t by lia. apply surjective_pairing.
  - rewrite IH. match goal with |- context [py_run K P v f n (t + 1)%Z ?x] => set (S1 := x) end.
    destruct (py_run K P v f n (t + 1)%Z S1) as [s' rs] eqn:E. cbn [fst snd].
    replace (t + Z.of_nat (S n))%Z with (t + 1 + Z.of_nat n)%Z by lia. reflexivity.
Qed.

Lemma py_loop_run v f sr n s : (0 < sr)%Z -> (0 <= n)%Z ->
  py_loop K P v f sr n s = py_run K P v f (Z.to_nat (n * sr)) 0 s.
Proof.
  intros Hs Hn. pattern n. apply natlike_ind; [| |exact Hn].
  - cbn. reflexivity.
  - intros m Hm IH. unfold Z.succ. unfold py_loop in *. rewrite (zrange_snoc 0 (m + 1)) by lia.
    rewrite fold_left_app. replace (m + 1 - 1)%Z with m by ring. rewrite IH.
    replace (Z.to_nat ((m + 1) * sr)) with (Z.to_nat (m * sr) + Z.to_nat sr)%nat by nia.
    rewrite py_run_add. cbn [fold_left]. rewrite Z2Nat.id by nia. rewrite Z.add_0_l.
    destruct (py_run K P v f (Z.to_nat (m * sr)) 0 s) as [s1 r1]. cbn [fst snd].
    destruct (py_run K P v f (Z.to_nat sr) (m * sr) s1) as [s2 r2]. reflexivity.
Qed.

Lemma prel_init u : prel (py_init K P u) (uinit K P pw u).
Proof.
  split; [apply ssupp_uinit|]. repeat split; intros; cbn; try reflexivity.
  all: rewrite H1; reflexivity.
Qed.

(** Agreement. *)
Lemma backends_agree (v : arr K) f u nt sr vis vrg cb st0 U R S :
  fvis K P pw vis -> (0 < sr)%Z -> (0 <= nt)%Z -> cb_ok nt sr cb ->
  scalar_forward K P pw v vis vrg sr f nt cb st0 u = Some (U, R, S) ->
  let '(U', R') := scalar_python K P (fun p => v (idx shape p)) sr f nt u in
  (forall t, R t = R' t) /\
  (forall q, In q (upts K P) -> s_wfc K U q = s_wfc K U' q /\ s_wfp K U q = s_wfp K U' q) /\
  ((sr <= nt)%Z -> ueq K P U U') /\
  (forall q d, In q (upts K P) -> (d < nd)%nat -> zone K P pw d (topad K P q) = false ->
     s_psi K U d q = s_psi K U' d q /\ s_zeta K U d q = s_zeta K U' d q).
Proof.
  intros V Hs Hn Hc E. 
  assert (HL : Forall (loc_ok K P) (p_src P)) by (eapply Forall_impl; [|exact Hsrc]; apply loc_ok_of_py).
  assert (HL' : Forall (loc_ok K P) (p_rec P)) by (eapply Forall_impl; [|exact Hrec]; apply loc_ok_of_py).
  destruct (fwd_out K Kr P pw Hg HL HL' _ _ _ _ _ _ _ _ _ _ _ _ V Hs Hc E) as (A1 & A2 & A3 & _).
  unfold scalar_python. assert (Hq : (0 <= nt / sr)%Z) by (apply Z.div_pos; lia).
  rewrite py_loop_run by assumption.
  set (vf := fun p => v (idx shape p)) in *. change (Z.to_nat (nt / sr * sr)) with (nsteps nt sr).
  pose proof (py_run_spec vf f (nsteps nt sr) 0 _ _ (prel_init u)) as (B1 & B2 & B3).
  destruct (py_run K P vf f (nsteps nt sr) 0 (py_init K P u)) as [s rs]. cbn [fst snd] in *.
  destruct B1 as (_ & W1 & W2 & W3 & W4).
  assert (HI : forall q, In q (upts K P) -> inarr (topad K P q)).
  { intros q Hq'. apply (inint_arr K P). apply In_upts. exact Hq'. }
  assert (HW : forall q, In q (upts K P) -> s_wfc K U q = s_wfc K s (topad K P q) /\ s_wfp K U q = s_wfp K s (topad K P q)).
  { intros q Hq'. destruct (A1 q Hq') as (-> & -> & _). cbn. rewrite W1, W2 by (apply HI; exact Hq'). split; reflexivity. }
  split; [|split; [exact HW|split]].
  - intros t. destruct (Z.leb_spec 0 t); [|apply A3; lia].
    destruct (Z_lt_dec t (Z.of_nat (nsteps nt sr))).
    + rewrite B2. transitivity (rec_amps K P (state K P (fun _ => vf) f (Z.to_nat t) 0 (uinit K P pw u))).
      * rewrite <- A2 by lia. f_equal. lia.
      * symmetry.
        rewrite nth_indep with (d' := rec_amps K P (state K P (fun _ => vf) f 0 0 (uinit K P pw u)))
          by (rewrite map_length, seq_length; lia).
        rewrite map_nth with (f := fun k => rec_amps K P (state K P (fun _ => vf) f k 0 (uinit K P pw u))).
        rewrite seq_nth by lia. reflexivity.
    + rewrite A3 by lia. rewrite nth_overflow; [reflexivity|]. rewrite B2, map_length, seq_length. lia.
  - intros Hle q Hq'. destruct (HW q Hq') as (-> & ->). split; [reflexivity|]. split; [reflexivity|].
    intros d Hd. destruct (A1 q Hq') as (_ & _ & A). destruct (A d Hd) as (-> & ->). cbn.
    assert (Hpos : (0 < nsteps nt sr)%nat).
    { unfold nsteps. assert (0 < nt / sr)%Z by (apply Z.div_str_pos; lia). nia. }
    destruct (B3 Hpos d (topad K P q) Hd (HI q Hq')) as (-> & ->). split; reflexivity.
  - intros q d Hq' Hd Hz. destruct (A1 q Hq') as (_ & _ & A). destruct (A d Hd) as (-> & ->). cbn.
    rewrite W3, W4 by (assumption || (apply HI; exact Hq')). split; reflexivity.
Qed.
End Py.
