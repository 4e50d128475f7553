(** * The run-level theorems of StagRun for the acoustic and elastic propagators. *)
From Coq Require Import List ZArith Ring Ring_theory Lia Bool Permutation.
From Verif Require Import Ops Sums Grid Stencil ScalarModel ScalarRefine ScalarMore StagAdj
  Stag StagKernel StagCell StagRefine StagGrad AcousticModel AcousticThm ElasticModel ElasticThm StagEqs StagRun.
Import ListNotations.
Local Open Scope K_scope.

(** The states that the forward callbacks see, [AcousticForwardFunc.forward] / [ElasticForwardFunc.forward] (acoustic.py:947-962, elastic.py:1499-1514). *)
Definition acoustic_calls (nd : nat) (K : ops) (P : spar (ac_sys nd) K) (pw : nat -> Z * Z) (dt : K) (kb : aM -> arr K)
    visA visB (kg bg : bool) (sr : Z) (f : krec (ac_sys nd) K) (nt c : Z) (store : aM -> Z -> arr K) (u : sst (ac_sys nd) K) :=
  k_calls (ac_sys nd) (ac_kern nd) K P (ac_num nd K dt kb) pw visA visB (ac_flag kg bg) sr f nt c store u.
Definition elastic_calls (nd : nat) (K : ops) (P : spar (el_sys nd) K) (pw : nat -> Z * Z) (dt : K) (md : eM -> arr K)
    visA visB (lg mg bg : bool) (sr : Z) (f : krec (el_sys nd) K) (nt c : Z) (store : eQ -> Z -> arr K) (u : sst (el_sys nd) K) :=
  k_calls (el_sys nd) (el_kern nd) K P (el_num nd K dt md) pw visA visB (el_fq lg mg bg) sr f nt c store u.

(** The model parameters of a propagator with [nd] dimensions. *)
Definition ac_models (nd : nat) (k : aM) : Prop := match k with MK => True | MB d => (d < nd)%nat end.
Definition el_models (nd : nat) (k : eM) : Prop := match k with ML | MMU => True | MS i j => (i < j < nd)%nat | EB d => (d < nd)%nat end.

Lemma ac_models_grp nd k : ac_models nd k -> exists A h, In h (kgrp (ac_kern nd) A) /\ In k (g_M h).
Proof.
  destruct k as [|d]; intros H.
  - exists false. eexists. split; [left; reflexivity|]. left. reflexivity.
  - exists true. eexists. split; [apply in_map, in_seq; split; [apply Nat.le_0_l|exact H]|]. left. reflexivity.
Qed.
Lemma el_models_grp nd k : el_models nd k -> exists A h, In h (kgrp (el_kern nd) A) /\ In k (g_M h).
Proof.
  destruct k as [| |i j|d]; intros H.
  - exists false. eexists. split; [left; reflexivity|]. left. reflexivity.
  - exists false. eexists. split; [left; reflexivity|]. right. left. reflexivity.
  - exists false, (el_gS nd (i, j)). split; [right; apply in_map, In_pairs, H|]. left. reflexivity.
  - exists true. eexists. split; [apply in_map, in_seq; split; [apply Nat.le_0_l|exact H]|]. left. reflexivity.
Qed.

Ltac ac_oks := match goal with H : length (sp_shape ?P) = ?nd |- _ =>
  assert (Sok : sys_ok (ac_sys nd) (length (sp_shape P))) by (rewrite H; apply ac_sys_ok);
  assert (Hk : kern_ok (ac_sys nd) (ac_kern nd) (length (sp_shape P))) by (rewrite H; apply ac_kern_ok) end.
Ltac el_oks := match goal with H : length (sp_shape ?P) = ?nd |- _ =>
  assert (Sok : sys_ok (el_sys nd) (length (sp_shape P))) by (rewrite H; apply el_sys_ok);
  assert (Hk : kern_ok (el_sys nd) (el_kern nd) (length (sp_shape P))) by (rewrite H; apply el_kern_ok; assumption) end.

Lemma acoustic_superposition (nd : nat) (K : ops) (Kr : is_ring K) (P : spar (ac_sys nd) K) (pw : nat -> Z * Z) :
  length (sp_shape P) = nd -> locs_ok (ac_sys nd) K P (sp_src P) -> locs_ok (ac_sys nd) K P (sp_rec P) -> sgeom (ac_sys nd) K P pw ->
  forall (dt : K) (kb : aM -> arr K) (a b : K) f g x y nt sr visA1 visB1 visA2 visB2 visA visB kg1 bg1 kg2 bg2 kg bg cb1 cb2 cb st1 st2 st U1 R1 S1 U2 R2 S2 U R S,
  ac_fvis nd K P pw true visA1 -> ac_fvis nd K P pw false visB1 -> ac_fvis nd K P pw true visA2 -> ac_fvis nd K P pw false visB2 -> ac_fvis nd K P pw true visA -> ac_fvis nd K P pw false visB ->
  nt_ok nt sr cb1 -> nt_ok nt sr cb2 -> nt_ok nt sr cb ->
  (forall t c, (0 <= t < nt)%Z -> In c (ac_allX nd) -> length (f t c) = length (sp_src P c) /\ length (g t c) = length (sp_src P c)) ->
  acoustic_forward nd K P pw dt kb visA1 visB1 kg1 bg1 sr f nt cb1 st1 x = Some (U1, R1, S1) ->
  acoustic_forward nd K P pw dt kb visA2 visB2 kg2 bg2 sr g nt cb2 st2 y = Some (U2, R2, S2) ->
  acoustic_forward nd K P pw dt kb visA visB kg bg sr (fun t c => lc_l a b (f t c) (g t c)) nt cb st (lc_s a b x y) = Some (U, R, S) ->
  sseq (ac_sys nd) K U (lc_s a b U1 U2) /\ forall t c, In c (ac_allX nd) -> R t c = lc_l a b (R1 t c) (R2 t c).
Proof.
  intros Hnd Hs Hr Hg dt kb a b f g x y nt sr visA1 visB1 visA2 visB2 visA visB kg1 bg1 kg2 bg2 kg bg cb1 cb2 cb st1 st2 st U1 R1 S1 U2 R2 S2 U R S.
  ac_oks.
  exact (stag_superposition (ac_sys nd) (ac_kern nd) K Kr P (ac_num nd K dt kb) (ac_kc dt kb) pw Sok Hk (ac_num_ok nd K Kr dt kb) Hs Hr Hg a b f g x y nt sr visA1 visB1 visA2 visB2 visA visB (ac_flag kg1 bg1) (ac_flag kg2 bg2) (ac_flag kg bg) cb1 cb2 cb st1 st2 st U1 R1 S1 U2 R2 S2 U R S).
Qed.

Lemma acoustic_restart (nd : nat) (K : ops) (Kr : is_ring K) (P : spar (ac_sys nd) K) (pw : nat -> Z * Z) :
  length (sp_shape P) = nd -> locs_ok (ac_sys nd) K P (sp_src P) -> locs_ok (ac_sys nd) K P (sp_rec P) -> sgeom (ac_sys nd) K P pw ->
  forall (dt : K) (kb : aM -> arr K) f u n1 n2 sr visA1 visB1 visA2 visB2 visA visB kg1 bg1 kg2 bg2 kg bg cb1 cb2 cb st1 st2 st U1 R1 S1 U2 R2 S2 U R S,
  ac_fvis nd K P pw true visA1 -> ac_fvis nd K P pw false visB1 -> ac_fvis nd K P pw true visA2 -> ac_fvis nd K P pw false visB2 -> ac_fvis nd K P pw true visA -> ac_fvis nd K P pw false visB ->
  (n1 mod sr = 0)%Z -> nt_ok n1 sr cb1 -> nt_ok n2 sr cb2 -> nt_ok (n1 + n2) sr cb ->
  acoustic_forward nd K P pw dt kb visA1 visB1 kg1 bg1 sr f n1 cb1 st1 u = Some (U1, R1, S1) ->
  acoustic_forward nd K P pw dt kb visA2 visB2 kg2 bg2 sr (fun t => f (n1 + t)%Z) n2 cb2 st2 U1 = Some (U2, R2, S2) ->
  acoustic_forward nd K P pw dt kb visA visB kg bg sr f (n1 + n2) cb st u = Some (U, R, S) ->
  sseq (ac_sys nd) K U U2 /\ (forall t c, (0 <= t < n1)%Z -> In c (ac_allX nd) -> R t c = R1 t c) /\
  (forall t c, (0 <= t)%Z -> In c (ac_allX nd) -> R (n1 + t)%Z c = R2 t c).
Proof.
  intros Hnd Hs Hr Hg dt kb f u n1 n2 sr visA1 visB1 visA2 visB2 visA visB kg1 bg1 kg2 bg2 kg bg cb1 cb2 cb st1 st2 st U1 R1 S1 U2 R2 S2 U R S.
  ac_oks.
  exact (stag_restart (ac_sys nd) (ac_kern nd) K Kr P (ac_num nd K dt kb) (ac_kc dt kb) pw Sok Hk (ac_num_ok nd K Kr dt kb) Hs Hr Hg f u n1 n2 sr visA1 visB1 visA2 visB2 visA visB (ac_flag kg1 bg1) (ac_flag kg2 bg2) (ac_flag kg bg) cb1 cb2 cb st1 st2 st U1 R1 S1 U2 R2 S2 U R S).
Qed.

Lemma acoustic_ignored_source (nd : nat) (K : ops) (Kr : is_ring K) (P : spar (ac_sys nd) K) (pw : nat -> Z * Z) :
  length (sp_shape P) = nd -> locs_ok (ac_sys nd) K P (sp_src P) -> locs_ok (ac_sys nd) K P (sp_rec P) -> sgeom (ac_sys nd) K P pw ->
  forall (dt : K) (kb : aM -> arr K) f f' u nt sr visA1 visB1 visA2 visB2 kg1 bg1 kg2 bg2 cb1 cb2 st1 st2 U1 R1 S1 U2 R2 S2,
  ac_fvis nd K P pw true visA1 -> ac_fvis nd K P pw false visB1 -> ac_fvis nd K P pw true visA2 -> ac_fvis nd K P pw false visB2 -> nt_ok nt sr cb1 -> nt_ok nt sr cb2 ->
  (forall t c, (0 <= t < nt)%Z -> In c (ac_allX nd) ->
     length (f t c) = length (sp_src P c) /\ length (f' t c) = length (sp_src P c) /\
     forall k l, nth_error (sp_src P c) k = Some l -> (0 <= l)%Z -> nth_error (f t c) k = nth_error (f' t c) k) ->
  acoustic_forward nd K P pw dt kb visA1 visB1 kg1 bg1 sr f nt cb1 st1 u = Some (U1, R1, S1) ->
  acoustic_forward nd K P pw dt kb visA2 visB2 kg2 bg2 sr f' nt cb2 st2 u = Some (U2, R2, S2) ->
  sseq (ac_sys nd) K U1 U2 /\ forall t c, In c (ac_allX nd) -> R1 t c = R2 t c.
Proof.
  intros Hnd Hs Hr Hg dt kb f f' u nt sr visA1 visB1 visA2 visB2 kg1 bg1 kg2 bg2 cb1 cb2 st1 st2 U1 R1 S1 U2 R2 S2.
  ac_oks.
  exact (stag_ignored_source (ac_sys nd) (ac_kern nd) K Kr P (ac_num nd K dt kb) (ac_kc dt kb) pw Sok Hk (ac_num_ok nd K Kr dt kb) Hs Hr Hg f f' u nt sr visA1 visB1 visA2 visB2 (ac_flag kg1 bg1) (ac_flag kg2 bg2) cb1 cb2 st1 st2 U1 R1 S1 U2 R2 S2).
Qed.

Lemma acoustic_ignored_receiver (nd : nat) (K : ops) (Kr : is_ring K) (P : spar (ac_sys nd) K) (pw : nat -> Z * Z) :
  length (sp_shape P) = nd -> locs_ok (ac_sys nd) K P (sp_src P) -> locs_ok (ac_sys nd) K P (sp_rec P) -> sgeom (ac_sys nd) K P pw ->
  forall (dt : K) (kb : aM -> arr K) f u nt sr visA visB kg bg cb st U R S,
  ac_fvis nd K P pw true visA -> ac_fvis nd K P pw false visB -> nt_ok nt sr cb ->
  acoustic_forward nd K P pw dt kb visA visB kg bg sr f nt cb st u = Some (U, R, S) ->
  forall c k l, In c (ac_allX nd) -> nth_error (sp_rec P c) k = Some l -> (l < 0)%Z -> forall t, nth_error (R t c) k = Some 0.
Proof.
  intros Hnd Hs Hr Hg dt kb f u nt sr visA visB kg bg cb st U R S.
  ac_oks.
  exact (stag_ignored_receiver (ac_sys nd) (ac_kern nd) K Kr P (ac_num nd K dt kb) (ac_kc dt kb) pw Sok Hk (ac_num_ok nd K Kr dt kb) Hs Hr Hg f u nt sr visA visB (ac_flag kg bg) cb st U R S).
Qed.

Lemma acoustic_ignored_source_gradient (nd : nat) (K : ops) (Kr : is_ring K) (P : spar (ac_sys nd) K) (pw : nat -> Z * Z) :
  length (sp_shape P) = nd -> locs_ok (ac_sys nd) K P (sp_src P) -> locs_ok (ac_sys nd) K P (sp_rec P) -> sgeom (ac_sys nd) K P pw ->
  forall (dt : K) (kb : aM -> arr K) visA visB kg bg store sr gr nt cb g G f m,
  sroom (ac_sys nd) K P pw -> ac_bvis nd K P pw true visA -> ac_bvis nd K P pw false visB -> nt_ok nt sr cb ->
  acoustic_backward nd K P pw dt kb visA visB kg bg sr gr nt cb store g = Some (G, f, m) ->
  forall c k l, In c (ac_allX nd) -> nth_error (sp_src P c) k = Some l -> (l < 0)%Z -> forall t, nth_error (f t c) k = Some 0.
Proof.
  intros Hnd Hs Hr Hg dt kb visA visB kg bg store sr gr nt cb g G f m.
  ac_oks.
  exact (stag_ignored_source_gradient (ac_sys nd) (ac_kern nd) K Kr P (ac_num nd K dt kb) (ac_kc dt kb) pw Sok Hk (ac_num_ok nd K Kr dt kb) Hs Hr Hg visA visB (ac_flag kg bg) store sr gr nt cb g G f m).
Qed.

Lemma acoustic_callbacks_passive (nd : nat) (K : ops) (Kr : is_ring K) (P : spar (ac_sys nd) K) (pw : nat -> Z * Z) :
  length (sp_shape P) = nd -> locs_ok (ac_sys nd) K P (sp_src P) -> locs_ok (ac_sys nd) K P (sp_rec P) -> sgeom (ac_sys nd) K P pw ->
  forall (dt : K) (kb : aM -> arr K) f u nt sr c visA visB kg bg st,
  ac_fvis nd K P pw true visA -> ac_fvis nd K P pw false visB -> (0 < sr)%Z -> (0 < c)%Z -> (nt = 0 \/ sr <= nt)%Z ->
  exists U R S U' R' S',
    acoustic_forward nd K P pw dt kb visA visB kg bg sr f nt None st u = Some (U, R, S) /\
    acoustic_forward nd K P pw dt kb visA visB kg bg sr f nt (Some c) st u = Some (U', R', S') /\
    sseq (ac_sys nd) K U U' /\ forall t c, In c (ac_allX nd) -> R t c = R' t c.
Proof.
  intros Hnd Hs Hr Hg dt kb f u nt sr c visA visB kg bg st.
  ac_oks.
  exact (stag_callbacks_passive (ac_sys nd) (ac_kern nd) K Kr P (ac_num nd K dt kb) (ac_kc dt kb) pw Sok Hk (ac_num_ok nd K Kr dt kb) Hs Hr Hg f u nt sr c visA visB (ac_flag kg bg) st).
Qed.

Lemma acoustic_callback_calls (nd : nat) (K : ops) (Kr : is_ring K) (P : spar (ac_sys nd) K) (pw : nat -> Z * Z) :
  length (sp_shape P) = nd -> locs_ok (ac_sys nd) K P (sp_src P) -> locs_ok (ac_sys nd) K P (sp_rec P) -> sgeom (ac_sys nd) K P pw ->
  forall (dt : K) (kb : aM -> arr K) f u nt sr c visA visB kg bg st,
  ac_fvis nd K P pw true visA -> ac_fvis nd K P pw false visB -> (0 < sr)%Z -> (0 < c)%Z -> (0 <= nt)%Z ->
  let calls := acoustic_calls nd K P pw dt kb visA visB kg bg sr f nt c st u in
  map fst calls = filter (fun s => (s mod c =? 0)%Z) (zrange 0 (nt / sr)) /\
  forall s w, In (s, w) calls ->
    exists U R S, acoustic_forward nd K P pw dt kb visA visB kg bg sr f (s * sr) None st u = Some (U, R, S) /\ sseq (ac_sys nd) K w U.
Proof.
  intros Hnd Hs Hr Hg dt kb f u nt sr c visA visB kg bg st.
  ac_oks.
  exact (stag_callback_calls (ac_sys nd) (ac_kern nd) K Kr P (ac_num nd K dt kb) (ac_kc dt kb) pw Sok Hk (ac_num_ok nd K Kr dt kb) Hs Hr Hg f u nt sr c visA visB (ac_flag kg bg) st).
Qed.

Lemma acoustic_backward_callbacks_passive (nd : nat) (K : ops) (Kr : is_ring K) (P : spar (ac_sys nd) K) (pw : nat -> Z * Z) :
  length (sp_shape P) = nd -> locs_ok (ac_sys nd) K P (sp_src P) -> locs_ok (ac_sys nd) K P (sp_rec P) -> sgeom (ac_sys nd) K P pw ->
  forall (dt : K) (kb : aM -> arr K) visA1 visB1 visA2 visB2 kg bg store sr gr nt cb1 cb2 g,
  sroom (ac_sys nd) K P pw -> ac_bvis nd K P pw true visA1 -> ac_bvis nd K P pw false visB1 -> ac_bvis nd K P pw true visA2 -> ac_bvis nd K P pw false visB2 -> nt_ok nt sr cb1 -> nt_ok nt sr cb2 ->
  exists G1 f1 m1 G2 f2 m2,
    acoustic_backward nd K P pw dt kb visA1 visB1 kg bg sr gr nt cb1 store g = Some (G1, f1, m1) /\
    acoustic_backward nd K P pw dt kb visA2 visB2 kg bg sr gr nt cb2 store g = Some (G2, f2, m2) /\
    sseq (ac_sys nd) K G1 G2 /\ (forall t c, In c (ac_allX nd) -> f1 t c = f2 t c) /\
    (forall k p, ac_models nd k -> inb (abox (sp_shape P)) p = true -> m1 k (idx (sp_shape P) p) = m2 k (idx (sp_shape P) p)).
Proof.
  intros Hnd Hs Hr Hg dt kb visA1 visB1 visA2 visB2 kg bg store sr gr nt cb1 cb2 g.
  ac_oks.
  intros Hm V1 V2 V3 V4 N1 N2. destruct (stag_backward_callbacks_passive (ac_sys nd) (ac_kern nd) K Kr P (ac_num nd K dt kb) (ac_kc dt kb) pw Sok Hk (ac_num_ok nd K Kr dt kb) Hs Hr Hg visA1 visB1 visA2 visB2 (ac_flag kg bg) store sr gr nt cb1 cb2 g Hm V1 V2 V3 V4 N1 N2) as (G1 & f1 & m1 & G2 & f2 & m2 & E1 & E2 & Q1 & Q2 & Q3).
  exists G1, f1, m1, G2, f2, m2. split; [exact E1|]. split; [exact E2|]. split; [exact Q1|]. split; [exact Q2|].
  intros k p Hk0 Hp. apply (Q3 k p Hp), ac_models_grp, Hk0.
Qed.

Lemma acoustic_truncated (nd : nat) (K : ops) (Kr : is_ring K) (P : spar (ac_sys nd) K) (pw : nat -> Z * Z) :
  length (sp_shape P) = nd -> locs_ok (ac_sys nd) K P (sp_src P) -> locs_ok (ac_sys nd) K P (sp_rec P) -> sgeom (ac_sys nd) K P pw ->
  forall (dt : K) (kb : aM -> arr K) f u nt sr visA1 visB1 visA2 visB2 kg1 bg1 kg2 bg2 cb1 cb2 st1 st2 U1 R1 S1 U2 R2 S2,
  ac_fvis nd K P pw true visA1 -> ac_fvis nd K P pw false visB1 -> ac_fvis nd K P pw true visA2 -> ac_fvis nd K P pw false visB2 -> nt_ok nt sr cb1 -> nt_ok (nt / sr * sr) 1 cb2 ->
  acoustic_forward nd K P pw dt kb visA1 visB1 kg1 bg1 sr f nt cb1 st1 u = Some (U1, R1, S1) ->
  acoustic_forward nd K P pw dt kb visA2 visB2 kg2 bg2 1 f (nt / sr * sr) cb2 st2 u = Some (U2, R2, S2) ->
  sseq (ac_sys nd) K U1 U2 /\ forall t c, In c (ac_allX nd) -> R1 t c = R2 t c.
Proof.
  intros Hnd Hs Hr Hg dt kb f u nt sr visA1 visB1 visA2 visB2 kg1 bg1 kg2 bg2 cb1 cb2 st1 st2 U1 R1 S1 U2 R2 S2.
  ac_oks.
  exact (stag_truncated (ac_sys nd) (ac_kern nd) K Kr P (ac_num nd K dt kb) (ac_kc dt kb) pw Sok Hk (ac_num_ok nd K Kr dt kb) Hs Hr Hg f u nt sr visA1 visB1 visA2 visB2 (ac_flag kg1 bg1) (ac_flag kg2 bg2) cb1 cb2 st1 st2 U1 R1 S1 U2 R2 S2).
Qed.

Lemma acoustic_causality (nd : nat) (K : ops) (Kr : is_ring K) (P : spar (ac_sys nd) K) (pw : nat -> Z * Z) :
  length (sp_shape P) = nd -> locs_ok (ac_sys nd) K P (sp_src P) -> locs_ok (ac_sys nd) K P (sp_rec P) -> sgeom (ac_sys nd) K P pw ->
  forall (dt : K) (kb : aM -> arr K) f1 f2 u nt sr visA1 visB1 visA2 visB2 kg1 bg1 kg2 bg2 cb1 cb2 st1 st2 U1 R1 S1 U2 R2 S2 t0,
  ac_fvis nd K P pw true visA1 -> ac_fvis nd K P pw false visB1 -> ac_fvis nd K P pw true visA2 -> ac_fvis nd K P pw false visB2 -> nt_ok nt sr cb1 -> nt_ok nt sr cb2 ->
  acoustic_forward nd K P pw dt kb visA1 visB1 kg1 bg1 sr f1 nt cb1 st1 u = Some (U1, R1, S1) ->
  acoustic_forward nd K P pw dt kb visA2 visB2 kg2 bg2 sr f2 nt cb2 st2 u = Some (U2, R2, S2) ->
  (forall t c, (0 <= t < t0)%Z -> In c (ac_allX nd) -> f1 t c = f2 t c) ->
  forall t c, (t <= t0)%Z -> In c (ac_allX nd) -> R1 t c = R2 t c.
Proof.
  intros Hnd Hs Hr Hg dt kb f1 f2 u nt sr visA1 visB1 visA2 visB2 kg1 bg1 kg2 bg2 cb1 cb2 st1 st2 U1 R1 S1 U2 R2 S2 t0.
  ac_oks.
  exact (stag_causality (ac_sys nd) (ac_kern nd) K Kr P (ac_num nd K dt kb) (ac_kc dt kb) pw Sok Hk (ac_num_ok nd K Kr dt kb) Hs Hr Hg f1 f2 u nt sr visA1 visB1 visA2 visB2 (ac_flag kg1 bg1) (ac_flag kg2 bg2) cb1 cb2 st1 st2 U1 R1 S1 U2 R2 S2 t0).
Qed.

Lemma elastic_superposition (nd : nat) (K : ops) (Kr : is_ring K) (P : spar (el_sys nd) K) (pw : nat -> Z * Z) :
  length (sp_shape P) = nd -> (0 < nd)%nat -> locs_ok (el_sys nd) K P (sp_src P) -> locs_ok (el_sys nd) K P (sp_rec P) -> sgeom (el_sys nd) K P pw ->
  forall (dt : K) (md : eM -> arr K) (a b : K) f g x y nt sr visA1 visB1 visA2 visB2 visA visB lg1 mg1 bg1 lg2 mg2 bg2 lg mg bg cb1 cb2 cb st1 st2 st U1 R1 S1 U2 R2 S2 U R S,
  el_fvis nd K P pw true visA1 -> el_fvis nd K P pw false visB1 -> el_fvis nd K P pw true visA2 -> el_fvis nd K P pw false visB2 -> el_fvis nd K P pw true visA -> el_fvis nd K P pw false visB ->
  nt_ok nt sr cb1 -> nt_ok nt sr cb2 -> nt_ok nt sr cb ->
  (forall t c, (0 <= t < nt)%Z -> In c (el_allC nd) -> length (f t c) = length (sp_src P c) /\ length (g t c) = length (sp_src P c)) ->
  elastic_forward nd K P pw dt md visA1 visB1 lg1 mg1 bg1 sr f nt cb1 st1 x = Some (U1, R1, S1) ->
  elastic_forward nd K P pw dt md visA2 visB2 lg2 mg2 bg2 sr g nt cb2 st2 y = Some (U2, R2, S2) ->
  elastic_forward nd K P pw dt md visA visB lg mg bg sr (fun t c => lc_l a b (f t c) (g t c)) nt cb st (lc_s a b x y) = Some (U, R, S) ->
  sseq (el_sys nd) K U (lc_s a b U1 U2) /\ forall t c, In c (el_allC nd) -> R t c = lc_l a b (R1 t c) (R2 t c).
Proof.
  intros Hnd H0 Hs Hr Hg dt md a b f g x y nt sr visA1 visB1 visA2 visB2 visA visB lg1 mg1 bg1 lg2 mg2 bg2 lg mg bg cb1 cb2 cb st1 st2 st U1 R1 S1 U2 R2 S2 U R S.
  el_oks.
  exact (stag_superposition (el_sys nd) (el_kern nd) K Kr P (el_num nd K dt md) (el_kc dt md) pw Sok Hk (el_num_ok nd K Kr dt md) Hs Hr Hg a b f g x y nt sr visA1 visB1 visA2 visB2 visA visB (el_fq lg1 mg1 bg1) (el_fq lg2 mg2 bg2) (el_fq lg mg bg) cb1 cb2 cb st1 st2 st U1 R1 S1 U2 R2 S2 U R S).
Qed.

Lemma elastic_restart (nd : nat) (K : ops) (Kr : is_ring K) (P : spar (el_sys nd) K) (pw : nat -> Z * Z) :
  length (sp_shape P) = nd -> (0 < nd)%nat -> locs_ok (el_sys nd) K P (sp_src P) -> locs_ok (el_sys nd) K P (sp_rec P) -> sgeom (el_sys nd) K P pw ->
  forall (dt : K) (md : eM -> arr K) f u n1 n2 sr visA1 visB1 visA2 visB2 visA visB lg1 mg1 bg1 lg2 mg2 bg2 lg mg bg cb1 cb2 cb st1 st2 st U1 R1 S1 U2 R2 S2 U R S,
  el_fvis nd K P pw true visA1 -> el_fvis nd K P pw false visB1 -> el_fvis nd K P pw true visA2 -> el_fvis nd K P pw false visB2 -> el_fvis nd K P pw true visA -> el_fvis nd K P pw false visB ->
  (n1 mod sr = 0)%Z -> nt_ok n1 sr cb1 -> nt_ok n2 sr cb2 -> nt_ok (n1 + n2) sr cb ->
  elastic_forward nd K P pw dt md visA1 visB1 lg1 mg1 bg1 sr f n1 cb1 st1 u = Some (U1, R1, S1) ->
  elastic_forward nd K P pw dt md visA2 visB2 lg2 mg2 bg2 sr (fun t => f (n1 + t)%Z) n2 cb2 st2 U1 = Some (U2, R2, S2) ->
  elastic_forward nd K P pw dt md visA visB lg mg bg sr f (n1 + n2) cb st u = Some (U, R, S) ->
  sseq (el_sys nd) K U U2 /\ (forall t c, (0 <= t < n1)%Z -> In c (el_allC nd) -> R t c = R1 t c) /\
  (forall t c, (0 <= t)%Z -> In c (el_allC nd) -> R (n1 + t)%Z c = R2 t c).
Proof.
  intros Hnd H0 Hs Hr Hg dt md f u n1 n2 sr visA1 visB1 visA2 visB2 visA visB lg1 mg1 bg1 lg2 mg2 bg2 lg mg bg cb1 cb2 cb st1 st2 st U1 R1 S1 U2 R2 S2 U R S.
  el_oks.
  exact (stag_restart (el_sys nd) (el_kern nd) K Kr P (el_num nd K dt md) (el_kc dt md) pw Sok Hk (el_num_ok nd K Kr dt md) Hs Hr Hg f u n1 n2 sr visA1 visB1 visA2 visB2 visA visB (el_fq lg1 mg1 bg1) (el_fq lg2 mg2 bg2) (el_fq lg mg bg) cb1 cb2 cb st1 st2 st U1 R1 S1 U2 R2 S2 U R S).
Qed.

Lemma elastic_ignored_source (nd : nat) (K : ops) (Kr : is_ring K) (P : spar (el_sys nd) K) (pw : nat -> Z * Z) :
  length (sp_shape P) = nd -> (0 < nd)%nat -> locs_ok (el_sys nd) K P (sp_src P) -> locs_ok (el_sys nd) K P (sp_rec P) -> sgeom (el_sys nd) K P pw ->
  forall (dt : K) (md : eM -> arr K) f f' u nt sr visA1 visB1 visA2 visB2 lg1 mg1 bg1 lg2 mg2 bg2 cb1 cb2 st1 st2 U1 R1 S1 U2 R2 S2,
  el_fvis nd K P pw true visA1 -> el_fvis nd K P pw false visB1 -> el_fvis nd K P pw true visA2 -> el_fvis nd K P pw false visB2 -> nt_ok nt sr cb1 -> nt_ok nt sr cb2 ->
  (forall t c, (0 <= t < nt)%Z -> In c (el_allC nd) ->
     length (f t c) = length (sp_src P c) /\ length (f' t c) = length (sp_src P c) /\
     forall k l, nth_error (sp_src P c) k = Some l -> (0 <= l)%Z -> nth_error (f t c) k = nth_error (f' t c) k) ->
  elastic_forward nd K P pw dt md visA1 visB1 lg1 mg1 bg1 sr f nt cb1 st1 u = Some (U1, R1, S1) ->
  elastic_forward nd K P pw dt md visA2 visB2 lg2 mg2 bg2 sr f' nt cb2 st2 u = Some (U2, R2, S2) ->
  sseq (el_sys nd) K U1 U2 /\ forall t c, In c (el_allC nd) -> R1 t c = R2 t c.
Proof.
  intros Hnd H0 Hs Hr Hg dt md f f' u nt sr visA1 visB1 visA2 visB2 lg1 mg1 bg1 lg2 mg2 bg2 cb1 cb2 st1 st2 U1 R1 S1 U2 R2 S2.
  el_oks.
  exact (stag_ignored_source (el_sys nd) (el_kern nd) K Kr P (el_num nd K dt md) (el_kc dt md) pw Sok Hk (el_num_ok nd K Kr dt md) Hs Hr Hg f f' u nt sr visA1 visB1 visA2 visB2 (el_fq lg1 mg1 bg1) (el_fq lg2 mg2 bg2) cb1 cb2 st1 st2 U1 R1 S1 U2 R2 S2).
Qed.

Lemma elastic_ignored_receiver (nd : nat) (K : ops) (Kr : is_ring K) (P : spar (el_sys nd) K) (pw : nat -> Z * Z) :
  length (sp_shape P) = nd -> (0 < nd)%nat -> locs_ok (el_sys nd) K P (sp_src P) -> locs_ok (el_sys nd) K P (sp_rec P) -> sgeom (el_sys nd) K P pw ->
  forall (dt : K) (md : eM -> arr K) f u nt sr visA visB lg mg bg cb st U R S,
  el_fvis nd K P pw true visA -> el_fvis nd K P pw false visB -> nt_ok nt sr cb ->
  elastic_forward nd K P pw dt md visA visB lg mg bg sr f nt cb st u = Some (U, R, S) ->
  forall c k l, In c (el_allC nd) -> nth_error (sp_rec P c) k = Some l -> (l < 0)%Z -> forall t, nth_error (R t c) k = Some 0.
Proof.
  intros Hnd H0 Hs Hr Hg dt md f u nt sr visA visB lg mg bg cb st U R S.
  el_oks.
  exact (stag_ignored_receiver (el_sys nd) (el_kern nd) K Kr P (el_num nd K dt md) (el_kc dt md) pw Sok Hk (el_num_ok nd K Kr dt md) Hs Hr Hg f u nt sr visA visB (el_fq lg mg bg) cb st U R S).
Qed.

Lemma elastic_ignored_source_gradient (nd : nat) (K : ops) (Kr : is_ring K) (P : spar (el_sys nd) K) (pw : nat -> Z * Z) :
  length (sp_shape P) = nd -> (0 < nd)%nat -> locs_ok (el_sys nd) K P (sp_src P) -> locs_ok (el_sys nd) K P (sp_rec P) -> sgeom (el_sys nd) K P pw ->
  forall (dt : K) (md : eM -> arr K) visA visB lg mg bg store sr gr nt cb g G f m,
  sroom (el_sys nd) K P pw -> el_bvis nd K P pw true visA -> el_bvis nd K P pw false visB -> nt_ok nt sr cb ->
  elastic_backward nd K P pw dt md visA visB lg mg bg sr gr nt cb store g = Some (G, f, m) ->
  forall c k l, In c (el_allC nd) -> nth_error (sp_src P c) k = Some l -> (l < 0)%Z -> forall t, nth_error (f t c) k = Some 0.
Proof.
  intros Hnd H0 Hs Hr Hg dt md visA visB lg mg bg store sr gr nt cb g G f m.
  el_oks.
  exact (stag_ignored_source_gradient (el_sys nd) (el_kern nd) K Kr P (el_num nd K dt md) (el_kc dt md) pw Sok Hk (el_num_ok nd K Kr dt md) Hs Hr Hg visA visB (el_fm lg mg bg) store sr gr nt cb g G f m).
Qed.

Lemma elastic_callbacks_passive (nd : nat) (K : ops) (Kr : is_ring K) (P : spar (el_sys nd) K) (pw : nat -> Z * Z) :
  length (sp_shape P) = nd -> (0 < nd)%nat -> locs_ok (el_sys nd) K P (sp_src P) -> locs_ok (el_sys nd) K P (sp_rec P) -> sgeom (el_sys nd) K P pw ->
  forall (dt : K) (md : eM -> arr K) f u nt sr c visA visB lg mg bg st,
  el_fvis nd K P pw true visA -> el_fvis nd K P pw false visB -> (0 < sr)%Z -> (0 < c)%Z -> (nt = 0 \/ sr <= nt)%Z ->
  exists U R S U' R' S',
    elastic_forward nd K P pw dt md visA visB lg mg bg sr f nt None st u = Some (U, R, S) /\
    elastic_forward nd K P pw dt md visA visB lg mg bg sr f nt (Some c) st u = Some (U', R', S') /\
    sseq (el_sys nd) K U U' /\ forall t c, In c (el_allC nd) -> R t c = R' t c.
Proof.
  intros Hnd H0 Hs Hr Hg dt md f u nt sr c visA visB lg mg bg st.
  el_oks.
  exact (stag_callbacks_passive (el_sys nd) (el_kern nd) K Kr P (el_num nd K dt md) (el_kc dt md) pw Sok Hk (el_num_ok nd K Kr dt md) Hs Hr Hg f u nt sr c visA visB (el_fq lg mg bg) st).
Qed.

Lemma elastic_callback_calls (nd : nat) (K : ops) (Kr : is_ring K) (P : spar (el_sys nd) K) (pw : nat -> Z * Z) :
  length (sp_shape P) = nd -> (0 < nd)%nat -> locs_ok (el_sys nd) K P (sp_src P) -> locs_ok (el_sys nd) K P (sp_rec P) -> sgeom (el_sys nd) K P pw ->
  forall (dt : K) (md : eM -> arr K) f u nt sr c visA visB lg mg bg st,
  el_fvis nd K P pw true visA -> el_fvis nd K P pw false visB -> (0 < sr)%Z -> (0 < c)%Z -> (0 <= nt)%Z ->
  let calls := elastic_calls nd K P pw dt md visA visB lg mg bg sr f nt c st u in
  map fst calls = filter (fun s => (s mod c =? 0)%Z) (zrange 0 (nt / sr)) /\
  forall s w, In (s, w) calls ->
    exists U R S, elastic_forward nd K P pw dt md visA visB lg mg bg sr f (s * sr) None st u = Some (U, R, S) /\ sseq (el_sys nd) K w U.
Proof.
  intros Hnd H0 Hs Hr Hg dt md f u nt sr c visA visB lg mg bg st.
  el_oks.
  exact (stag_callback_calls (el_sys nd) (el_kern nd) K Kr P (el_num nd K dt md) (el_kc dt md) pw Sok Hk (el_num_ok nd K Kr dt md) Hs Hr Hg f u nt sr c visA visB (el_fq lg mg bg) st).
Qed.

Lemma elastic_backward_callbacks_passive (nd : nat) (K : ops) (Kr : is_ring K) (P : spar (el_sys nd) K) (pw : nat -> Z * Z) :
  length (sp_shape P) = nd -> (0 < nd)%nat -> locs_ok (el_sys nd) K P (sp_src P) -> locs_ok (el_sys nd) K P (sp_rec P) -> sgeom (el_sys nd) K P pw ->
  forall (dt : K) (md : eM -> arr K) visA1 visB1 visA2 visB2 lg mg bg store sr gr nt cb1 cb2 g,
  sroom (el_sys nd) K P pw -> el_bvis nd K P pw true visA1 -> el_bvis nd K P pw false visB1 -> el_bvis nd K P pw true visA2 -> el_bvis nd K P pw false visB2 -> nt_ok nt sr cb1 -> nt_ok nt sr cb2 ->
  exists G1 f1 m1 G2 f2 m2,
    elastic_backward nd K P pw dt md visA1 visB1 lg mg bg sr gr nt cb1 store g = Some (G1, f1, m1) /\
    elastic_backward nd K P pw dt md visA2 visB2 lg mg bg sr gr nt cb2 store g = Some (G2, f2, m2) /\
    sseq (el_sys nd) K G1 G2 /\ (forall t c, In c (el_allC nd) -> f1 t c = f2 t c) /\
    (forall k p, el_models nd k -> inb (abox (sp_shape P)) p = true -> m1 k (idx (sp_shape P) p) = m2 k (idx (sp_shape P) p)).
Proof.
  intros Hnd H0 Hs Hr Hg dt md visA1 visB1 visA2 visB2 lg mg bg store sr gr nt cb1 cb2 g.
  el_oks.
  intros Hm V1 V2 V3 V4 N1 N2. destruct (stag_backward_callbacks_passive (el_sys nd) (el_kern nd) K Kr P (el_num nd K dt md) (el_kc dt md) pw Sok Hk (el_num_ok nd K Kr dt md) Hs Hr Hg visA1 visB1 visA2 visB2 (el_fm lg mg bg) store sr gr nt cb1 cb2 g Hm V1 V2 V3 V4 N1 N2) as (G1 & f1 & m1 & G2 & f2 & m2 & E1 & E2 & Q1 & Q2 & Q3).
  exists G1, f1, m1, G2, f2, m2. split; [exact E1|]. split; [exact E2|]. split; [exact Q1|]. split; [exact Q2|].
  intros k p Hk0 Hp. apply (Q3 k p Hp), el_models_grp, Hk0.
Qed.

Lemma elastic_truncated (nd : nat) (K : ops) (Kr : is_ring K) (P : spar (el_sys nd) K) (pw : nat -> Z * Z) :
  length (sp_shape P) = nd -> (0 < nd)%nat -> locs_ok (el_sys nd) K P (sp_src P) -> locs_ok (el_sys nd) K P (sp_rec P) -> sgeom (el_sys nd) K P pw ->
  forall (dt : K) (md : eM -> arr K) f u nt sr visA1 visB1 visA2 visB2 lg1 mg1 bg1 lg2 mg2 bg2 cb1 cb2 st1 st2 U1 R1 S1 U2 R2 S2,
  el_fvis nd K P pw true visA1 -> el_fvis nd K P pw false visB1 -> el_fvis nd K P pw true visA2 -> el_fvis nd K P pw false visB2 -> nt_ok nt sr cb1 -> nt_ok (nt / sr * sr) 1 cb2 ->
  elastic_forward nd K P pw dt md visA1 visB1 lg1 mg1 bg1 sr f nt cb1 st1 u = Some (U1, R1, S1) ->
  elastic_forward nd K P pw dt md visA2 visB2 lg2 mg2 bg2 1 f (nt / sr * sr) cb2 st2 u = Some (U2, R2, S2) ->
  sseq (el_sys nd) K U1 U2 /\ forall t c, In c (el_allC nd) -> R1 t c = R2 t c.
Proof.
  intros Hnd H0 Hs Hr Hg dt md f u nt sr visA1 visB1 visA2 visB2 lg1 mg1 bg1 lg2 mg2 bg2 cb1 cb2 st1 st2 U1 R1 S1 U2 R2 S2.
  el_oks.
  exact (stag_truncated (el_sys nd) (el_kern nd) K Kr P (el_num nd K dt md) (el_kc dt md) pw Sok Hk (el_num_ok nd K Kr dt md) Hs Hr Hg f u nt sr visA1 visB1 visA2 visB2 (el_fq lg1 mg1 bg1) (el_fq lg2 mg2 bg2) cb1 cb2 st1 st2 U1 R1 S1 U2 R2 S2).
Qed.

Lemma elastic_causality (nd : nat) (K : ops) (Kr : is_ring K) (P : spar (el_sys nd) K) (pw : nat -> Z * Z) :
  length (sp_shape P) = nd -> (0 < nd)%nat -> locs_ok (el_sys nd) K P (sp_src P) -> locs_ok (el_sys nd) K P (sp_rec P) -> sgeom (el_sys nd) K P pw ->
  forall (dt : K) (md : eM -> arr K) f1 f2 u nt sr visA1 visB1 visA2 visB2 lg1 mg1 bg1 lg2 mg2 bg2 cb1 cb2 st1 st2 U1 R1 S1 U2 R2 S2 t0,
  el_fvis nd K P pw true visA1 -> el_fvis nd K P pw false visB1 -> el_fvis nd K P pw true visA2 -> el_fvis nd K P pw false visB2 -> nt_ok nt sr cb1 -> nt_ok nt sr cb2 ->
  elastic_forward nd K P pw dt md visA1 visB1 lg1 mg1 bg1 sr f1 nt cb1 st1 u = Some (U1, R1, S1) ->
  elastic_forward nd K P pw dt md visA2 visB2 lg2 mg2 bg2 sr f2 nt cb2 st2 u = Some (U2, R2, S2) ->
  (forall t c, (0 <= t < t0)%Z -> In c (el_allC nd) -> f1 t c = f2 t c) ->
  forall t c, (t <= t0)%Z -> In c (el_allC nd) -> R1 t c = R2 t c.
Proof.
  intros Hnd H0 Hs Hr Hg dt md f1 f2 u nt sr visA1 visB1 visA2 visB2 lg1 mg1 bg1 lg2 mg2 bg2 cb1 cb2 st1 st2 U1 R1 S1 U2 R2 S2 t0.
  el_oks.
  exact (stag_causality (el_sys nd) (el_kern nd) K Kr P (el_num nd K dt md) (el_kc dt md) pw Sok Hk (el_num_ok nd K Kr dt md) Hs Hr Hg f1 f2 u nt sr visA1 visB1 visA2 visB2 (el_fq lg1 mg1 bg1) (el_fq lg2 mg2 bg2) cb1 cb2 st1 st2 U1 R1 S1 U2 R2 S2 t0).
Qed.

(** ** What the receivers of each kind record, and where the samples of the sources appear. *)
Section Kinds.
Variables (nd : nat) (K : ops). Hypothesis Kr : is_ring K. Add Ring KRing : Kr.
Lemma ac_chsum x (s : sst (ac_sys nd) K) p : In x (ac_allX nd) -> chsum (ac_sys nd) K x s p = mn s x p.
Proof.
  intros Hx. unfold chsum. change (cinX (ac_sys nd) x) with (filter (cin (ac_sys nd) x) (ac_allX nd)). rewrite (sumf_filter_if K Kr).
  rewrite (sumf_single K Kr _ x); [| |exact Hx|].
  - cbn. destruct (aX_dec x x); congruence.
  - apply NoDup_ac_allX.
  - intros y _ Hy. cbn. destruct (aX_dec x y); congruence.
Qed.
End Kinds.

Lemma acoustic_all_steps (nd : nat) (K : ops) (Kr : is_ring K) (P : spar (ac_sys nd) K) (pw : nat -> Z * Z) :
  length (sp_shape P) = nd -> locs_ok (ac_sys nd) K P (sp_src P) -> locs_ok (ac_sys nd) K P (sp_rec P) -> sgeom (ac_sys nd) K P pw ->
  forall (dt : K) (kb : aM -> arr K) f u nt sr visA visB visA1 visB1 kg bg kg1 bg1 cb cb1 st st1,
  ac_fvis nd K P pw true visA -> ac_fvis nd K P pw false visB -> ac_fvis nd K P pw true visA1 -> ac_fvis nd K P pw false visB1 ->
  (nt mod sr = 0)%Z -> nt_ok nt sr cb -> nt_ok nt 1 cb1 ->
  exists U R S U1 R1 S1,
    acoustic_forward nd K P pw dt kb visA visB kg bg sr f nt cb st u = Some (U, R, S) /\
    acoustic_forward nd K P pw dt kb visA1 visB1 kg1 bg1 1 f nt cb1 st1 u = Some (U1, R1, S1) /\
    sseq (ac_sys nd) K U U1 /\ (forall t x, In x (ac_allX nd) -> R t x = R1 t x) /\
    (forall t, (0 <= t < nt)%Z -> exists Ut Rt St,
       acoustic_forward nd K P pw dt kb visA1 visB1 kg1 bg1 1 f t None st1 u = Some (Ut, Rt, St) /\
       forall x, In x (ac_allX nd) -> R t x = read_at P (sp_rec P x) (mn Ut x)).
Proof.
  intros Hnd Hs Hr Hg dt kb f u nt sr visA visB visA1 visB1 kg bg kg1 bg1 cb cb1 st st1 V1 V2 V3 V4 Hm N1 N2. ac_oks.
  destruct (stag_all_steps (ac_sys nd) (ac_kern nd) K Kr P (ac_num nd K dt kb) (ac_kc dt kb) pw Sok Hk (ac_num_ok nd K Kr dt kb) Hs Hr Hg f u nt sr visA visB visA1 visB1
    (ac_flag kg bg) (ac_flag kg1 bg1) cb cb1 st st1 V1 V2 V3 V4 Hm N1 N2) as (U & R & S & U1 & R1 & S1 & E1 & E2 & Q1 & Q2 & Q3).
  exists U, R, S, U1, R1, S1. split; [exact E1|]. split; [exact E2|]. split; [exact Q1|]. split; [exact Q2|].
  intros t Ht. destruct (Q3 t Ht) as (Ut & Rt & St & E & Q). exists Ut, Rt, St. split; [exact E|]. intros x Hx. rewrite (Q x Hx).
  unfold read_at. apply map_ext. intros l. destruct (0 <=? l)%Z; [|reflexivity]. apply ac_chsum; assumption.
Qed.

Lemma el_chsum_V nd K (Kr : is_ring K) d (s : sst (el_sys nd) K) p : (d < nd)%nat -> chsum (el_sys nd) K (CV d) s p = mn s (VL d) p.
Proof.
  intros Hd. unfold chsum. change (cinX (el_sys nd) (CV d)) with (filter (cin (el_sys nd) (CV d)) (el_allX nd)). rewrite (sumf_filter_if K Kr).
  rewrite (sumf_single K Kr _ (VL d)); [| |apply In_el_allX; exact Hd|].
  - cbn. rewrite Nat.eqb_refl. reflexivity.
  - apply NoDup_el_allX.
  - intros y _ Hy. destruct y as [k|i j]; cbn; [|reflexivity]. destruct (Nat.eqb_spec d k); [congruence|reflexivity].
Qed.
Lemma el_chsum_P nd K (Kr : is_ring K) (s : sst (el_sys nd) K) p : chsum (el_sys nd) K CP s p = sumf (seq 0 nd) (fun i => mn s (Sg i i) p).
Proof.
  unfold chsum. rewrite <- (sumf_map K (fun i => Sg i i) (seq 0 nd) (fun x => mn s x p)). apply (sumf_perm K Kr). apply NoDup_Permutation.
  - apply NoDup_filter, NoDup_el_allX.
  - apply NoDup_map_i; [congruence|apply seq_NoDup].
  - intros x. unfold cinX. rewrite filter_In, in_map_iff. change (allX (el_sys nd)) with (el_allX nd). rewrite In_el_allX. split.
    + destruct x as [i|i j]; cbn; intros [H E]; [discriminate|]. apply Nat.eqb_eq in E. subst j. exists i. split; [reflexivity|apply in_seq; lia].
    + intros (i & <- & H). apply in_seq in H. split; [lia|]. apply Nat.eqb_refl.
Qed.

Lemma elastic_all_steps (nd : nat) (K : ops) (Kr : is_ring K) (P : spar (el_sys nd) K) (pw : nat -> Z * Z) :
  length (sp_shape P) = nd -> (0 < nd)%nat -> locs_ok (el_sys nd) K P (sp_src P) -> locs_ok (el_sys nd) K P (sp_rec P) -> sgeom (el_sys nd) K P pw ->
  forall (dt : K) (md : eM -> arr K) f u nt sr visA visB visA1 visB1 lg mg bg lg1 mg1 bg1 cb cb1 st st1,
  el_fvis nd K P pw true visA -> el_fvis nd K P pw false visB -> el_fvis nd K P pw true visA1 -> el_fvis nd K P pw false visB1 ->
  (nt mod sr = 0)%Z -> nt_ok nt sr cb -> nt_ok nt 1 cb1 ->
  exists U R S U1 R1 S1,
    elastic_forward nd K P pw dt md visA visB lg mg bg sr f nt cb st u = Some (U, R, S) /\
    elastic_forward nd K P pw dt md visA1 visB1 lg1 mg1 bg1 1 f nt cb1 st1 u = Some (U1, R1, S1) /\
    sseq (el_sys nd) K U U1 /\ (forall t c, In c (el_allC nd) -> R t c = R1 t c) /\
    (forall t, (0 <= t < nt)%Z -> exists Ut Rt St,
       elastic_forward nd K P pw dt md visA1 visB1 lg1 mg1 bg1 1 f t None st1 u = Some (Ut, Rt, St) /\
       R t CP = read_at P (sp_rec P CP) (fun p => sumf (seq 0 nd) (fun i => mn Ut (Sg i i) p)) /\
       forall d, (d < nd)%nat -> R t (CV d) = read_at P (sp_rec P (CV d)) (mn Ut (VL d))).
Proof.
  intros Hnd H0 Hs Hr Hg dt md f u nt sr visA visB visA1 visB1 lg mg bg lg1 mg1 bg1 cb cb1 st st1 V1 V2 V3 V4 Hm N1 N2. el_oks.
  destruct (stag_all_steps (el_sys nd) (el_kern nd) K Kr P (el_num nd K dt md) (el_kc dt md) pw Sok Hk (el_num_ok nd K Kr dt md) Hs Hr Hg f u nt sr visA visB visA1 visB1
    (el_fq lg mg bg) (el_fq lg1 mg1 bg1) cb cb1 st st1 V1 V2 V3 V4 Hm N1 N2) as (U & R & S & U1 & R1 & S1 & E1 & E2 & Q1 & Q2 & Q3).
  exists U, R, S, U1, R1, S1. split; [exact E1|]. split; [exact E2|]. split; [exact Q1|]. split; [exact Q2|].
  intros t Ht. destruct (Q3 t Ht) as (Ut & Rt & St & E & Q). exists Ut, Rt, St. split; [exact E|]. split; [|intros d Hd].
  - rewrite (Q CP) by (change (In CP (el_allC nd)); apply (In_el_allC nd K P Hnd H0); exact I). unfold read_at. apply map_ext. intros l. destruct (0 <=? l)%Z; [|reflexivity]. apply el_chsum_P, Kr.
  - rewrite (Q (CV d)) by (change (In (CV d) (el_allC nd)); apply (In_el_allC nd K P Hnd H0); exact Hd). unfold read_at. apply map_ext. intros l. destruct (0 <=? l)%Z; [|reflexivity].
    apply el_chsum_V; [exact Kr|exact Hd].
Qed.

Lemma acoustic_short_raises nd K P pw dt kb visA visB kg bg sr f nt st u :
  (0 < nt < sr)%Z -> acoustic_forward nd K P pw dt kb visA visB kg bg sr f nt None st u = None.
Proof. apply stag_short_raises. Qed.
Lemma elastic_short_raises nd K P pw dt md visA visB lg mg bg sr f nt st u :
  (0 < nt < sr)%Z -> elastic_forward nd K P pw dt md visA visB lg mg bg sr f nt None st u = None.
Proof. apply stag_short_raises. Qed.

Lemma acoustic_source_samples (nd : nat) (K : ops) (Kr : is_ring K) (P : spar (ac_sys nd) K) (pw : nat -> Z * Z) :
  length (sp_shape P) = nd -> locs_ok (ac_sys nd) K P (sp_src P) -> locs_ok (ac_sys nd) K P (sp_rec P) -> sgeom (ac_sys nd) K P pw ->
  forall (dt : K) (kb : aM -> arr K) f f' u visA visB visA' visB' kg bg kg' bg' cb cb' st st' U R S U' R' S' t,
  ac_fvis nd K P pw true visA -> ac_fvis nd K P pw false visB -> ac_fvis nd K P pw true visA' -> ac_fvis nd K P pw false visB' ->
  nt_ok (t + 1) 1 cb -> nt_ok (t + 1) 1 cb' -> (0 <= t)%Z ->
  (forall s c, (0 <= s < t)%Z -> In c (ac_allX nd) -> f s c = f' s c) ->
  acoustic_forward nd K P pw dt kb visA visB kg bg 1 f (t + 1) cb st u = Some (U, R, S) ->
  acoustic_forward nd K P pw dt kb visA' visB' kg' bg' 1 f' (t + 1) cb' st' u = Some (U', R', S') ->
  forall p, inb (abox (sp_shape P)) p = true ->
    (forall d, (d < nd)%nat -> mn U (XV d) p - mn U' (XV d) p = amp_at P (sp_src P (XV d)) (f t (XV d)) p - amp_at P (sp_src P (XV d)) (f' t (XV d)) p) /\
    ((forall d, (d < nd)%nat -> f t (XV d) = f' t (XV d)) ->
     mn U XP p - mn U' XP p = amp_at P (sp_src P XP) (f t XP) p - amp_at P (sp_src P XP) (f' t XP) p).
Proof.
  intros Hnd Hs Hr Hg dt kb f f' u visA visB visA' visB' kg bg kg' bg' cb cb' st st' U R S U' R' S' t V1 V2 V3 V4 N1 N2 Ht Hf E1 E2 p Hp. ac_oks.
  pose proof (stag_source_samples (ac_sys nd) (ac_kern nd) K Kr P (ac_num nd K dt kb) (ac_kc dt kb) pw Sok Hk (ac_num_ok nd K Kr dt kb) Hs Hr Hg f f' u visA visB visA' visB'
    (ac_flag kg bg) (ac_flag kg' bg') cb cb' st st' U R S U' R' S' t V1 V2 V3 V4 N1 N2 Ht Hf E1 E2) as Q. split.
  - intros d Hd. assert (Hx : In (XV d) (ac_allX nd)) by (apply In_ac_allX; exact Hd).
    rewrite (Q (XV d) p Hx Hp (or_introl eq_refl)). rewrite !(cinC_ac nd K Kr (XV d)) by exact Hx. reflexivity.
  - intros Hd. assert (Hx : In XP (ac_allX nd)) by (apply In_ac_allX; exact I).
    rewrite (Q XP p Hx Hp); [rewrite !(cinC_ac nd K Kr XP) by exact Hx; reflexivity|]. right. intros [|d] Hc HA; [discriminate|].
    apply Hd. apply In_ac_allX in Hc. exact Hc.
Qed.
Lemma elastic_source_samples (nd : nat) (K : ops) (Kr : is_ring K) (P : spar (el_sys nd) K) (pw : nat -> Z * Z) :
  length (sp_shape P) = nd -> (0 < nd)%nat -> locs_ok (el_sys nd) K P (sp_src P) -> locs_ok (el_sys nd) K P (sp_rec P) -> sgeom (el_sys nd) K P pw ->
  forall (dt : K) (md : eM -> arr K) f f' u visA visB visA' visB' lg mg bg lg' mg' bg' cb cb' st st' U R S U' R' S' t,
  el_fvis nd K P pw true visA -> el_fvis nd K P pw false visB -> el_fvis nd K P pw true visA' -> el_fvis nd K P pw false visB' ->
  nt_ok (t + 1) 1 cb -> nt_ok (t + 1) 1 cb' -> (0 <= t)%Z ->
  (forall s c, (0 <= s < t)%Z -> In c (el_allC nd) -> f s c = f' s c) ->
  elastic_forward nd K P pw dt md visA visB lg mg bg 1 f (t + 1) cb st u = Some (U, R, S) ->
  elastic_forward nd K P pw dt md visA' visB' lg' mg' bg' 1 f' (t + 1) cb' st' u = Some (U', R', S') ->
  forall p, inb (abox (sp_shape P)) p = true ->
    (forall d, (d < nd)%nat -> mn U (VL d) p - mn U' (VL d) p = amp_at P (sp_src P (CV d)) (f t (CV d)) p - amp_at P (sp_src P (CV d)) (f' t (CV d)) p) /\
    ((forall d, (d < nd)%nat -> f t (CV d) = f' t (CV d)) ->
     (forall i, (i < nd)%nat -> mn U (Sg i i) p - mn U' (Sg i i) p = amp_at P (sp_src P CP) (f t CP) p - amp_at P (sp_src P CP) (f' t CP) p) /\
     (forall i j, (i < j < nd)%nat -> mn U (Sg i j) p = mn U' (Sg i j) p)).
Proof.
  intros Hnd H0 Hs Hr Hg dt md f f' u visA visB visA' visB' lg mg bg lg' mg' bg' cb cb' st st' U R S U' R' S' t V1 V2 V3 V4 N1 N2 Ht Hf E1 E2 p Hp. el_oks.
  pose proof (stag_source_samples (el_sys nd) (el_kern nd) K Kr P (el_num nd K dt md) (el_kc dt md) pw Sok Hk (el_num_ok nd K Kr dt md) Hs Hr Hg f f' u visA visB visA' visB'
    (el_fq lg mg bg) (el_fq lg' mg' bg') cb cb' st st' U R S U' R' S' t V1 V2 V3 V4 N1 N2 Ht Hf E1 E2) as Q. split; [|intros Hd; split].
  - intros d Hd. assert (Hx : In (VL d) (el_allX nd)) by (apply In_el_allX; exact Hd).
    assert (Hc : In (CV d) (el_allC nd)) by (apply (In_el_allC nd K P Hnd H0); exact Hd).
    rewrite (Q (VL d) p Hx Hp (or_introl eq_refl)). rewrite !(cinC_one nd K Kr (VL d) (CV d));
      [reflexivity|exact Hc|apply Nat.eqb_refl| |exact Hc|apply Nat.eqb_refl|];
      (intros [k|] Hb; cbn; [|reflexivity]; destruct (Nat.eqb_spec k d); [congruence|reflexivity]).
  - intros i Hi. assert (Hx : In (Sg i i) (el_allX nd)) by (apply In_el_allX; lia).
    assert (Hc : In CP (el_allC nd)) by (apply (In_el_allC nd K P Hnd H0); exact I).
    rewrite (Q (Sg i i) p Hx Hp).
    + rewrite !(cinC_one nd K Kr (Sg i i) CP); [reflexivity|exact Hc|apply Nat.eqb_refl| |exact Hc|apply Nat.eqb_refl|];
      (intros [k|] Hb; cbn; [reflexivity|congruence]).
    + right. intros [d|] Hc' HA; [|discriminate]. apply Hd. change (In (CV d) (el_allC nd)) in Hc'; apply (In_el_allC nd K P Hnd H0) in Hc'. exact Hc'.
  - intros i j Hij. assert (Hx : In (Sg i j) (el_allX nd)) by (apply In_el_allX; lia).
    assert (Z0 : mn U (Sg i j) p - mn U' (Sg i j) p = 0).
    { rewrite (Q (Sg i j) p Hx Hp).
      - rewrite !(cinC_none nd K Kr (Sg i j)); [apply (Ring_theory.Ropp_def Kr) || (destruct Kr; rewrite Rsub_def; apply Ropp_def)| |];
          (intros [k|]; cbn; [reflexivity|]; apply Nat.eqb_neq; lia).
      - right. intros [d|] Hc' HA; [|discriminate]. apply Hd. change (In (CV d) (el_allC nd)) in Hc'; apply (In_el_allC nd K P Hnd H0) in Hc'. exact Hc'. }
    destruct Kr. rewrite Rsub_def in Z0.
    assert (A : mn U (Sg i j) p = (mn U (Sg i j) p + - mn U' (Sg i j) p) + mn U' (Sg i j) p).
    { rewrite <- Radd_assoc, (Radd_comm (- _)), Ropp_def, (Radd_comm _ 0), Radd_0_l. reflexivity. }
    rewrite A, Z0, Radd_0_l. reflexivity.
Qed.

(** The cells on which the memory variables of dimension [d] act: within [pw] cells of the two ends of the updated part. *)
Definition in_strip {S : sys} {K : ops} (P : spar S K) (pw : nat -> Z * Z) (half : bool) (d : nat) (p : pt) : Prop :=
  (coord d p < fd_pad (sp_acc P) + fst (pw d) \/
   nth d (sp_shape P) 0 - fd_pad (sp_acc P) + (if half then 0 else 1) - snd (pw d) <= coord d p)%Z.

Lemma ezone_strip (S : sys) (K : ops) (P : spar S K) pw e p : ezone S K P pw e p = false <-> in_strip P pw (eh S e (edim S e)) (edim S e) p.
Proof.
  unfold ezone, in_strip. rewrite andb_false_iff, Z.leb_gt, Z.ltb_ge. destruct (eh S e (edim S e)); split; intros [H|H]; lia.
Qed.
Lemma acoustic_zero_steps (nd : nat) (K : ops) (Kr : is_ring K) (P : spar (ac_sys nd) K) (pw : nat -> Z * Z) :
  length (sp_shape P) = nd -> locs_ok (ac_sys nd) K P (sp_src P) -> locs_ok (ac_sys nd) K P (sp_rec P) -> sgeom (ac_sys nd) K P pw ->
  forall (dt : K) (kb : aM -> arr K) f u sr visA visB kg bg cb st U R S,
  ac_fvis nd K P pw true visA -> ac_fvis nd K P pw false visB -> nt_ok 0 sr cb ->
  acoustic_forward nd K P pw dt kb visA visB kg bg sr f 0 cb st u = Some (U, R, S) ->
  (forall x p, In x (ac_allX nd) -> updated P (xh (ac_sys nd) x) p -> mn U x p = mn u x p) /\
  (forall e p, In e (allE (ac_sys nd)) -> updated P (eh (ac_sys nd) e) p ->
     (in_strip P pw (eh (ac_sys nd) e (edim (ac_sys nd) e)) (edim (ac_sys nd) e) p -> me U e p = me u e p) /\
     (~ in_strip P pw (eh (ac_sys nd) e (edim (ac_sys nd) e)) (edim (ac_sys nd) e) p -> me U e p = 0)).
Proof.
  intros Hnd Hs Hr Hg dt kb f u sr visA visB kg bg cb st U R S V1 V2 N1 E. ac_oks.
  destruct (stag_zero_steps (ac_sys nd) (ac_kern nd) K Kr P (ac_num nd K dt kb) (ac_kc dt kb) pw Sok Hk (ac_num_ok nd K Kr dt kb) Hs Hr Hg f u sr visA visB
    (ac_flag kg bg) cb st U R S V1 V2 N1 E) as [Q1 Q2]. split.
  - intros x p Hx Hp. rewrite (Q1 x p Hx). apply updated_dom in Hp. rewrite Hp. reflexivity.
  - intros e p He Hp. rewrite (Q2 e p He). apply updated_dom in Hp. rewrite Hp. rewrite <- ezone_strip. cbn [andb].
    destruct (ezone (ac_sys nd) K P pw e p); cbn [negb]; split; intros H; congruence.
Qed.
Lemma elastic_zero_steps (nd : nat) (K : ops) (Kr : is_ring K) (P : spar (el_sys nd) K) (pw : nat -> Z * Z) :
  length (sp_shape P) = nd -> (0 < nd)%nat -> locs_ok (el_sys nd) K P (sp_src P) -> locs_ok (el_sys nd) K P (sp_rec P) -> sgeom (el_sys nd) K P pw ->
  forall (dt : K) (md : eM -> arr K) f u sr visA visB lg mg bg cb st U R S,
  el_fvis nd K P pw true visA -> el_fvis nd K P pw false visB -> nt_ok 0 sr cb ->
  elastic_forward nd K P pw dt md visA visB lg mg bg sr f 0 cb st u = Some (U, R, S) ->
  (forall x p, In x (el_allX nd) -> updated P (xh (el_sys nd) x) p -> mn U x p = mn u x p) /\
  (forall e p, In e (allE (el_sys nd)) -> updated P (eh (el_sys nd) e) p ->
     (in_strip P pw (eh (el_sys nd) e (edim (el_sys nd) e)) (edim (el_sys nd) e) p -> me U e p = me u e p) /\
     (~ in_strip P pw (eh (el_sys nd) e (edim (el_sys nd) e)) (edim (el_sys nd) e) p -> me U e p = 0)).
Proof.
  intros Hnd H0 Hs Hr Hg dt md f u sr visA visB lg mg bg cb st U R S V1 V2 N1 E. el_oks.
  destruct (stag_zero_steps (el_sys nd) (el_kern nd) K Kr P (el_num nd K dt md) (el_kc dt md) pw Sok Hk (el_num_ok nd K Kr dt md) Hs Hr Hg f u sr visA visB
    (el_fq lg mg bg) cb st U R S V1 V2 N1 E) as [Q1 Q2]. split.
  - intros x p Hx Hp. rewrite (Q1 x p Hx). apply updated_dom in Hp. rewrite Hp. reflexivity.
  - intros e p He Hp. rewrite (Q2 e p He). apply updated_dom in Hp. rewrite Hp. rewrite <- ezone_strip. cbn [andb].
    destruct (ezone (el_sys nd) K P pw e p); cbn [negb]; split; intros H; congruence.
Qed.
