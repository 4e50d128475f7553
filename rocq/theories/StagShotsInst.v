(** * Batches of shots: the acoustic and elastic instances. *)
From Coq Require Import List ZArith QArith Lia Bool Ring Permutation.
From Verif Require Import Ops Sums Grid Stencil ScalarModel ScalarRefine Param ShotsModel Shots ShotsRun Stag StagAdj StagKernel StagCell
  StagRefine StagGrad StagRun StagParam AcousticModel AcousticThm ElasticModel ElasticThm StagRunInst StagShotsModel StagShots StagShotsRun StagShotsThm.
Import ListNotations.
Local Open Scope K_scope.

Section Rel.
Variable nd : nat.
Variables K1 K2 : ops.
Variable R : K1 -> K2 -> Prop.
Hypothesis RO : oprel K1 K2 R.
Variable n : Z.
Variables (dt1 : K1) (dt2 : K2).
Let R0 := or_0 _ _ _ RO.
Let R1 := or_1 _ _ _ RO.
Let Radd := or_add _ _ _ RO.
Let Rmul := or_mul _ _ _ RO.
Let Rsub := or_sub _ _ _ RO.
Let Ropp := or_opp _ _ _ RO.

Lemma fold_rel_sum {A} (h1 : A -> K1) (h2 : A -> K2) l x1 x2 : R x1 x2 -> (forall a, R (h1 a) (h2 a)) ->
  R (fold_left (fun s a => s + h1 a) l x1) (fold_left (fun s a => s + h2 a) l x2).
Proof. revert x1 x2. induction l as [|a l IH]; intros x1 x2 Hx H; [exact Hx|]. cbn [fold_left]. apply IH; auto. Qed.

Lemma ac_numrel (kb1 : aM -> arr K1) (kb2 : aM -> arr K2) : R dt1 dt2 -> (forall q i, (0 <= i < n)%Z -> R (kb1 q i) (kb2 q i)) ->
  numrel (ac_sys nd) (ac_kern nd) K1 K2 R n (ac_num nd K1 dt1 kb1) (ac_num nd K2 dt2 kb2).
Proof.
  intros Hdt Hkb. split; cbn [n_inc n_sto n_tb n_tbp n_mem n_gm ac_num].
  - intros x T1 T2 i Hi HT. destruct x; unfold ac_ninc, ac_div; auto 6 using fold_rel_sum.
  - intros q T1 T2 HT. destruct q; unfold ac_nsto, ac_div; auto 6 using fold_rel_sum.
  - intros e Y1 Y2 i Hi HY. destruct e; unfold ac_ntb; auto 8.
  - intros e b1 b2 m1 m2 Y1 Y2 i Hi Hb Hm HY. destruct e; unfold ac_ntbp; auto 10.
  - intros e b1 b2 m1 m2 Y1 Y2 i Hi Hb Hm HY. destruct e; unfold ac_nmem; auto 10.
  - intros k Y1 Y2 Q1 Q2 r1 r2 HY HQ Hr. destruct k; unfold ac_ngm; auto 10.
Qed.

Lemma el_numrel (md1 : eM -> arr K1) (md2 : eM -> arr K2) : R dt1 dt2 -> (forall q i, (0 <= i < n)%Z -> R (md1 q i) (md2 q i)) ->
  numrel (el_sys nd) (el_kern nd) K1 K2 R n (el_num nd K1 dt1 md1) (el_num nd K2 dt2 md2).
Proof.
  intros Hdt Hmd.
  assert (H2 : R two two) by (apply Radd; exact R1).
  assert (HL : forall k Y1 Y2 i c1 c2, (0 <= i < n)%Z -> (forall x, R (Y1 x) (Y2 x)) -> R c1 c2 ->
     R (el_lsum nd K1 md1 k Y1 i c1) (el_lsum nd K2 md2 k Y2 i c2)).
  { intros k Y1 Y2 i c1 c2 Hi HY Hc. unfold el_lsum. apply fold_rel_sum; [exact R0|]. intros l. destruct (Nat.eqb l k); auto 10. }
  split; cbn [n_inc n_sto n_tb n_tbp n_mem n_gm el_num].
  - intros x T1 T2 i Hi HT. destruct x; unfold el_ninc, el_wsum; try destruct (Nat.eqb _ _);
      repeat first [exact R1|apply Radd|apply Rmul|apply Hmd; exact Hi|exact Hdt|apply HT|exact H2|apply fold_rel_sum; [exact R0|intros]].
  - intros q T1 T2 HT. destruct q; unfold el_nsto, el_wsum;
      repeat first [exact R1|apply Radd|apply Rmul|exact Hdt|apply HT|exact H2|apply fold_rel_sum; [exact R0|intros]].
  - intros e Y1 Y2 i Hi HY. destruct e; unfold el_ntb; try destruct (Nat.eqb _ _);
      repeat first [exact R1|apply Radd|apply Rmul|apply Hmd; exact Hi|exact Hdt|apply HY|exact R1|apply HL; [exact Hi|exact HY|]].
  - intros e b1 b2 m1 m2 Y1 Y2 i Hi Hb Hm HY. destruct e; unfold el_ntbp; try destruct (Nat.eqb _ _);
      repeat first [exact R1|apply Radd|apply Rmul|apply Hmd; exact Hi|exact Hdt|apply HY|exact Hb|exact Hm|exact R1|apply HL; [exact Hi|exact HY|]].
  - intros e b1 b2 m1 m2 Y1 Y2 i Hi Hb Hm HY. destruct e; unfold el_nmem; try destruct (Nat.eqb _ _);
      repeat first [exact R1|apply Radd|apply Rmul|apply Hmd; exact Hi|exact Hdt|apply HY|exact Hb|exact Hm|exact R1|apply HL; [exact Hi|exact HY|]].
  - intros k Y1 Y2 Q1 Q2 r1 r2 HY HQ Hr. destruct k; unfold el_ngm;
      repeat first [exact R1|apply Radd|apply Rmul|apply HY|apply HQ|exact Hr|exact H2|apply fold_rel_sum; [exact R0|intros]].
Qed.
End Rel.

(** The sum over threads visits every cell that the elastic kernel updates. *)
Lemma el_cmb_dom nd K (P0 : spar (el_sys nd) K) : length (sp_shape P0) = nd ->
  forall h p, dom (el_sys nd) K P0 h p = true -> el_cmb nd K P0 (idx (sp_shape P0) p) = true.
Proof.
  intros Hnd h p Hd. unfold el_cmb. rewrite unidx_idx by (apply (dom_array (el_sys nd) K P0 h); exact Hd).
  apply dom_spec in Hd. destruct Hd as [L D]. apply inb_spec. rewrite map_length. split; [exact L|]. intros d Hd.
  specialize (D d Hd).
  rewrite (nth_indep _ _ ((fun m => (fd_pad (sp_acc P0), m - fd_pad (sp_acc P0) + 1)%Z) 0%Z)) by (rewrite map_length; exact Hd).
  rewrite (map_nth (fun m => (fd_pad (sp_acc P0), m - fd_pad (sp_acc P0) + 1)%Z)). cbn [fst snd]. destruct (h d); lia.
Qed.

Lemma acoustic_shots_forward (nd : nat) (K : ops) (Kr : is_ring K) (P0 : spar (ac_sys nd) K) (pw : nat -> Z * Z) (NS : Z)
    (nsrc nrec : aX -> Z) (srcs recs : aX -> Z -> Z) (kbat bbat : bool) :
  length (sp_shape P0) = nd -> sgeom (ac_sys nd) K P0 pw -> (forall c, (0 <= nsrc c)%Z) -> (forall c, (0 <= nrec c)%Z) ->
  (forall c j, (0 <= j < NS * nsrc c)%Z -> sloc_ok (ac_sys nd) K P0 c (srcs c j)) ->
  (forall c j, (0 <= j < NS * nrec c)%Z -> sloc_ok (ac_sys nd) K P0 c (recs c j)) ->
  forall (dt : K) (kb : aM -> arr K) visA visB kg bg sr f nt cb sched store u k,
  ac_fvis nd K P0 pw true visA -> ac_fvis nd K P0 pw false visB ->
  sfsched_ok (ac_sys nd) (ac_kern nd) NS visA visB sr nt cb sched -> nt_ok nt sr cb -> (0 <= k < NS)%Z ->
  exists U R St U1 R1 St1,
    acoustic_batch_forward nd K P0 nsrc nrec srcs recs kbat bbat pw dt kb kg bg sr f nt cb sched store u = Some (U, R, St) /\
    acoustic_forward nd K (@mkspar (ac_sys nd) K (sp_acc P0) (sp_shape P0) (sp_rd P0) (sp_a P0) (sp_b P0)
        (fun c => map (fun j => srcs c (k * nsrc c + j)%Z) (zrange 0 (nsrc c))) (fun c => map (fun j => recs c (k * nrec c + j)%Z) (zrange 0 (nrec c))))
      pw dt (fun q => if ac_flag kbat bbat q then (fun i => kb q (k * prodZ (sp_shape P0) + i)%Z) else kb q) visA visB kg bg sr
      (fun t c => map (fun j => f t c (k * nsrc c + j)%Z) (zrange 0 (nsrc c))) nt cb (fun q si i => store q si (k * prodZ (sp_shape P0) + i)%Z) (u k)
      = Some (U1, R1, St1) /\
    (forall x p, mn (U k) x p = mn U1 x p) /\ (forall e p, me (U k) e p = me U1 e p) /\
    (forall t c, map (fun j => R t c (k * nrec c + j)%Z) (zrange 0 (nrec c)) = R1 t c) /\
    (forall q si i, (0 <= i < prodZ (sp_shape P0))%Z -> St q si (k * prodZ (sp_shape P0) + i)%Z = St1 q si i).
Proof.
  intros Hnd Hgeo Hns Hnr Hs Hr. ac_oks.
  intros dt kb visA visB kg bg sr f nt cb sched store u k.
  exact (sshots_forward (ac_sys nd) (ac_kern nd) K Kr P0 (ac_num nd K dt) (ac_kc dt) pw NS nsrc nrec srcs recs (ac_flag kbat bbat) Sok Hk (fun kb => ac_num_ok nd K Kr dt kb) (fun kb => ac_numrel nd K K eq (oprel_eq K) (prodZ (sp_shape P0)) dt dt kb kb eq_refl (fun _ _ _ => eq_refl)) Hgeo Hnr Hs Hr kb visA visB (ac_flag kg bg) sr f nt cb sched store u k).
Qed.

Lemma acoustic_shots_backward (nd : nat) (K : ops) (Kr : is_ring K) (P0 : spar (ac_sys nd) K) (pw : nat -> Z * Z) (NS : Z)
    (nsrc nrec : aX -> Z) (srcs recs : aX -> Z -> Z) (kbat bbat : bool) :
  length (sp_shape P0) = nd -> sgeom (ac_sys nd) K P0 pw -> (forall c, (0 <= nsrc c)%Z) -> (forall c, (0 <= nrec c)%Z) ->
  (forall c j, (0 <= j < NS * nsrc c)%Z -> sloc_ok (ac_sys nd) K P0 c (srcs c j)) ->
  (forall c j, (0 <= j < NS * nrec c)%Z -> sloc_ok (ac_sys nd) K P0 c (recs c j)) ->
  sroom (ac_sys nd) K P0 pw -> forall (dt : K) (kb : aM -> arr K) store kg bg sr gr nt g nthr th cb sched visA visB k,
  ac_bvis nd K P0 pw true visA -> ac_bvis nd K P0 pw false visB ->
  sbsched_ok (ac_sys nd) (ac_kern nd) NS visA visB sr nt cb sched -> nt_ok nt sr cb -> (0 <= k < NS)%Z ->
  exists U f gm U1 f1 gm1,
    acoustic_batch_backward nd K P0 nsrc nrec srcs recs kbat bbat pw nthr th dt kb kg bg sr gr nt cb sched store g = Some (U, f, gm) /\
    acoustic_backward nd K (@mkspar (ac_sys nd) K (sp_acc P0) (sp_shape P0) (sp_rd P0) (sp_a P0) (sp_b P0)
        (fun c => map (fun j => srcs c (k * nsrc c + j)%Z) (zrange 0 (nsrc c))) (fun c => map (fun j => recs c (k * nrec c + j)%Z) (zrange 0 (nrec c))))
      pw dt (fun q => if ac_flag kbat bbat q then (fun i => kb q (k * prodZ (sp_shape P0) + i)%Z) else kb q) visA visB kg bg sr
      (fun t c => map (fun j => gr t c (k * nrec c + j)%Z) (zrange 0 (nrec c))) nt cb (fun q si i => store q si (k * prodZ (sp_shape P0) + i)%Z) (g k) = Some (U1, f1, gm1) /\
    (forall x p, mn (U k) x p = mn U1 x p) /\ (forall e p, me (U k) e p = me U1 e p) /\
    (forall t c, map (fun j => f t c (k * nsrc c + j)%Z) (zrange 0 (nsrc c)) = f1 t c).
Proof.
  intros Hnd Hgeo Hns Hnr Hs Hr. ac_oks.
  intros Hroom dt kb store kg bg sr gr nt g nthr th cb sched visA visB k.
  exact (sshots_backward (ac_sys nd) (ac_kern nd) K Kr P0 (ac_num nd K dt) (ac_kc dt) pw NS nsrc nrec srcs recs (ac_flag kbat bbat) (fun _ => true) Sok Hk (fun kb => ac_num_ok nd K Kr dt kb) (fun kb => ac_numrel nd K K eq (oprel_eq K) (prodZ (sp_shape P0)) dt dt kb kb eq_refl (fun _ _ _ => eq_refl)) Hgeo Hns Hs Hr (fun _ _ _ => eq_refl) kb store (ac_flag kg bg) sr gr nt g Hroom nthr th cb sched visA visB k).
Qed.

Lemma acoustic_shots_gradient (nd : nat) (K : ops) (Kr : is_ring K) (P0 : spar (ac_sys nd) K) (pw : nat -> Z * Z) (NS : Z)
    (nsrc nrec : aX -> Z) (srcs recs : aX -> Z -> Z) (kbat bbat : bool) :
  length (sp_shape P0) = nd -> sgeom (ac_sys nd) K P0 pw -> (forall c, (0 <= nsrc c)%Z) -> (forall c, (0 <= nrec c)%Z) ->
  (forall c j, (0 <= j < NS * nsrc c)%Z -> sloc_ok (ac_sys nd) K P0 c (srcs c j)) ->
  (forall c j, (0 <= j < NS * nrec c)%Z -> sloc_ok (ac_sys nd) K P0 c (recs c j)) ->
  sroom (ac_sys nd) K P0 pw -> forall (dt : K) (kb : aM -> arr K) store kg bg sr gr nt g nthr th cb sched visA visB q,
  ac_bvis nd K P0 pw true visA -> ac_bvis nd K P0 pw false visB ->
  sbsched_ok (ac_sys nd) (ac_kern nd) NS visA visB sr nt cb sched -> nt_ok nt sr cb ->
  (forall s k, (0 <= k < NS)%Z -> (0 <= th s k < nthr)%Z) ->
  ac_flag kg bg q = true -> (ac_flag kbat bbat q = true \/ nthr = 1%Z \/ cb = None) ->
  exists U f gm,
    acoustic_batch_backward nd K P0 nsrc nrec srcs recs kbat bbat pw nthr th dt kb kg bg sr gr nt cb sched store g = Some (U, f, gm) /\
    let gm1 k := gm_of (acoustic_backward nd K (@mkspar (ac_sys nd) K (sp_acc P0) (sp_shape P0) (sp_rd P0) (sp_a P0) (sp_b P0)
        (fun c => map (fun j => srcs c (k * nsrc c + j)%Z) (zrange 0 (nsrc c))) (fun c => map (fun j => recs c (k * nrec c + j)%Z) (zrange 0 (nrec c))))
      pw dt (fun q => if ac_flag kbat bbat q then (fun i => kb q (k * prodZ (sp_shape P0) + i)%Z) else kb q) visA visB kg bg sr
      (fun t c => map (fun j => gr t c (k * nrec c + j)%Z) (zrange 0 (nrec c))) nt cb (fun q si i => store q si (k * prodZ (sp_shape P0) + i)%Z) (g k)) q in
    if ac_flag kbat bbat q
    then forall k i, (0 <= k < NS)%Z -> (0 <= i < prodZ (sp_shape P0))%Z -> gm q (k * prodZ (sp_shape P0) + i)%Z = gm1 k i
    else forall i, (0 <= i < prodZ (sp_shape P0))%Z -> gm q i = sumf (zrange 0 NS) (fun k => gm1 k i).
Proof.
  intros Hnd Hgeo Hns Hnr Hs Hr. ac_oks.
  intros Hroom dt kb store kg bg sr gr nt g nthr th cb sched visA visB q.
  exact (sshots_gradient (ac_sys nd) (ac_kern nd) K Kr P0 (ac_num nd K dt) (ac_kc dt) pw NS nsrc nrec srcs recs (ac_flag kbat bbat) (fun _ => true) Sok Hk (fun kb => ac_num_ok nd K Kr dt kb) (fun kb => ac_numrel nd K K eq (oprel_eq K) (prodZ (sp_shape P0)) dt dt kb kb eq_refl (fun _ _ _ => eq_refl)) Hgeo Hns Hs Hr (fun _ _ _ => eq_refl) kb store (ac_flag kg bg) sr gr nt g Hroom nthr th cb sched visA visB q).
Qed.

Lemma acoustic_shots_same (nd : nat) (K : ops) (Kr : is_ring K) (P0 : spar (ac_sys nd) K) (pw : nat -> Z * Z) (NS : Z)
    (nsrc nrec : aX -> Z) (srcs recs : aX -> Z -> Z) (kbat bbat : bool) :
  length (sp_shape P0) = nd -> sgeom (ac_sys nd) K P0 pw -> (forall c, (0 <= nsrc c)%Z) -> (forall c, (0 <= nrec c)%Z) ->
  (forall c j, (0 <= j < NS * nsrc c)%Z -> sloc_ok (ac_sys nd) K P0 c (srcs c j)) ->
  (forall c j, (0 <= j < NS * nrec c)%Z -> sloc_ok (ac_sys nd) K P0 c (recs c j)) ->
  sroom (ac_sys nd) K P0 pw -> forall (dt : K) (kb : aM -> arr K) store kg bg sr gr nt g nthr th cb sched visA visB nthr' th' cb' sched' visA' visB',
  ac_bvis nd K P0 pw true visA -> ac_bvis nd K P0 pw false visB ->
  sbsched_ok (ac_sys nd) (ac_kern nd) NS visA visB sr nt cb sched -> nt_ok nt sr cb ->
  ac_bvis nd K P0 pw true visA' -> ac_bvis nd K P0 pw false visB' ->
  sbsched_ok (ac_sys nd) (ac_kern nd) NS visA' visB' sr nt cb' sched' -> nt_ok nt sr cb' ->
  exists U f gm U' f' gm',
    acoustic_batch_backward nd K P0 nsrc nrec srcs recs kbat bbat pw nthr th dt kb kg bg sr gr nt cb sched store g = Some (U, f, gm) /\
    acoustic_batch_backward nd K P0 nsrc nrec srcs recs kbat bbat pw nthr' th' dt kb kg bg sr gr nt cb' sched' store g = Some (U', f', gm') /\
    (forall k, (0 <= k < NS)%Z -> sseq (ac_sys nd) K (U k) (U' k)) /\
    (forall t c j, In c (ac_allX nd) -> (0 <= j < NS * nsrc c)%Z -> f t c j = f' t c j) /\
    (forall q, ac_models nd q ->
     (forall s k, (0 <= k < NS)%Z -> (0 <= th s k < nthr)%Z) ->
     (forall s k, (0 <= k < NS)%Z -> (0 <= th' s k < nthr')%Z) ->
     ac_flag kg bg q = true -> (ac_flag kbat bbat q = true \/ nthr = 1%Z \/ cb = None) -> (ac_flag kbat bbat q = true \/ nthr' = 1%Z \/ cb' = None) ->
     forall i, (0 <= i < (if ac_flag kbat bbat q then NS else 1) * prodZ (sp_shape P0))%Z -> gm q i = gm' q i).
Proof.
  intros Hnd Hgeo Hns Hnr Hs Hr. ac_oks.
  intros Hroom dt kb store kg bg sr gr nt g nthr th cb sched visA visB nthr' th' cb' sched' visA' visB' A1 A2 A3 A4 A5 A6 A7 A8.
  destruct  (sshots_same (ac_sys nd) (ac_kern nd) K Kr P0 (ac_num nd K dt) (ac_kc dt) pw NS nsrc nrec srcs recs (ac_flag kbat bbat) (fun _ => true) Sok Hk (fun kb => ac_num_ok nd K Kr dt kb) (fun kb => ac_numrel nd K K eq (oprel_eq K) (prodZ (sp_shape P0)) dt dt kb kb eq_refl (fun _ _ _ => eq_refl)) Hgeo Hns Hs Hr (fun _ _ _ => eq_refl) kb store (ac_flag kg bg) sr gr nt g Hroom nthr th cb sched visA visB nthr' th' cb' sched' visA' visB' A1 A2 A3 A4 A5 A6 A7 A8)
    as (U & f & gm & U' & f' & gm' & E & E' & B1 & B2 & B3).
  exists U, f, gm, U', f', gm'. split; [exact E|]. split; [exact E'|]. split; [exact B1|]. split; [exact B2|].
  intros q Hq. apply B3. apply ac_models_grp. exact Hq.
Qed.

Lemma acoustic_shots_any (nd : nat) (K : ops) (Kr : is_ring K) (P0 : spar (ac_sys nd) K) (pw : nat -> Z * Z) (NS : Z)
    (nsrc nrec : aX -> Z) (srcs recs : aX -> Z -> Z) (kbat bbat : bool) :
  length (sp_shape P0) = nd -> sgeom (ac_sys nd) K P0 pw -> (forall c, (0 <= nsrc c)%Z) -> (forall c, (0 <= nrec c)%Z) ->
  (forall c j, (0 <= j < NS * nsrc c)%Z -> sloc_ok (ac_sys nd) K P0 c (srcs c j)) ->
  (forall c j, (0 <= j < NS * nrec c)%Z -> sloc_ok (ac_sys nd) K P0 c (recs c j)) ->
  sroom (ac_sys nd) K P0 pw -> forall (dt : K) (kb : aM -> arr K) store kg bg sr gr nt g nthr th sched visA visB nthr' th' sched' visA' visB',
  ac_bvis nd K P0 pw true visA -> ac_bvis nd K P0 pw false visB ->
  sbsched_ok (ac_sys nd) (ac_kern nd) NS visA visB sr nt None sched -> nt_ok nt sr None ->
  ac_bvis nd K P0 pw true visA' -> ac_bvis nd K P0 pw false visB' ->
  sbsched_ok (ac_sys nd) (ac_kern nd) NS visA' visB' sr nt None sched' -> nt_ok nt sr None ->
  (forall s k, (0 <= k < NS)%Z -> (0 <= th s k < nthr)%Z) ->
  (forall s k, (0 <= k < NS)%Z -> (0 <= th' s k < nthr')%Z) ->
  exists U f gm U' f' gm',
    acoustic_batch_backward nd K P0 nsrc nrec srcs recs kbat bbat pw nthr th dt kb kg bg sr gr nt None sched store g = Some (U, f, gm) /\
    acoustic_batch_backward nd K P0 nsrc nrec srcs recs kbat bbat pw nthr' th' dt kb kg bg sr gr nt None sched' store g = Some (U', f', gm') /\
    (forall k, (0 <= k < NS)%Z -> sseq (ac_sys nd) K (U k) (U' k)) /\
    (forall t c j, In c (ac_allX nd) -> (0 <= j < NS * nsrc c)%Z -> f t c j = f' t c j) /\
    (forall q i, ac_models nd q -> ac_flag kg bg q = true -> (0 <= i < (if ac_flag kbat bbat q then NS else 1) * prodZ (sp_shape P0))%Z -> gm q i = gm' q i).
Proof.
  intros Hnd Hgeo Hns Hnr Hs Hr.
  intros Hroom dt kb store kg bg sr gr nt g nthr th sched visA visB nthr' th' sched' visA' visB' A1 A2 A3 A4 A5 A6 A7 A8 T T'.
  destruct (acoustic_shots_same nd K Kr P0 pw NS nsrc nrec srcs recs kbat bbat Hnd Hgeo Hns Hnr Hs Hr Hroom dt kb store kg bg sr gr nt g nthr th None sched visA visB
    nthr' th' None sched' visA' visB' A1 A2 A3 A4 A5 A6 A7 A8) as (U & f & gm & U' & f' & gm' & E & E' & B1 & B2 & B3).
  exists U, f, gm, U', f', gm'. split; [exact E|]. split; [exact E'|]. split; [exact B1|]. split; [exact B2|].
  intros q i Hq Hf. apply B3; auto.
Qed.

Lemma acoustic_shots_other (nd : nat) (K : ops) (Kr : is_ring K) (P0 : spar (ac_sys nd) K) (pw : nat -> Z * Z) (NS : Z)
    (nsrc nrec : aX -> Z) (srcs recs : aX -> Z -> Z) (kbat bbat : bool) :
  length (sp_shape P0) = nd -> sgeom (ac_sys nd) K P0 pw -> (forall c, (0 <= nsrc c)%Z) -> (forall c, (0 <= nrec c)%Z) ->
  (forall c j, (0 <= j < NS * nsrc c)%Z -> sloc_ok (ac_sys nd) K P0 c (srcs c j)) ->
  (forall c j, (0 <= j < NS * nrec c)%Z -> sloc_ok (ac_sys nd) K P0 c (recs c j)) ->
  sroom (ac_sys nd) K P0 pw -> forall (dt : K) (kb : aM -> arr K) store kg bg sr gr nt g nthr th cb sched visA visB nthr' th' cb' sched' visA' visB',
  ac_bvis nd K P0 pw true visA -> ac_bvis nd K P0 pw false visB ->
  sbsched_ok (ac_sys nd) (ac_kern nd) NS visA visB sr nt cb sched -> nt_ok nt sr cb ->
  ac_bvis nd K P0 pw true visA' -> ac_bvis nd K P0 pw false visB' ->
  sbsched_ok (ac_sys nd) (ac_kern nd) NS visA' visB' sr nt cb' sched' -> nt_ok nt sr cb' ->
  exists U f gm U' f' gm',
    acoustic_batch_backward nd K P0 nsrc nrec srcs recs kbat bbat pw nthr th dt kb kg bg sr gr nt cb sched store g = Some (U, f, gm) /\
    acoustic_batch_backward nd K P0 nsrc nrec srcs recs kbat bbat pw nthr' th' dt kb kg bg sr gr nt cb' sched' store g = Some (U', f', gm') /\
    (forall k, (0 <= k < NS)%Z -> sseq (ac_sys nd) K (U k) (U' k)) /\
    (forall t c j, In c (ac_allX nd) -> (0 <= j < NS * nsrc c)%Z -> f t c j = f' t c j).
Proof.
  intros Hnd Hgeo Hns Hnr Hs Hr.
  intros Hroom dt kb store kg bg sr gr nt g nthr th cb sched visA visB nthr' th' cb' sched' visA' visB' A1 A2 A3 A4 A5 A6 A7 A8.
  destruct (acoustic_shots_same nd K Kr P0 pw NS nsrc nrec srcs recs kbat bbat Hnd Hgeo Hns Hnr Hs Hr Hroom dt kb store kg bg sr gr nt g nthr th cb sched visA visB
    nthr' th' cb' sched' visA' visB' A1 A2 A3 A4 A5 A6 A7 A8) as (U & f & gm & U' & f' & gm' & E & E' & B1 & B2 & B3).
  exists U, f, gm, U', f', gm'. split; [exact E|]. split; [exact E'|]. split; [exact B1|exact B2].
Qed.

Lemma acoustic_shots_model (nd : nat) (K : ops) (Kr : is_ring K) (P0 : spar (ac_sys nd) K) (pw : nat -> Z * Z) (NS : Z)
    (nsrc nrec : aX -> Z) (srcs recs : aX -> Z -> Z) (kbat bbat : bool) :
  length (sp_shape P0) = nd -> sgeom (ac_sys nd) K P0 pw -> (forall c, (0 <= nsrc c)%Z) -> (forall c, (0 <= nrec c)%Z) ->
  (forall c j, (0 <= j < NS * nsrc c)%Z -> sloc_ok (ac_sys nd) K P0 c (srcs c j)) ->
  (forall c j, (0 <= j < NS * nrec c)%Z -> sloc_ok (ac_sys nd) K P0 c (recs c j)) ->
  sroom (ac_sys nd) K P0 pw -> forall (dt : K) (kb : aM -> arr K) store kg bg sr gr nt g nthr th cb sched visA visB nthr' th' sched' visA' visB',
  ac_bvis nd K P0 pw true visA -> ac_bvis nd K P0 pw false visB ->
  sbsched_ok (ac_sys nd) (ac_kern nd) NS visA visB sr nt cb sched -> nt_ok nt sr cb ->
  ac_bvis nd K P0 pw true visA' -> ac_bvis nd K P0 pw false visB' ->
  sbsched_ok (ac_sys nd) (ac_kern nd) NS visA' visB' sr nt None sched' -> nt_ok nt sr None ->
  (forall s k, (0 <= k < NS)%Z -> (0 <= th s k < nthr)%Z) ->
  (forall s k, (0 <= k < NS)%Z -> (0 <= th' s k < nthr')%Z) ->
  exists U f gm U' f' gm',
    acoustic_batch_backward nd K P0 nsrc nrec srcs recs kbat bbat pw nthr th dt kb kg bg sr gr nt cb sched store g = Some (U, f, gm) /\
    acoustic_batch_backward nd K P0 nsrc nrec srcs recs kbat bbat pw nthr' th' dt kb kg bg sr gr nt None sched' store g = Some (U', f', gm') /\
    (forall q i, ac_models nd q -> ac_flag kg bg q = true -> ac_flag kbat bbat q = true \/ nthr = 1%Z ->
      (0 <= i < (if ac_flag kbat bbat q then NS else 1) * prodZ (sp_shape P0))%Z -> gm q i = gm' q i).
Proof.
  intros Hnd Hgeo Hns Hnr Hs Hr.
  intros Hroom dt kb store kg bg sr gr nt g nthr th cb sched visA visB nthr' th' sched' visA' visB' A1 A2 A3 A4 A5 A6 A7 A8 T T'.
  destruct (acoustic_shots_same nd K Kr P0 pw NS nsrc nrec srcs recs kbat bbat Hnd Hgeo Hns Hnr Hs Hr Hroom dt kb store kg bg sr gr nt g nthr th cb sched visA visB
    nthr' th' None sched' visA' visB' A1 A2 A3 A4 A5 A6 A7 A8) as (U & f & gm & U' & f' & gm' & E & E' & B1 & B2 & B3).
  exists U, f, gm, U', f', gm'. split; [exact E|]. split; [exact E'|].
  intros q i Hq Hf Hb. apply B3; auto. tauto.
Qed.

Lemma elastic_shots_forward (nd : nat) (K : ops) (Kr : is_ring K) (P0 : spar (el_sys nd) K) (pw : nat -> Z * Z) (NS : Z)
    (nsrc nrec : eC -> Z) (srcs recs : eC -> Z -> Z) (lbat mbat bbat : bool) :
  length (sp_shape P0) = nd -> (0 < nd)%nat -> sgeom (el_sys nd) K P0 pw -> (forall c, (0 <= nsrc c)%Z) -> (forall c, (0 <= nrec c)%Z) ->
  (forall c j, (0 <= j < NS * nsrc c)%Z -> sloc_ok (el_sys nd) K P0 c (srcs c j)) ->
  (forall c j, (0 <= j < NS * nrec c)%Z -> sloc_ok (el_sys nd) K P0 c (recs c j)) ->
  forall (dt : K) (md : eM -> arr K) visA visB lg mg bg sr f nt cb sched store u k,
  el_fvis nd K P0 pw true visA -> el_fvis nd K P0 pw false visB ->
  sfsched_ok (el_sys nd) (el_kern nd) NS visA visB sr nt cb sched -> nt_ok nt sr cb -> (0 <= k < NS)%Z ->
  exists U R St U1 R1 St1,
    elastic_batch_forward nd K P0 nsrc nrec srcs recs lbat mbat bbat pw dt md lg mg bg sr f nt cb sched store u = Some (U, R, St) /\
    elastic_forward nd K (@mkspar (el_sys nd) K (sp_acc P0) (sp_shape P0) (sp_rd P0) (sp_a P0) (sp_b P0)
        (fun c => map (fun j => srcs c (k * nsrc c + j)%Z) (zrange 0 (nsrc c))) (fun c => map (fun j => recs c (k * nrec c + j)%Z) (zrange 0 (nrec c))))
      pw dt (fun q => if el_fm lbat mbat bbat q then (fun i => md q (k * prodZ (sp_shape P0) + i)%Z) else md q) visA visB lg mg bg sr
      (fun t c => map (fun j => f t c (k * nsrc c + j)%Z) (zrange 0 (nsrc c))) nt cb (fun q si i => store q si (k * prodZ (sp_shape P0) + i)%Z) (u k)
      = Some (U1, R1, St1) /\
    (forall x p, mn (U k) x p = mn U1 x p) /\ (forall e p, me (U k) e p = me U1 e p) /\
    (forall t c, map (fun j => R t c (k * nrec c + j)%Z) (zrange 0 (nrec c)) = R1 t c) /\
    (forall q si i, (0 <= i < prodZ (sp_shape P0))%Z -> St q si (k * prodZ (sp_shape P0) + i)%Z = St1 q si i).
Proof.
  intros Hnd Hpos Hgeo Hns Hnr Hs Hr. el_oks.
  intros dt md visA visB lg mg bg sr f nt cb sched store u k.
  exact (sshots_forward (el_sys nd) (el_kern nd) K Kr P0 (el_num nd K dt) (el_kc dt) pw NS nsrc nrec srcs recs (el_fm lbat mbat bbat) Sok Hk (fun md => el_num_ok nd K Kr dt md) (fun md => el_numrel nd K K eq (oprel_eq K) (prodZ (sp_shape P0)) dt dt md md eq_refl (fun _ _ _ => eq_refl)) Hgeo Hnr Hs Hr md visA visB (el_fq lg mg bg) sr f nt cb sched store u k).
Qed.

Lemma elastic_shots_backward (nd : nat) (K : ops) (Kr : is_ring K) (P0 : spar (el_sys nd) K) (pw : nat -> Z * Z) (NS : Z)
    (nsrc nrec : eC -> Z) (srcs recs : eC -> Z -> Z) (lbat mbat bbat : bool) :
  length (sp_shape P0) = nd -> (0 < nd)%nat -> sgeom (el_sys nd) K P0 pw -> (forall c, (0 <= nsrc c)%Z) -> (forall c, (0 <= nrec c)%Z) ->
  (forall c j, (0 <= j < NS * nsrc c)%Z -> sloc_ok (el_sys nd) K P0 c (srcs c j)) ->
  (forall c j, (0 <= j < NS * nrec c)%Z -> sloc_ok (el_sys nd) K P0 c (recs c j)) ->
  sroom (el_sys nd) K P0 pw -> forall (dt : K) (md : eM -> arr K) store lg mg bg sr gr nt g nthr th cb sched visA visB k,
  el_bvis nd K P0 pw true visA -> el_bvis nd K P0 pw false visB ->
  sbsched_ok (el_sys nd) (el_kern nd) NS visA visB sr nt cb sched -> nt_ok nt sr cb -> (0 <= k < NS)%Z ->
  exists U f gm U1 f1 gm1,
    elastic_batch_backward nd K P0 nsrc nrec srcs recs lbat mbat bbat pw nthr th dt md lg mg bg sr gr nt cb sched store g = Some (U, f, gm) /\
    elastic_backward nd K (@mkspar (el_sys nd) K (sp_acc P0) (sp_shape P0) (sp_rd P0) (sp_a P0) (sp_b P0)
        (fun c => map (fun j => srcs c (k * nsrc c + j)%Z) (zrange 0 (nsrc c))) (fun c => map (fun j => recs c (k * nrec c + j)%Z) (zrange 0 (nrec c))))
      pw dt (fun q => if el_fm lbat mbat bbat q then (fun i => md q (k * prodZ (sp_shape P0) + i)%Z) else md q) visA visB lg mg bg sr
      (fun t c => map (fun j => gr t c (k * nrec c + j)%Z) (zrange 0 (nrec c))) nt cb (fun q si i => store q si (k * prodZ (sp_shape P0) + i)%Z) (g k) = Some (U1, f1, gm1) /\
    (forall x p, mn (U k) x p = mn U1 x p) /\ (forall e p, me (U k) e p = me U1 e p) /\
    (forall t c, map (fun j => f t c (k * nsrc c + j)%Z) (zrange 0 (nsrc c)) = f1 t c).
Proof.
  intros Hnd Hpos Hgeo Hns Hnr Hs Hr. el_oks.
  intros Hroom dt md store lg mg bg sr gr nt g nthr th cb sched visA visB k.
  exact (sshots_backward (el_sys nd) (el_kern nd) K Kr P0 (el_num nd K dt) (el_kc dt) pw NS nsrc nrec srcs recs (el_fm lbat mbat bbat) (el_cmb nd K P0) Sok Hk (fun md => el_num_ok nd K Kr dt md) (fun md => el_numrel nd K K eq (oprel_eq K) (prodZ (sp_shape P0)) dt dt md md eq_refl (fun _ _ _ => eq_refl)) Hgeo Hns Hs Hr (el_cmb_dom nd K P0 Hnd) md store (el_fm lg mg bg) sr gr nt g Hroom nthr th cb sched visA visB k).
Qed.

Lemma elastic_shots_gradient (nd : nat) (K : ops) (Kr : is_ring K) (P0 : spar (el_sys nd) K) (pw : nat -> Z * Z) (NS : Z)
    (nsrc nrec : eC -> Z) (srcs recs : eC -> Z -> Z) (lbat mbat bbat : bool) :
  length (sp_shape P0) = nd -> (0 < nd)%nat -> sgeom (el_sys nd) K P0 pw -> (forall c, (0 <= nsrc c)%Z) -> (forall c, (0 <= nrec c)%Z) ->
  (forall c j, (0 <= j < NS * nsrc c)%Z -> sloc_ok (el_sys nd) K P0 c (srcs c j)) ->
  (forall c j, (0 <= j < NS * nrec c)%Z -> sloc_ok (el_sys nd) K P0 c (recs c j)) ->
  sroom (el_sys nd) K P0 pw -> forall (dt : K) (md : eM -> arr K) store lg mg bg sr gr nt g nthr th cb sched visA visB q,
  el_bvis nd K P0 pw true visA -> el_bvis nd K P0 pw false visB ->
  sbsched_ok (el_sys nd) (el_kern nd) NS visA visB sr nt cb sched -> nt_ok nt sr cb ->
  (forall s k, (0 <= k < NS)%Z -> (0 <= th s k < nthr)%Z) ->
  el_fm lg mg bg q = true -> (el_fm lbat mbat bbat q = true \/ nthr = 1%Z \/ cb = None) ->
  exists U f gm,
    elastic_batch_backward nd K P0 nsrc nrec srcs recs lbat mbat bbat pw nthr th dt md lg mg bg sr gr nt cb sched store g = Some (U, f, gm) /\
    let gm1 k := gm_of (elastic_backward nd K (@mkspar (el_sys nd) K (sp_acc P0) (sp_shape P0) (sp_rd P0) (sp_a P0) (sp_b P0)
        (fun c => map (fun j => srcs c (k * nsrc c + j)%Z) (zrange 0 (nsrc c))) (fun c => map (fun j => recs c (k * nrec c + j)%Z) (zrange 0 (nrec c))))
      pw dt (fun q => if el_fm lbat mbat bbat q then (fun i => md q (k * prodZ (sp_shape P0) + i)%Z) else md q) visA visB lg mg bg sr
      (fun t c => map (fun j => gr t c (k * nrec c + j)%Z) (zrange 0 (nrec c))) nt cb (fun q si i => store q si (k * prodZ (sp_shape P0) + i)%Z) (g k)) q in
    if el_fm lbat mbat bbat q
    then forall k i, (0 <= k < NS)%Z -> (0 <= i < prodZ (sp_shape P0))%Z -> gm q (k * prodZ (sp_shape P0) + i)%Z = gm1 k i
    else forall i, (0 <= i < prodZ (sp_shape P0))%Z -> gm q i = sumf (zrange 0 NS) (fun k => gm1 k i).
Proof.
  intros Hnd Hpos Hgeo Hns Hnr Hs Hr. el_oks.
  intros Hroom dt md store lg mg bg sr gr nt g nthr th cb sched visA visB q.
  exact (sshots_gradient (el_sys nd) (el_kern nd) K Kr P0 (el_num nd K dt) (el_kc dt) pw NS nsrc nrec srcs recs (el_fm lbat mbat bbat) (el_cmb nd K P0) Sok Hk (fun md => el_num_ok nd K Kr dt md) (fun md => el_numrel nd K K eq (oprel_eq K) (prodZ (sp_shape P0)) dt dt md md eq_refl (fun _ _ _ => eq_refl)) Hgeo Hns Hs Hr (el_cmb_dom nd K P0 Hnd) md store (el_fm lg mg bg) sr gr nt g Hroom nthr th cb sched visA visB q).
Qed.

Lemma elastic_shots_same (nd : nat) (K : ops) (Kr : is_ring K) (P0 : spar (el_sys nd) K) (pw : nat -> Z * Z) (NS : Z)
    (nsrc nrec : eC -> Z) (srcs recs : eC -> Z -> Z) (lbat mbat bbat : bool) :
  length (sp_shape P0) = nd -> (0 < nd)%nat -> sgeom (el_sys nd) K P0 pw -> (forall c, (0 <= nsrc c)%Z) -> (forall c, (0 <= nrec c)%Z) ->
  (forall c j, (0 <= j < NS * nsrc c)%Z -> sloc_ok (el_sys nd) K P0 c (srcs c j)) ->
  (forall c j, (0 <= j < NS * nrec c)%Z -> sloc_ok (el_sys nd) K P0 c (recs c j)) ->
  sroom (el_sys nd) K P0 pw -> forall (dt : K) (md : eM -> arr K) store lg mg bg sr gr nt g nthr th cb sched visA visB nthr' th' cb' sched' visA' visB',
  el_bvis nd K P0 pw true visA -> el_bvis nd K P0 pw false visB ->
  sbsched_ok (el_sys nd) (el_kern nd) NS visA visB sr nt cb sched -> nt_ok nt sr cb ->
  el_bvis nd K P0 pw true visA' -> el_bvis nd K P0 pw false visB' ->
  sbsched_ok (el_sys nd) (el_kern nd) NS visA' visB' sr nt cb' sched' -> nt_ok nt sr cb' ->
  exists U f gm U' f' gm',
    elastic_batch_backward nd K P0 nsrc nrec srcs recs lbat mbat bbat pw nthr th dt md lg mg bg sr gr nt cb sched store g = Some (U, f, gm) /\
    elastic_batch_backward nd K P0 nsrc nrec srcs recs lbat mbat bbat pw nthr' th' dt md lg mg bg sr gr nt cb' sched' store g = Some (U', f', gm') /\
    (forall k, (0 <= k < NS)%Z -> sseq (el_sys nd) K (U k) (U' k)) /\
    (forall t c j, In c (el_allC nd) -> (0 <= j < NS * nsrc c)%Z -> f t c j = f' t c j) /\
    (forall q, el_models nd q ->
     (forall s k, (0 <= k < NS)%Z -> (0 <= th s k < nthr)%Z) ->
     (forall s k, (0 <= k < NS)%Z -> (0 <= th' s k < nthr')%Z) ->
     el_fm lg mg bg q = true -> (el_fm lbat mbat bbat q = true \/ nthr = 1%Z \/ cb = None) -> (el_fm lbat mbat bbat q = true \/ nthr' = 1%Z \/ cb' = None) ->
     forall i, (0 <= i < (if el_fm lbat mbat bbat q then NS else 1) * prodZ (sp_shape P0))%Z -> gm q i = gm' q i).
Proof.
  intros Hnd Hpos Hgeo Hns Hnr Hs Hr. el_oks.
  intros Hroom dt md store lg mg bg sr gr nt g nthr th cb sched visA visB nthr' th' cb' sched' visA' visB' A1 A2 A3 A4 A5 A6 A7 A8.
  destruct  (sshots_same (el_sys nd) (el_kern nd) K Kr P0 (el_num nd K dt) (el_kc dt) pw NS nsrc nrec srcs recs (el_fm lbat mbat bbat) (el_cmb nd K P0) Sok Hk (fun md => el_num_ok nd K Kr dt md) (fun md => el_numrel nd K K eq (oprel_eq K) (prodZ (sp_shape P0)) dt dt md md eq_refl (fun _ _ _ => eq_refl)) Hgeo Hns Hs Hr (el_cmb_dom nd K P0 Hnd) md store (el_fm lg mg bg) sr gr nt g Hroom nthr th cb sched visA visB nthr' th' cb' sched' visA' visB' A1 A2 A3 A4 A5 A6 A7 A8)
    as (U & f & gm & U' & f' & gm' & E & E' & B1 & B2 & B3).
  exists U, f, gm, U', f', gm'. split; [exact E|]. split; [exact E'|]. split; [exact B1|]. split; [exact B2|].
  intros q Hq. apply B3. apply el_models_grp. exact Hq.
Qed.

Lemma elastic_shots_any (nd : nat) (K : ops) (Kr : is_ring K) (P0 : spar (el_sys nd) K) (pw : nat -> Z * Z) (NS : Z)
    (nsrc nrec : eC -> Z) (srcs recs : eC -> Z -> Z) (lbat mbat bbat : bool) :
  length (sp_shape P0) = nd -> (0 < nd)%nat -> sgeom (el_sys nd) K P0 pw -> (forall c, (0 <= nsrc c)%Z) -> (forall c, (0 <= nrec c)%Z) ->
  (forall c j, (0 <= j < NS * nsrc c)%Z -> sloc_ok (el_sys nd) K P0 c (srcs c j)) ->
  (forall c j, (0 <= j < NS * nrec c)%Z -> sloc_ok (el_sys nd) K P0 c (recs c j)) ->
  sroom (el_sys nd) K P0 pw -> forall (dt : K) (md : eM -> arr K) store lg mg bg sr gr nt g nthr th sched visA visB nthr' th' sched' visA' visB',
  el_bvis nd K P0 pw true visA -> el_bvis nd K P0 pw false visB ->
  sbsched_ok (el_sys nd) (el_kern nd) NS visA visB sr nt None sched -> nt_ok nt sr None ->
  el_bvis nd K P0 pw true visA' -> el_bvis nd K P0 pw false visB' ->
  sbsched_ok (el_sys nd) (el_kern nd) NS visA' visB' sr nt None sched' -> nt_ok nt sr None ->
  (forall s k, (0 <= k < NS)%Z -> (0 <= th s k < nthr)%Z) ->
  (forall s k, (0 <= k < NS)%Z -> (0 <= th' s k < nthr')%Z) ->
  exists U f gm U' f' gm',
    elastic_batch_backward nd K P0 nsrc nrec srcs recs lbat mbat bbat pw nthr th dt md lg mg bg sr gr nt None sched store g = Some (U, f, gm) /\
    elastic_batch_backward nd K P0 nsrc nrec srcs recs lbat mbat bbat pw nthr' th' dt md lg mg bg sr gr nt None sched' store g = Some (U', f', gm') /\
    (forall k, (0 <= k < NS)%Z -> sseq (el_sys nd) K (U k) (U' k)) /\
    (forall t c j, In c (el_allC nd) -> (0 <= j < NS * nsrc c)%Z -> f t c j = f' t c j) /\
    (forall q i, el_models nd q -> el_fm lg mg bg q = true -> (0 <= i < (if el_fm lbat mbat bbat q then NS else 1) * prodZ (sp_shape P0))%Z -> gm q i = gm' q i).
Proof.
  intros Hnd Hpos Hgeo Hns Hnr Hs Hr.
  intros Hroom dt md store lg mg bg sr gr nt g nthr th sched visA visB nthr' th' sched' visA' visB' A1 A2 A3 A4 A5 A6 A7 A8 T T'.
  destruct (elastic_shots_same nd K Kr P0 pw NS nsrc nrec srcs recs lbat mbat bbat Hnd Hpos Hgeo Hns Hnr Hs Hr Hroom dt md store lg mg bg sr gr nt g nthr th None sched visA visB
    nthr' th' None sched' visA' visB' A1 A2 A3 A4 A5 A6 A7 A8) as (U & f & gm & U' & f' & gm' & E & E' & B1 & B2 & B3).
  exists U, f, gm, U', f', gm'. split; [exact E|]. split; [exact E'|]. split; [exact B1|]. split; [exact B2|].
  intros q i Hq Hf. apply B3; auto.
Qed.

Lemma elastic_shots_other (nd : nat) (K : ops) (Kr : is_ring K) (P0 : spar (el_sys nd) K) (pw : nat -> Z * Z) (NS : Z)
    (nsrc nrec : eC -> Z) (srcs recs : eC -> Z -> Z) (lbat mbat bbat : bool) :
  length (sp_shape P0) = nd -> (0 < nd)%nat -> sgeom (el_sys nd) K P0 pw -> (forall c, (0 <= nsrc c)%Z) -> (forall c, (0 <= nrec c)%Z) ->
  (forall c j, (0 <= j < NS * nsrc c)%Z -> sloc_ok (el_sys nd) K P0 c (srcs c j)) ->
  (forall c j, (0 <= j < NS * nrec c)%Z -> sloc_ok (el_sys nd) K P0 c (recs c j)) ->
  sroom (el_sys nd) K P0 pw -> forall (dt : K) (md : eM -> arr K) store lg mg bg sr gr nt g nthr th cb sched visA visB nthr' th' cb' sched' visA' visB',
  el_bvis nd K P0 pw true visA -> el_bvis nd K P0 pw false visB ->
  sbsched_ok (el_sys nd) (el_kern nd) NS visA visB sr nt cb sched -> nt_ok nt sr cb ->
  el_bvis nd K P0 pw true visA' -> el_bvis nd K P0 pw false visB' ->
  sbsched_ok (el_sys nd) (el_kern nd) NS visA' visB' sr nt cb' sched' -> nt_ok nt sr cb' ->
  exists U f gm U' f' gm',
    elastic_batch_backward nd K P0 nsrc nrec srcs recs lbat mbat bbat pw nthr th dt md lg mg bg sr gr nt cb sched store g = Some (U, f, gm) /\
    elastic_batch_backward nd K P0 nsrc nrec srcs recs lbat mbat bbat pw nthr' th' dt md lg mg bg sr gr nt cb' sched' store g = Some (U', f', gm') /\
    (forall k, (0 <= k < NS)%Z -> sseq (el_sys nd) K (U k) (U' k)) /\
    (forall t c j, In c (el_allC nd) -> (0 <= j < NS * nsrc c)%Z -> f t c j = f' t c j).
Proof.
  intros Hnd Hpos Hgeo Hns Hnr Hs Hr.
  intros Hroom dt md store lg mg bg sr gr nt g nthr th cb sched visA visB nthr' th' cb' sched' visA' visB' A1 A2 A3 A4 A5 A6 A7 A8.
  destruct (elastic_shots_same nd K Kr P0 pw NS nsrc nrec srcs recs lbat mbat bbat Hnd Hpos Hgeo Hns Hnr Hs Hr Hroom dt md store lg mg bg sr gr nt g nthr th cb sched visA visB
    nthr' th' cb' sched' visA' visB' A1 A2 A3 A4 A5 A6 A7 A8) as (U & f & gm & U' & f' & gm' & E & E' & B1 & B2 & B3).
  exists U, f, gm, U', f', gm'. split; [exact E|]. split; [exact E'|]. split; [exact B1|exact B2].
Qed.

Lemma elastic_shots_model (nd : nat) (K : ops) (Kr : is_ring K) (P0 : spar (el_sys nd) K) (pw : nat -> Z * Z) (NS : Z)
    (nsrc nrec : eC -> Z) (srcs recs : eC -> Z -> Z) (lbat mbat bbat : bool) :
  length (sp_shape P0) = nd -> (0 < nd)%nat -> sgeom (el_sys nd) K P0 pw -> (forall c, (0 <= nsrc c)%Z) -> (forall c, (0 <= nrec c)%Z) ->
  (forall c j, (0 <= j < NS * nsrc c)%Z -> sloc_ok (el_sys nd) K P0 c (srcs c j)) ->
  (forall c j, (0 <= j < NS * nrec c)%Z -> sloc_ok (el_sys nd) K P0 c (recs c j)) ->
  sroom (el_sys nd) K P0 pw -> forall (dt : K) (md : eM -> arr K) store lg mg bg sr gr nt g nthr th cb sched visA visB nthr' th' sched' visA' visB',
  el_bvis nd K P0 pw true visA -> el_bvis nd K P0 pw false visB ->
  sbsched_ok (el_sys nd) (el_kern nd) NS visA visB sr nt cb sched -> nt_ok nt sr cb ->
  el_bvis nd K P0 pw true visA' -> el_bvis nd K P0 pw false visB' ->
  sbsched_ok (el_sys nd) (el_kern nd) NS visA' visB' sr nt None sched' -> nt_ok nt sr None ->
  (forall s k, (0 <= k < NS)%Z -> (0 <= th s k < nthr)%Z) ->
  (forall s k, (0 <= k < NS)%Z -> (0 <= th' s k < nthr')%Z) ->
  exists U f gm U' f' gm',
    elastic_batch_backward nd K P0 nsrc nrec srcs recs lbat mbat bbat pw nthr th dt md lg mg bg sr gr nt cb sched store g = Some (U, f, gm) /\
    elastic_batch_backward nd K P0 nsrc nrec srcs recs lbat mbat bbat pw nthr' th' dt md lg mg bg sr gr nt None sched' store g = Some (U', f', gm') /\
    (forall q i, el_models nd q -> el_fm lg mg bg q = true -> el_fm lbat mbat bbat q = true \/ nthr = 1%Z ->
      (0 <= i < (if el_fm lbat mbat bbat q then NS else 1) * prodZ (sp_shape P0))%Z -> gm q i = gm' q i).
Proof.
  intros Hnd Hpos Hgeo Hns Hnr Hs Hr.
  intros Hroom dt md store lg mg bg sr gr nt g nthr th cb sched visA visB nthr' th' sched' visA' visB' A1 A2 A3 A4 A5 A6 A7 A8 T T'.
  destruct (elastic_shots_same nd K Kr P0 pw NS nsrc nrec srcs recs lbat mbat bbat Hnd Hpos Hgeo Hns Hnr Hs Hr Hroom dt md store lg mg bg sr gr nt g nthr th cb sched visA visB
    nthr' th' None sched' visA' visB' A1 A2 A3 A4 A5 A6 A7 A8) as (U & f & gm & U' & f' & gm' & E & E' & B1 & B2 & B3).
  exists U, f, gm, U', f', gm'. split; [exact E|]. split; [exact E'|].
  intros q i Hq Hf Hb. apply B3; auto. tauto.
Qed.

