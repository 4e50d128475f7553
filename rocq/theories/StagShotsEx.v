(** * Two shots on the problems of [AcousticEx] and [ElasticEx], used by the examples. *)
From Coq Require Import List ZArith QArith Qcanon Lia Bool Permutation.
From Verif Require Import Ops Sums Grid Stencil DualNum ScalarModel ScalarRefine ScalarAdjoint ScalarMore ScalarApi ScalarEx ShotsModel ShotsThm
  Stag StagAdj StagKernel StagCell StagRefine StagGrad AcousticModel AcousticThm AcousticEx ElasticModel ElasticThm ElasticEx
  StagShotsModel StagShotsThm.
Import ListNotations.
Local Opaque IGNORE.

(** Two pressure sources per shot, one of them ignored in the first shot; one source of each velocity; one receiver of each kind. *)
Definition s2_tab (l : list Z) (j : Z) : Z := nth (Z.to_nat j) l 0%Z.
(** Shot [k] on thread [k], swapped in odd calls. *)
Definition s2_th (s k : Z) : Z := if Z.odd s then (1 - k)%Z else k.
Lemma s2_th_ok s k : (0 <= k < 2)%Z -> (0 <= s2_th s k < 2)%Z.
Proof. unfold s2_th. destruct (Z.odd s); lia. Qed.

Definition a2_n (p : Z) (c : aX) : Z := match c with XP => p | XV d => if (d <? 2)%nat then 1%Z else 0%Z end.
Definition a2_nsrc := a2_n 2.
Definition a2_nrec := a2_n 1.
Definition a2_srcs (c : aX) : Z -> Z := match c with XP => s2_tab [6%Z; IGNORE; 7%Z; 6%Z] | XV _ => s2_tab [6; 11]%Z end.
Definition a2_recs (c : aX) : Z -> Z := match c with XP => s2_tab [11; 12]%Z | XV _ => s2_tab [12; 7]%Z end.
Definition a2_f (t : Z) (c : aX) : arr Qc_ops := fun j => qz (t + 1 + j).
Definition a2_gr (t : Z) (c : aX) : arr Qc_ops := fun j => qz (2 * t + 1 - j).
Definition a2_u (k : Z) : sst (ac_sys 2) Qc_ops := ssre aex_u.
Definition a2_g (k : Z) : sst (ac_sys 2) Qc_ops := aex_g.
Definition a2_store (q : aM) (s : Z) : arr Qc_ops := fun i => qz (1 + i mod 3 + s).
(** One block of models per shot. *)
Definition a2_md (q : aM) : arr Qc_ops := fun i => fst (aex_kb q (i mod 20 + 2 * (i / 20))%Z).
(** The shots take turns. *)
Definition a2_fsched sr nt cb (s : Z) :=
  turns 2 (sfprog (ac_sys 2) (ac_kern 2) (aexF true) (aexF false) (Z.min (nt / sr - s) (k_cf nt sr cb) * sr) (s * sr)).
Definition a2_bsched sr nt cb (s : Z) :=
  turns 2 (sbprog (ac_sys 2) (ac_kern 2) (aexB true) (aexB false) (Z.min s (k_cf nt sr cb) * sr) (s * sr)).
Lemma a2_fsched_ok sr nt cb : sfsched_ok (ac_sys 2) (ac_kern 2) 2 (aexF true) (aexF false) sr nt cb (a2_fsched sr nt cb).
Proof. intros s. apply turns_ok. Qed.
Lemma a2_bsched_ok sr nt cb : sbsched_ok (ac_sys 2) (ac_kern 2) 2 (aexB true) (aexB false) sr nt cb (a2_bsched sr nt cb).
Proof. intros s. apply turns_ok. Qed.
Lemma a2_nsrc_pos c : (0 <= a2_nsrc c)%Z.
Proof. unfold a2_nsrc, a2_n. destruct c; try destruct (_ <? _)%nat; lia. Qed.
Lemma a2_nrec_pos c : (0 <= a2_nrec c)%Z.
Proof. unfold a2_nrec, a2_n. destruct c; try destruct (_ <? _)%nat; lia. Qed.
Ltac a2_at y x := apply (aex_loc _ _ y x); [reflexivity|aex_cin|reflexivity].
Lemma a2_src c j : (0 <= j < 2 * a2_nsrc c)%Z -> sloc_ok (ac_sys 2) Qc_ops aexP c (a2_srcs c j).
Proof.
  destruct c as [|[|[|d]]]; unfold a2_nsrc, a2_n; cbn; intros H; try lia;
  [(assert (Hj : (j = 0 \/ j = 1 \/ j = 2 \/ j = 3)%Z) by lia; destruct Hj as [-> |[-> |[-> | ->]]]; [a2_at 1%Z 1%Z|left; reflexivity|a2_at 1%Z 2%Z|a2_at 1%Z 1%Z])|(assert (Hj : (j = 0 \/ j = 1)%Z) by lia; destruct Hj as [-> | ->]; [a2_at 1%Z 1%Z|a2_at 2%Z 1%Z])|(assert (Hj : (j = 0 \/ j = 1)%Z) by lia; destruct Hj as [-> | ->]; [a2_at 1%Z 1%Z|a2_at 2%Z 1%Z])].
Qed.
Lemma a2_rec c j : (0 <= j < 2 * a2_nrec c)%Z -> sloc_ok (ac_sys 2) Qc_ops aexP c (a2_recs c j).
Proof.
  destruct c as [|[|[|d]]]; unfold a2_nrec, a2_n; cbn; intros H; try lia;
  [(assert (Hj : (j = 0 \/ j = 1)%Z) by lia; destruct Hj as [-> | ->]; [a2_at 2%Z 1%Z|a2_at 2%Z 2%Z])|(assert (Hj : (j = 0 \/ j = 1)%Z) by lia; destruct Hj as [-> | ->]; [a2_at 2%Z 2%Z|a2_at 1%Z 2%Z])|(assert (Hj : (j = 0 \/ j = 1)%Z) by lia; destruct Hj as [-> | ->]; [a2_at 2%Z 2%Z|a2_at 1%Z 2%Z])].
Qed.

Definition a2_forward kbat bbat sr nt cb :=
  acoustic_batch_forward 2 Qc_ops aexP a2_nsrc a2_nrec a2_srcs a2_recs kbat bbat aexpw aex_dt a2_md true true sr a2_f nt cb
    (a2_fsched sr nt cb) (fun _ _ _ => qz 0) a2_u.
Definition a2_backward kbat bbat nthr th sr nt cb :=
  acoustic_batch_backward 2 Qc_ops aexP a2_nsrc a2_nrec a2_srcs a2_recs kbat bbat aexpw nthr th aex_dt a2_md true true sr a2_gr nt cb
    (a2_bsched sr nt cb) a2_store a2_g.
Definition a2_shot (k : Z) : spar (ac_sys 2) Qc_ops :=
  @mkspar (ac_sys 2) Qc_ops (sp_acc aexP) (sp_shape aexP) (sp_rd aexP) (sp_a aexP) (sp_b aexP)
    (fun c => map (fun j => a2_srcs c (k * a2_nsrc c + j)%Z) (zrange 0 (a2_nsrc c)))
    (fun c => map (fun j => a2_recs c (k * a2_nrec c + j)%Z) (zrange 0 (a2_nrec c))).
Definition a2_shot_md (bt : aM -> bool) (k : Z) (q : aM) : arr Qc_ops := if bt q then (fun i => a2_md q (k * 20 + i)%Z) else a2_md q.
Definition a2_forward1 kbat bbat sr nt cb (k : Z) :=
  acoustic_forward 2 Qc_ops (a2_shot k) aexpw aex_dt (a2_shot_md (ac_flag kbat bbat) k) (aexF true) (aexF false) true true sr
    (fun t c => map (fun j => a2_f t c (k * a2_nsrc c + j)%Z) (zrange 0 (a2_nsrc c))) nt cb (fun _ _ _ => qz 0) (a2_u k).
Definition a2_backward1 kbat bbat sr nt cb (k : Z) :=
  acoustic_backward 2 Qc_ops (a2_shot k) aexpw aex_dt (a2_shot_md (ac_flag kbat bbat) k) (aexB true) (aexB false) true true sr
    (fun t c => map (fun j => a2_gr t c (k * a2_nrec c + j)%Z) (zrange 0 (a2_nrec c))) nt cb (fun q si i => a2_store q si (k * 20 + i)%Z) (a2_g k).

Definition e2_n (p : Z) (c : eC) : Z := match c with CP => p | CV d => if (d <? 2)%nat then 1%Z else 0%Z end.
Definition e2_nsrc := e2_n 2.
Definition e2_nrec := e2_n 1.
Definition e2_srcs (c : eC) : Z -> Z := match c with CP => s2_tab [6%Z; IGNORE; 7%Z; 6%Z] | CV _ => s2_tab [6; 11]%Z end.
Definition e2_recs (c : eC) : Z -> Z := match c with CP => s2_tab [11; 12]%Z | CV _ => s2_tab [12; 7]%Z end.
Definition e2_f (t : Z) (c : eC) : arr Qc_ops := fun j => qz (t + 1 + j).
Definition e2_gr (t : Z) (c : eC) : arr Qc_ops := fun j => qz (2 * t + 1 - j).
Definition e2_u (k : Z) : sst (el_sys 2) Qc_ops := ssre eex_u.
Definition e2_g (k : Z) : sst (el_sys 2) Qc_ops := eex_g.
Definition e2_store (q : eQ) (s : Z) : arr Qc_ops := fun i => qz (1 + i mod 3 + s).
(** One block of models per shot. *)
Definition e2_md (q : eM) : arr Qc_ops := fun i => fst (eex_md q (i mod 20 + 2 * (i / 20))%Z).
(** The shots take turns. *)
Definition e2_fsched sr nt cb (s : Z) :=
  turns 2 (sfprog (el_sys 2) (el_kern 2) (eexF true) (eexF false) (Z.min (nt / sr - s) (k_cf nt sr cb) * sr) (s * sr)).
Definition e2_bsched sr nt cb (s : Z) :=
  turns 2 (sbprog (el_sys 2) (el_kern 2) (eexB true) (eexB false) (Z.min s (k_cf nt sr cb) * sr) (s * sr)).
Lemma e2_fsched_ok sr nt cb : sfsched_ok (el_sys 2) (el_kern 2) 2 (eexF true) (eexF false) sr nt cb (e2_fsched sr nt cb).
Proof. intros s. apply turns_ok. Qed.
Lemma e2_bsched_ok sr nt cb : sbsched_ok (el_sys 2) (el_kern 2) 2 (eexB true) (eexB false) sr nt cb (e2_bsched sr nt cb).
Proof. intros s. apply turns_ok. Qed.
Lemma e2_nsrc_pos c : (0 <= e2_nsrc c)%Z.
Proof. unfold e2_nsrc, e2_n. destruct c; try destruct (_ <? _)%nat; lia. Qed.
Lemma e2_nrec_pos c : (0 <= e2_nrec c)%Z.
Proof. unfold e2_nrec, e2_n. destruct c; try destruct (_ <? _)%nat; lia. Qed.
Ltac e2_at y x := apply (eex_loc _ _ y x); [reflexivity|eex_cin|reflexivity].
Lemma e2_src c j : (0 <= j < 2 * e2_nsrc c)%Z -> sloc_ok (el_sys 2) Qc_ops eexP c (e2_srcs c j).
Proof.
  destruct c as [[|[|d]]|]; unfold e2_nsrc, e2_n; cbn; intros H; try lia;
  [(assert (Hj : (j = 0 \/ j = 1)%Z) by lia; destruct Hj as [-> | ->]; [e2_at 1%Z 1%Z|e2_at 2%Z 1%Z])|(assert (Hj : (j = 0 \/ j = 1)%Z) by lia; destruct Hj as [-> | ->]; [e2_at 1%Z 1%Z|e2_at 2%Z 1%Z])|(assert (Hj : (j = 0 \/ j = 1 \/ j = 2 \/ j = 3)%Z) by lia; destruct Hj as [-> |[-> |[-> | ->]]]; [e2_at 1%Z 1%Z|left; reflexivity|e2_at 1%Z 2%Z|e2_at 1%Z 1%Z])].
Qed.
Lemma e2_rec c j : (0 <= j < 2 * e2_nrec c)%Z -> sloc_ok (el_sys 2) Qc_ops eexP c (e2_recs c j).
Proof.
  destruct c as [[|[|d]]|]; unfold e2_nrec, e2_n; cbn; intros H; try lia;
  [(assert (Hj : (j = 0 \/ j = 1)%Z) by lia; destruct Hj as [-> | ->]; [e2_at 2%Z 2%Z|e2_at 1%Z 2%Z])|(assert (Hj : (j = 0 \/ j = 1)%Z) by lia; destruct Hj as [-> | ->]; [e2_at 2%Z 2%Z|e2_at 1%Z 2%Z])|(assert (Hj : (j = 0 \/ j = 1)%Z) by lia; destruct Hj as [-> | ->]; [e2_at 2%Z 1%Z|e2_at 2%Z 2%Z])].
Qed.

Definition e2_forward lbat mbat bbat sr nt cb :=
  elastic_batch_forward 2 Qc_ops eexP e2_nsrc e2_nrec e2_srcs e2_recs lbat mbat bbat aexpw eex_dt e2_md true true true sr e2_f nt cb
    (e2_fsched sr nt cb) (fun _ _ _ => qz 0) e2_u.
Definition e2_backward lbat mbat bbat nthr th sr nt cb :=
  elastic_batch_backward 2 Qc_ops eexP e2_nsrc e2_nrec e2_srcs e2_recs lbat mbat bbat aexpw nthr th eex_dt e2_md true true true sr e2_gr nt cb
    (e2_bsched sr nt cb) e2_store e2_g.
Definition e2_shot (k : Z) : spar (el_sys 2) Qc_ops :=
  @mkspar (el_sys 2) Qc_ops (sp_acc eexP) (sp_shape eexP) (sp_rd eexP) (sp_a eexP) (sp_b eexP)
    (fun c => map (fun j => e2_srcs c (k * e2_nsrc c + j)%Z) (zrange 0 (e2_nsrc c)))
    (fun c => map (fun j => e2_recs c (k * e2_nrec c + j)%Z) (zrange 0 (e2_nrec c))).
Definition e2_shot_md (bt : eM -> bool) (k : Z) (q : eM) : arr Qc_ops := if bt q then (fun i => e2_md q (k * 20 + i)%Z) else e2_md q.
Definition e2_forward1 lbat mbat bbat sr nt cb (k : Z) :=
  elastic_forward 2 Qc_ops (e2_shot k) aexpw eex_dt (e2_shot_md (el_fm lbat mbat bbat) k) (eexF true) (eexF false) true true true sr
    (fun t c => map (fun j => e2_f t c (k * e2_nsrc c + j)%Z) (zrange 0 (e2_nsrc c))) nt cb (fun _ _ _ => qz 0) (e2_u k).
Definition e2_backward1 lbat mbat bbat sr nt cb (k : Z) :=
  elastic_backward 2 Qc_ops (e2_shot k) aexpw eex_dt (e2_shot_md (el_fm lbat mbat bbat) k) (eexB true) (eexB false) true true true sr
    (fun t c => map (fun j => e2_gr t c (k * e2_nrec c + j)%Z) (zrange 0 (e2_nrec c))) nt cb (fun q si i => e2_store q si (k * 20 + i)%Z) (e2_g k).

