(** * The examples of [ScalarEx], [BornEx], [AcousticEx], [ElasticEx] over the real numbers, with straight curves. *)
From Coq Require Import List ZArith QArith Qcanon Qreals Reals Lia Lra Bool Permutation FunctionalExtensionality.
From Verif Require Import Ops Sums Grid Stencil StencilOrder DualNum ScalarModel ScalarRefine ScalarForward ScalarBackward ScalarAdjoint
  ScalarFunc ScalarApi ScalarGrad ScalarEx ScalarEx2 PyBackend Param BornModel BornEx BornThm Stag StagKernel StagRefine AcousticModel AcousticThm AcousticEx
  ElasticModel ElasticThm ElasticEx Deriv DerivScalar DerivBorn StagDeriv DerivObj.
Import ListNotations.

Definition qr (x : Qc) : R := Q2R (this x).
Lemma qr_0 : qr (qz 0) = 0%R.
Proof. unfold qr, qz. cbn. unfold Q2R. cbn. field. Qed.
(** [x + h y] *)
Definition ql (h : R) (x : dual Qc_ops) : R := (qr (fst x) + h * qr (snd x))%R.

Definition rexP : par R_ops :=
  @mkpar R_ops A2 [8%Z] (fun _ => 1%R) (fun _ => 1%R) (fun d y => qr (ex_a d y)) (fun d y => qr (ex_b d y))
    (fun d y => DIFF1 (K := R_ops) A2 1%R (fun k => qr (ex_b d (y + k)%Z))) (/ 4)%R [3%Z; IGNORE] [2%Z; IGNORE; 6%Z].
Lemma rex_geom : geom_ok R_ops rexP expw.
Proof.
  intros d Hd. destruct (ex_geom d Hd) as (A & B & C & D & _). split; [exact A|]. split; [exact B|]. split; [exact C|]. split; [|reflexivity].
  intros y Hy. destruct (D y Hy) as [E1 E2]. cbn [p_a p_b rexP]. change (ex_a d y = qz 0) in E1. change (ex_b d y = qz 0) in E2. rewrite E1, E2.
  split; exact qr_0.
Qed.
Lemma rex_src : Forall (loc_ok R_ops rexP) (p_src rexP).
Proof. exact ex_src. Qed.
Lemma rex_rec : Forall (loc_ok R_ops rexP) (p_rec rexP).
Proof. exact ex_rec. Qed.
Lemma rex_recsc : Forall (loc_ok R_ops rexP) exb_recsc.
Proof. exact exb_recsc_ok. Qed.

Definition lin_arr (a : arr (dual Qc_ops)) (h : R) : arr R_ops := fun i => ql h (a i).
Definition lin_arr' (a : arr (dual Qc_ops)) : arr R_ops := fun i => qr (snd (a i)).
Lemma lin_arr_curve n a : acurve n (lin_arr a) (lin_arr' a).
Proof. intros i _. apply derivable_line. Qed.
Definition lin_row (r : Z -> list (dual Qc_ops)) (h : R) (t : Z) : list R := map (ql h) (r t).
Definition lin_row' (r : Z -> list (dual Qc_ops)) (t : Z) : list R := map (fun x => qr (snd x)) (r t).
Lemma lin_row_curve nt r : rcurve nt (lin_row r) (lin_row' r).
Proof.
  intros t _. unfold lin_row, lin_row'. split; [intros h; rewrite !map_length; reflexivity|]. generalize (r t).
  induction l as [|x l IH]; intros [|j] Hj; cbn in *; try lia; [apply derivable_line|apply IH; lia].
Qed.
Definition lin_st (s : st (dual Qc_ops)) (h : R) : st R_ops :=
  mkst R_ops (fun q => ql h (s_wfc _ s q)) (fun q => ql h (s_wfp _ s q)) (fun d q => ql h (s_psi _ s d q)) (fun d q => ql h (s_zeta _ s d q)).
Definition lin_st' (s : st (dual Qc_ops)) : st R_ops :=
  mkst R_ops (fun q => qr (snd (s_wfc _ s q))) (fun q => qr (snd (s_wfp _ s q))) (fun d q => qr (snd (s_psi _ s d q))) (fun d q => qr (snd (s_zeta _ s d q))).
Lemma lin_st_curve s : scurve rexP (lin_st s) (lin_st' s).
Proof. split; intros; apply derivable_line. Qed.

(** ** Acoustic and elastic *)
Definition raexP : spar (ac_sys 2) R_ops :=
  @mkspar (ac_sys 2) R_ops A2 [4%Z; 5%Z] (fun d => qr (sp_rd aexP d)) (fun h d y => qr (sp_a aexP h d y)) (fun h d y => qr (sp_b aexP h d y))
    (fun c => match c with XV (S (S _)) => [] | _ => sp_src aexP c end) (fun c => match c with XV (S (S _)) => [] | _ => sp_rec aexP c end).
Lemma raex_geom : sgeom (ac_sys 2) R_ops raexP aexpw.
Proof.
  destruct aex_geom as [A B]. split; [exact A|]. intros h d y Hd Hy. destruct (B h d y Hd Hy) as [E1 E2].
  cbn [sp_a sp_b raexP]. change (sp_a aexP h d y = qz 0) in E1. change (sp_b aexP h d y = qz 0) in E2. rewrite E1, E2. split; exact qr_0.
Qed.
Lemma raex_room : sroom (ac_sys 2) R_ops raexP aexpw.
Proof. exact aex_room. Qed.
Lemma raex_src c : Forall (sloc_ok (ac_sys 2) R_ops raexP c) (sp_src raexP c).
Proof. destruct c as [|[|[|d]]]; [exact (aex_src XP (or_introl eq_refl))| | |apply Forall_nil];
  [exact (aex_src (XV 0) ltac:(cbn; auto))|exact (aex_src (XV 1) ltac:(cbn; auto))]. Qed.
Lemma raex_rec c : Forall (sloc_ok (ac_sys 2) R_ops raexP c) (sp_rec raexP c).
Proof. destruct c as [|[|[|d]]]; [exact (aex_rec XP (or_introl eq_refl))| | |apply Forall_nil];
  [exact (aex_rec (XV 0) ltac:(cbn; auto))|exact (aex_rec (XV 1) ltac:(cbn; auto))]. Qed.

Definition reexP : spar (el_sys 2) R_ops :=
  @mkspar (el_sys 2) R_ops A2 [4%Z; 5%Z] (fun d => qr (sp_rd eexP d)) (fun h d y => qr (sp_a eexP h d y)) (fun h d y => qr (sp_b eexP h d y))
    (fun c => match c with CV (S (S _)) => [] | _ => sp_src eexP c end) (fun c => match c with CV (S (S _)) => [] | _ => sp_rec eexP c end).
Lemma reex_geom : sgeom (el_sys 2) R_ops reexP aexpw.
Proof.
  destruct eex_geom as [A B]. split; [exact A|]. intros h d y Hd Hy. destruct (B h d y Hd Hy) as [E1 E2].
  cbn [sp_a sp_b reexP]. change (sp_a eexP h d y = qz 0) in E1. change (sp_b eexP h d y = qz 0) in E2. rewrite E1, E2. split; exact qr_0.
Qed.
Lemma reex_room : sroom (el_sys 2) R_ops reexP aexpw.
Proof. exact eex_room. Qed.
Lemma reex_src c : Forall (sloc_ok (el_sys 2) R_ops reexP c) (sp_src reexP c).
Proof. destruct c as [[|[|d]]|]; [| |apply Forall_nil|exact (eex_src CP (proj2 (In_el_allC 2 CP) I))];
  [exact (eex_src (CV 0) ltac:(cbn; auto))|exact (eex_src (CV 1) ltac:(cbn; auto))]. Qed.
Lemma reex_rec c : Forall (sloc_ok (el_sys 2) R_ops reexP c) (sp_rec reexP c).
Proof. destruct c as [[|[|d]]|]; [| |apply Forall_nil|exact (eex_rec CP (proj2 (In_el_allC 2 CP) I))];
  [exact (eex_rec (CV 0) ltac:(cbn; auto))|exact (eex_rec (CV 1) ltac:(cbn; auto))]. Qed.

Definition lin_sst {S : sys} (s : sst S (dual Qc_ops)) (h : R) : sst S R_ops := @mksst S R_ops (fun x p => ql h (mn s x p)) (fun e p => ql h (me s e p)).
Definition lin_sst' {S : sys} (s : sst S (dual Qc_ops)) : sst S R_ops := @mksst S R_ops (fun x p => qr (snd (mn s x p))) (fun e p => qr (snd (me s e p))).
Definition real_sst {S : sys} (s : sst S Qc_ops) : sst S R_ops := @mksst S R_ops (fun x p => qr (mn s x p)) (fun e p => qr (me s e p)).
Lemma lin_sst_curve {S : sys} (P : spar S R_ops) s : sscurve P (lin_sst s) (lin_sst' s).
Proof. split; intros; apply derivable_line. Qed.
Definition lin_krec {S : sys} (r : krec S (dual Qc_ops)) (h : R) : krec S R_ops := fun t c => map (ql h) (r t c).
Definition lin_krec' {S : sys} (r : krec S (dual Qc_ops)) : krec S R_ops := fun t c => map (fun x => qr (snd x)) (r t c).
Lemma lin_krec_curve {S : sys} nt (r : krec S (dual Qc_ops)) : krcurve nt (lin_krec r) (lin_krec' r).
Proof. intros c. exact (lin_row_curve nt (fun t => r t c)). Qed.
Lemma const_rows {S : sys} (r : krec S R_ops) : (fun t c => lre (map (dconst (K := R_ops)) (r t c))) = r.
Proof.
  apply functional_extensionality; intros t. apply functional_extensionality; intros c. unfold lre. rewrite map_map. apply map_id.
Qed.
