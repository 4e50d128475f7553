(** * Concrete acoustic and elastic runs for the examples of PropStagRun. *)
From Coq Require Import List ZArith QArith Qcanon Lia Bool Permutation.
From Verif Require Import Ops Sums Grid Stencil DualNum ScalarModel ScalarRefine ScalarAdjoint ScalarMore ScalarApi ScalarEx
  Stag StagAdj StagKernel StagCell StagRefine StagGrad StagPy AcousticModel AcousticThm AcousticEx ElasticModel ElasticThm ElasticEx StagEqs StagRun StagRunInst.
Import ListNotations.

Definition ax_f : krec (ac_sys 2) Qc_ops := fun t c => lre (aex_f t c).
Definition ax_f2 : krec (ac_sys 2) Qc_ops := fun t c => lep (aex_f t c).
Definition ax_u : sst (ac_sys 2) Qc_ops := ssre aex_u.
Definition ax_u2 : sst (ac_sys 2) Qc_ops := ssep aex_u.
Definition ax (sr : Z) f nt cb u := acoustic_forward 2 Qc_ops aexP aexpw aex_dt (fun k => are (aex_kb k)) (aexF true) (aexF false) true true sr f nt cb (fun _ _ _ => o0 Qc_ops) u.
Definition ax_back (sr nt : Z) cb st := acoustic_backward 2 Qc_ops aexP aexpw aex_dt (fun k => are (aex_kb k)) (aexB true) (aexB false) true true sr aex_gr nt cb st aex_g.
Definition ax_nz (r : option (sst (ac_sys 2) Qc_ops * krec (ac_sys 2) Qc_ops * (kQ (ac_kern 2) -> Z -> arr Qc_ops))) t c : bool :=
  match r with Some (_, R, _) => existsb nz (R t c) | None => false end.
Lemma ax_some sr f nt cb u : nt_ok nt sr cb -> exists U R S, ax sr f nt cb u = Some (U, R, S).
Proof.
  exact (run_some (ac_sys 2) (ac_kern 2) Qc_ops Qc_is_ring aexP (ac_num 2 Qc_ops aex_dt (fun k => are (aex_kb k))) (ac_kc (K := Qc_ops) aex_dt (fun k => are (aex_kb k))) aexpw (ac_sys_ok 2) (ac_kern_ok 2) (ac_num_ok 2 Qc_ops Qc_is_ring aex_dt (fun k => are (aex_kb k))) aex_src aex_rec aex_geom
    (aexF true) (aexF false) (ac_flag true true) sr f nt cb (fun _ _ _ => o0 Qc_ops) u (Permutation_refl _) (Permutation_refl _)).
Qed.

Definition ex_f : krec (el_sys 2) Qc_ops := fun t c => lre (eex_f t c).
Definition ex_f2 : krec (el_sys 2) Qc_ops := fun t c => lep (eex_f t c).
Definition ex_u : sst (el_sys 2) Qc_ops := ssre eex_u.
Definition ex_u2 : sst (el_sys 2) Qc_ops := ssep eex_u.
Definition ex (sr : Z) f nt cb u := elastic_forward 2 Qc_ops eexP aexpw eex_dt (fun k => are (eex_md k)) (eexF true) (eexF false) true true true sr f nt cb (fun _ _ _ => o0 Qc_ops) u.
Definition ex_back (sr nt : Z) cb st := elastic_backward 2 Qc_ops eexP aexpw eex_dt (fun k => are (eex_md k)) (eexB true) (eexB false) true true true sr eex_gr nt cb st eex_g.
Definition ex_nz (r : option (sst (el_sys 2) Qc_ops * krec (el_sys 2) Qc_ops * (kQ (el_kern 2) -> Z -> arr Qc_ops))) t c : bool :=
  match r with Some (_, R, _) => existsb nz (R t c) | None => false end.
Lemma ex_some sr f nt cb u : nt_ok nt sr cb -> exists U R S, ex sr f nt cb u = Some (U, R, S).
Proof.
  exact (run_some (el_sys 2) (el_kern 2) Qc_ops Qc_is_ring eexP (el_num 2 Qc_ops eex_dt (fun k => are (eex_md k))) (el_kc (K := Qc_ops) eex_dt (fun k => are (eex_md k))) aexpw (el_sys_ok 2) (el_kern_ok 2 Nat.lt_0_2) (el_num_ok 2 Qc_ops Qc_is_ring eex_dt (fun k => are (eex_md k))) eex_src eex_rec eex_geom
    (eexF true) (eexF false) (el_fq true true true) sr f nt cb (fun _ _ _ => o0 Qc_ops) u (Permutation_refl _) (Permutation_refl _)).
Qed.

(** Another amplitude for the ignored source; an additional, ignored receiver. *)
Definition ax_f' : krec (ac_sys 2) Qc_ops := fun t c => match c with XP => [nth 0 (ax_f t XP) (qz 0); qz 77] | _ => ax_f t c end.
Definition ax_f3 : krec (ac_sys 2) Qc_ops := fun t c => if (t <? 2)%Z then ax_f t c else match c with XP => [qz 10; qz 0] | _ => ax_f t c end.
Lemma ax_f3_eq s c : (0 <= s < 2)%Z -> In c (ac_allX 2) -> ax_f s c = ax_f3 s c.
Proof. intros Hs _. unfold ax_f3. destruct (Z.ltb_spec s 2); [reflexivity|lia]. Qed.
Definition axP : spar (ac_sys 2) Qc_ops :=
  @mkspar (ac_sys 2) Qc_ops (sp_acc aexP) (sp_shape aexP) (sp_rd aexP) (sp_a aexP) (sp_b aexP) (sp_src aexP)
    (fun c => match c with XP => [11%Z; IGNORE] | _ => sp_rec aexP c end).
Lemma axP_rec : locs_ok (ac_sys 2) Qc_ops axP (sp_rec axP).
Proof.
  intros c Hc. pose proof (aex_rec c Hc) as H. destruct c; cbn [sp_rec axP]; try exact H.
  all: constructor; [exact (Forall_inv H)|]. all: constructor; [left; reflexivity|constructor].
Qed.
Lemma axP_geom : sgeom (ac_sys 2) Qc_ops axP aexpw.
Proof. destruct aex_geom as [H1 H2]. split; [exact H1|exact H2]. Qed.
Definition ax_st : kQ (ac_kern 2) -> Z -> arr Qc_ops :=
  match ax 1 ax_f 3 None ax_u with Some (_, _, s) => s | None => fun _ _ _ => o0 Qc_ops end.

(** Another amplitude for the ignored source; an additional, ignored receiver. *)
Definition ex_f' : krec (el_sys 2) Qc_ops := fun t c => match c with CP => [nth 0 (ex_f t CP) (qz 0); qz 77] | _ => ex_f t c end.
Definition ex_f3 : krec (el_sys 2) Qc_ops := fun t c => if (t <? 2)%Z then ex_f t c else match c with CP => [qz 10; qz 0] | _ => ex_f t c end.
Lemma ex_f3_eq s c : (0 <= s < 2)%Z -> In c (el_allC 2) -> ex_f s c = ex_f3 s c.
Proof. intros Hs _. unfold ex_f3. destruct (Z.ltb_spec s 2); [reflexivity|lia]. Qed.
Definition exP : spar (el_sys 2) Qc_ops :=
  @mkspar (el_sys 2) Qc_ops (sp_acc eexP) (sp_shape eexP) (sp_rd eexP) (sp_a eexP) (sp_b eexP) (sp_src eexP)
    (fun c => match c with CP => [11%Z; IGNORE] | _ => sp_rec eexP c end).
Lemma exP_rec : locs_ok (el_sys 2) Qc_ops exP (sp_rec exP).
Proof.
  intros c Hc. pose proof (eex_rec c Hc) as H. destruct c; cbn [sp_rec exP]; try exact H.
  all: constructor; [exact (Forall_inv H)|]. all: constructor; [left; reflexivity|constructor].
Qed.
Lemma exP_geom : sgeom (el_sys 2) Qc_ops exP aexpw.
Proof. destruct eex_geom as [H1 H2]. split; [exact H1|exact H2]. Qed.
Definition ex_st : kQ (el_kern 2) -> Z -> arr Qc_ops :=
  match ex 1 ex_f 3 None ex_u with Some (_, _, s) => s | None => fun _ _ _ => o0 Qc_ops end.
