(** * Python backend of the acoustic propagator and its agreement with the compiled one. *)
From Coq Require Import List ZArith QArith Lia Bool Permutation.
From Verif Require Import Ops Sums Grid Stencil DualNum ScalarModel ScalarRefine ScalarForward ScalarAdjoint ScalarApi
  Stag StagAdj StagKernel StagCell StagRefine StagGrad StagPy AcousticModel AcousticThm.
Import ListNotations.
Local Open Scope K_scope.

Section Model.
Variable nd : nat.
Variable K : ops.
Variable P : spar (ac_sys nd) K.
Variable dt : K.
Variable kb : aM -> arr K.
Notation S := (ac_sys nd).
Notation mdl k p := (kb k (idx (sp_shape P) p)).

(** [update_velocities] (acoustic.py:1260-1293). *)
Definition apy_vel (s : sst S K) : sst S K :=
  let gp d := py_sdiff S K P true d (mn s XP) in
  let psi d p := sp_a P true d (coord d p) * me s (EV d) p + sp_b P true d (coord d p) * gp d p in
  @mksst S K
    (fun x p => match x with XP => mn s XP p | XV d => mn s (XV d) p - dt * mdl (MB d) p * (gp d p + psi d p) end)
    (fun e => match e with EV d => psi d | EP d => me s (EP d) end).

(** [update_pressure] (acoustic.py:1296-1328). *)
Definition apy_pre (s : sst S K) : sst S K :=
  let dv d := py_sdiff S K P false d (mn s (XV d)) in
  let phi d p := sp_a P false d (coord d p) * me s (EP d) p + sp_b P false d (coord d p) * dv d p in
  let div p := fold_left (fun acc d => acc + dv d p + phi d p) (seq 0 nd) 0 in
  @mksst S K
    (fun x p => match x with XP => mn s XP p - dt * mdl MK p * div p | XV d => mn s (XV d) p end)
    (fun e => match e with EP d => phi d | EV d => me s (EV d) end).

(** [acoustic_python] (acoustic.py:1341-1561). *)
Definition acoustic_python (pw : nat -> Z * Z) (sr : Z) (f : krec S K) (nt : Z) (u : sst S K) : sst S K * krec S K :=
  sp_python S K P pw true apy_vel apy_pre sr f nt u.
End Model.

Section Thm.
Variable nd : nat.
Variable K : ops.
Hypothesis Kr : is_ring K.
Add Ring KRing : Kr.
Variable P : spar (ac_sys nd) K.
Variable pw : nat -> Z * Z.
Variable dt : K.
Variable kb : aM -> arr K.
Notation S := (ac_sys nd).
Notation cc := (ccoe S K P (ac_kc dt kb)).

Lemma apy_vel_ok : upd_ok S K P cc true (apy_vel nd K P dt kb).
Proof.
  intros s. split.
  - intros x p Hx _. apply In_ac_allX in Hx. destruct x as [|d]; cbn [xA ac_sys ac_xA Bool.eqb]; [reflexivity|].
    rewrite ac_incE_V by exact Hx. cbn [sumf]. unfold ccoe. cbn [ac_kc apy_vel mn me ac_sys esrc edim eh ac_esrc ac_edim ac_eh].
    rewrite Nat.eqb_refl. ring.
  - intros e p He _. destruct e as [d|d]; cbn [eA ac_sys ac_eA Bool.eqb]; [|reflexivity].
    unfold eb, ea. cbn [apy_vel mn me ac_sys esrc edim eh ac_esrc ac_edim ac_eh]. rewrite Nat.eqb_refl. ring.
Qed.

Lemma apy_pre_ok : upd_ok S K P cc false (apy_pre nd K P dt kb).
Proof.
  intros s. split.
  - intros x p Hx _. destruct x as [|d]; cbn [xA ac_sys ac_xA Bool.eqb]; [|reflexivity].
    rewrite ac_incE_P. cbn [apy_pre mn].
    match goal with |- context [fold_left ?F (seq 0 nd) 0] => set (G := F) end.
    assert (E : forall l z, fold_left G l z = z + sumf (map EP l) (fun e => py_sdiff S K P (eh S e (edim S e)) (edim S e) (mn s (esrc S e)) p
        + me (apy_pre nd K P dt kb s) e p)).
    { induction l as [|j l IH]; intros z; cbn [fold_left map sumf]; [ring|]. rewrite IH. unfold G.
      cbn [apy_pre me ac_sys esrc edim eh ac_esrc ac_edim ac_eh]. ring. }
    rewrite E.
    rewrite (sumf_ext K (map EP (seq 0 nd)) (fun e => cc XP e p * _)
       (fun e => (- dt * kb MK (idx (sp_shape P) p)) * (py_sdiff S K P (eh S e (edim S e)) (edim S e) (mn s (esrc S e)) p
        + me (apy_pre nd K P dt kb s) e p))).
    + rewrite (sumf_scal K Kr). change (sE (ac_sys nd)) with aE. ring.
    + intros e He. apply in_map_iff in He. destruct He as (j & <- & _). reflexivity.
  - intros e p He _. destruct e as [d|d]; cbn [eA ac_sys ac_eA Bool.eqb]; [reflexivity|].
    unfold eb, ea. cbn [apy_pre mn me ac_sys esrc edim eh ac_esrc ac_edim ac_eh]. ring.
Qed.

Lemma acoustic_backends_agree :
  length (sp_shape P) = nd -> locs_ok S K P (sp_src P) -> locs_ok S K P (sp_rec P) ->
  ign_ok S (sp_src P) -> ign_ok S (sp_rec P) -> sgeom S K P pw ->
  forall f u nt sr visA visB kg bg cb store,
  ac_fvis nd K P pw true visA -> ac_fvis nd K P pw false visB -> nt_ok nt sr cb ->
  exists U R st U' R',
  acoustic_forward nd K P pw dt kb visA visB kg bg sr f nt cb store u = Some (U, R, st) /\
  acoustic_python nd K P dt kb pw sr f nt u = (U', R') /\
  sseq S K U U' /\ forall t c, In c (ac_allX nd) -> R t c = R' t c.
Proof.
  intros Hnd Hsrc Hrec Is Ir Hgeo f u nt sr visA visB kg bg cb store VA VB Hnt.
  assert (Sok : sys_ok S (length (sp_shape P))) by (rewrite Hnd; apply ac_sys_ok).
  assert (Hk : kern_ok S (ac_kern nd) (length (sp_shape P))) by (rewrite Hnd; apply ac_kern_ok).
  destruct (k_fwd_spec S (ac_kern nd) K Kr P (ac_num nd K dt kb) (ac_kc dt kb) pw Sok Hk (ac_num_ok nd K Kr dt kb) Hsrc Hrec Hgeo
     visA visB (ac_flag kg bg) sr f nt cb store u VA VB Hnt) as (u' & r' & st' & E' & A1 & A2 & _).
  pose proof Hnt as (Hs & Hn & _).
  pose proof (sp_python_spec S K Kr P pw Sok Hsrc Hrec Is Ir Hgeo true (or_introl eq_refl) (ac_kc dt kb) _ _ apy_vel_ok apy_pre_ok sr f nt u Hs Hn) as B.
  unfold acoustic_python. destruct (sp_python S K P pw true _ _ sr f nt u) as [U' R'].
  destruct B as [[BX BE] B2], A1 as [AX AE]. exists u', r', st', U', R'. split; [exact E'|]. split; [reflexivity|]. split; [split|].
  - intros x p Hx. rewrite AX, BX by exact Hx. reflexivity.
  - intros e p He. rewrite AE, BE by exact He. reflexivity.
  - intros t c Hc. rewrite A2, B2 by exact Hc. reflexivity.
Qed.
End Thm.
