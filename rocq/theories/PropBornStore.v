(** * Property C44: the Born kernels leave snapshot buffers that are not allocated alone. *)
From Coq Require Import List ZArith QArith Qcanon Lia Bool.
From Verif Require Import Ops Sums Grid Stencil ScalarModel ScalarFunc ScalarEx BornModel BornEx BornStore.
Import ListNotations.
Local Open Scope K_scope.

(** C44, writes.  The buffer of scattered snapshots is allocated only if the wavespeed needs a
    gradient, the buffer of background snapshots only if one of the models does
    (scalar_born.py:705-710).  Otherwise the forward run leaves them as they were. *)
Theorem C44_born_writes (K : ops) (P : par K) (recsc : list Z) (pw : nat -> Z * Z)
    (v sc : arr K) vis sr f fsc srg nt cb w0 wsc0 (u usc : st K) B :
  born_forward K P recsc pw v sc vis false srg sr f fsc nt cb w0 wsc0 u usc = Some B ->
  bo_wsc K B = wsc0 /\ (srg = false -> bo_w K B = w0).
Proof. exact (born_writes K P recsc pw v sc vis sr f fsc srg nt cb w0 wsc0 u usc B). Qed.
Print Assumptions C44_born_writes.

(** Only the scattering potential needs a gradient: background snapshots are written. *)
Example C44_born_writes_example : exists B,
  born_forward Qc_ops exP exb_recsc expw ex_v exb_scat ex_visF false true 1 ex_F exb_Fsc 3 None
    (fun _ _ => qz 7) (fun _ _ => qz 7) ex_U exb_usc = Some B /\
  bo_wsc Qc_ops B = (fun _ _ => qz 7) /\ bo_w Qc_ops B 1%Z 4%Z <> qz 7.
Proof.
  assert (X : match born_forward Qc_ops exP exb_recsc expw ex_v exb_scat ex_visF false true 1 ex_F exb_Fsc 3 None
    (fun _ _ => qz 7) (fun _ _ => qz 7) ex_U exb_usc with
    | Some B => nz (bo_w Qc_ops B 1%Z 4%Z - qz 7)%Qc | None => false end = true) by (vm_compute; reflexivity).
  destruct (born_forward _ _ _ _ _ _ _ _ _ _ _ _ _ _ _ _ _ _) as [B|] eqn:E; [|discriminate X].
  exists B. split; [reflexivity|]. split; [exact (proj1 (C44_born_writes _ _ _ _ _ _ _ _ _ _ _ _ _ _ _ _ _ _ E))|].
  apply nz_spec in X. intros Hc. apply X. rewrite Hc. apply Qcplus_opp_r.
Qed.

(** C44, reads: the gradients do not depend on a buffer that is not allocated. *)
Theorem C44_born_reads (K : ops) (P : par K) (recsc : list Z) (pw : nat -> Z * Z)
    (v sc : arr K) vis sr gr grsc w w' wsc wsc' srg nt cb (g gsc : st K) :
  (srg = true -> w = w') ->
  born_backward K P recsc pw v sc vis w wsc false srg sr gr grsc nt cb g gsc
  = born_backward K P recsc pw v sc vis w' wsc' false srg sr gr grsc nt cb g gsc.
Proof. exact (born_reads K P recsc pw v sc vis sr gr grsc w w' wsc wsc' srg nt cb g gsc). Qed.
Print Assumptions C44_born_reads.

(** The scattered snapshots matter when the wavespeed needs a gradient, and only then. *)
Example C44_born_reads_example :
  let run vrg x := born_backward Qc_ops exP exb_recsc expw ex_v exb_scat ex_visB (fun _ _ => qz 1) (fun _ _ => x)
                     vrg true 1 ex_gr exb_grsc 3 None ex_G exb_Gsc in
  run false (qz 1) = run false (qz 2) /\
  match run true (qz 1), run true (qz 2) with
  | Some G, Some G' => bg_v Qc_ops G 4%Z <> bg_v Qc_ops G' 4%Z | _, _ => False end.
Proof.
  intros run. split; [apply C44_born_reads; reflexivity|].
  assert (X : match run true (qz 1), run true (qz 2) with
    | Some G, Some G' => nz (bg_v Qc_ops G 4%Z - bg_v Qc_ops G' 4%Z)%Qc | _, _ => false end = true) by (vm_compute; reflexivity).
  destruct (run true (qz 1)) as [G|]; [|discriminate X]. destruct (run true (qz 2)) as [G'|]; [|discriminate X].
  apply nz_spec in X. intros Hc. apply X. rewrite Hc. apply Qcplus_opp_r.
Qed.
