(** * Properties C09, C10, C12, C13, C14, C15, C18, C27, C28, C41, C55: runs of the Born propagator. *)
From Coq Require Import List ZArith QArith Qcanon Lia Permutation.
From Verif Require Import Ops Sums Grid Stencil DualNum ScalarModel ScalarRefine ScalarForward
  ScalarBackward ScalarAdjoint ScalarFunc ScalarApi ScalarGrad ScalarMore ScalarMore2 ScalarPhys ScalarReach ScalarEx ScalarEx2
  BornModel BornSim BornBack BornThm BornPy BornEx BornRun BornRun2 BornRunEx.
Import ListNotations.
Local Open Scope K_scope.

(** C55: for a fixed background (wavespeed, sources, initial wavefields) the scattered wavefields
    and the scattered data are linear in the scattering potential, the scattered sources and the
    initial scattered wavefields together, and the background does not depend on them. *)
Theorem C55_born_linear (K : ops) (Kr : is_ring K) (P : par K) (recsc : list Z) (pw : nat -> Z * Z) :
  geom_ok K P pw -> Forall (loc_ok K P) (p_src P) -> Forall (loc_ok K P) (p_rec P) -> Forall (loc_ok K P) recsc ->
  forall (a b : K) (v s1 s2 : arr K) f f1 f2 u u1 u2 nt sr vis1 vis2 vis vrg1 srg1 vrg2 srg2 vrg srg cb1 cb2 cb
    w1 x1 w2 x2 w0 x0 B1 B2 B,
  (forall t, length (f1 t) = length (f t)) -> (forall t, length (f2 t) = length (f t)) ->
  fvis K P pw vis1 -> fvis K P pw vis2 -> fvis K P pw vis -> (0 < sr)%Z ->
  cb_ok nt sr cb1 -> cb_ok nt sr cb2 -> cb_ok nt sr cb ->
  born_forward K P recsc pw v s1 vis1 vrg1 srg1 sr f f1 nt cb1 w1 x1 u u1 = Some B1 ->
  born_forward K P recsc pw v s2 vis2 vrg2 srg2 sr f f2 nt cb2 w2 x2 u u2 = Some B2 ->
  born_forward K P recsc pw v (fun i => a * s1 i + b * s2 i) vis vrg srg sr f (fun t => lc_l a b (f1 t) (f2 t))
    nt cb w0 x0 u (lc_st a b u1 u2) = Some B ->
  ueq K P (bo_usc K B) (lc_st a b (bo_usc K B1) (bo_usc K B2)) /\
  (forall t, bo_rsc K B t = lc_l a b (bo_rsc K B1 t) (bo_rsc K B2 t)) /\
  ueq K P (bo_u K B) (bo_u K B1) /\ (forall t, bo_r K B t = bo_r K B1 t).
Proof. exact (born_linear K Kr P recsc pw). Qed.
Print Assumptions C55_born_linear.

(** As a user of [scalar_born] sees it: the scattered sources are made from the same amplitudes
    and the scattering potential; no initial scattered wavefield. *)
Theorem C55_born_linear_scatter (K : ops) (Kr : is_ring K) (P : par K) (recsc : list Z) (pw : nat -> Z * Z) :
  geom_ok K P pw -> Forall (loc_ok K P) (p_src P) -> Forall (loc_ok K P) (p_rec P) -> Forall (loc_ok K P) recsc ->
  forall (a b : K) (v s1 s2 : arr K) (amps : Z -> list K) u nt sr vis vrg srg cb w0 x0,
  fvis K P pw vis -> (0 < sr)%Z -> cb_ok nt sr cb ->
  let run s := born_forward K P recsc pw v s vis vrg srg sr (fun t => scale_amps K P v (p_src P) (amps t))
                 (fun t => scale_amps_sc K P v s (p_src P) (amps t)) nt cb w0 x0 u (zero_st K) in
  exists B1 B2 B, run s1 = Some B1 /\ run s2 = Some B2 /\ run (fun i => a * s1 i + b * s2 i) = Some B /\
    (forall t, bo_rsc K B t = lc_l a b (bo_rsc K B1 t) (bo_rsc K B2 t)) /\ (forall t, bo_r K B t = bo_r K B1 t).
Proof. exact (born_linear_scatter K Kr P recsc pw). Qed.
Print Assumptions C55_born_linear_scatter.

Definition exb_scat2 : arr Qc_ops := fun i => qz (i * i - 3).
Example linear_scatter_example : exists B1 B2 B,
  exb_run exb_scat 2 ex_F exb_Fsc 4 None ex_U exb_usc = Some B1 /\
  exb_run exb_scat2 2 ex_F ex_F 4 None ex_U ex_U = Some B2 /\
  exb_run (fun i => qz 2 * exb_scat i + qz (-3) * exb_scat2 i)%Qc 2 ex_F (fun t => lc_l (K := Qc_ops) (qz 2) (qz (-3)) (exb_Fsc t) (ex_F t)) 4 None
    ex_U (lc_st (K := Qc_ops) (qz 2) (qz (-3)) exb_usc ex_U) = Some B /\
  bo_rsc Qc_ops B 3 = lc_l (K := Qc_ops) (qz 2) (qz (-3)) (bo_rsc Qc_ops B1 3) (bo_rsc Qc_ops B2 3) /\
  nth 0 (bo_rsc Qc_ops B 3) (qz 0) <> qz 0.
Proof.
  destruct (exb_some exb_scat 2 ex_F exb_Fsc 4 None ex_U exb_usc ltac:(reflexivity) ltac:(lia) ltac:(cbn; lia)) as [B1 E1].
  destruct (exb_some exb_scat2 2 ex_F ex_F 4 None ex_U ex_U ltac:(reflexivity) ltac:(lia) ltac:(cbn; lia)) as [B2 E2].
  destruct (exb_some (fun i => qz 2 * exb_scat i + qz (-3) * exb_scat2 i)%Qc 2 ex_F (fun t => lc_l (K := Qc_ops) (qz 2) (qz (-3)) (exb_Fsc t) (ex_F t)) 4 None
    ex_U (lc_st (K := Qc_ops) (qz 2) (qz (-3)) exb_usc ex_U) ltac:(reflexivity) ltac:(lia) ltac:(cbn; lia)) as [B E].
  exists B1, B2, B. split; [exact E1|]. split; [exact E2|]. split; [exact E|]. split.
  - refine (proj1 (proj2 (C55_born_linear Qc_ops Qc_is_ring exP exb_recsc expw ex_geom ex_src ex_rec exb_recsc_ok (qz 2) (qz (-3)) ex_v exb_scat exb_scat2
      ex_F exb_Fsc ex_F ex_U exb_usc ex_U 4 2 ex_visF ex_visF ex_visF false false false false false false None None None _ _ _ _ _ _ B1 B2 B
      _ _ (Permutation_refl _) (Permutation_refl _) (Permutation_refl _) ltac:(lia) ltac:(cbn; lia) ltac:(cbn; lia) ltac:(cbn; lia) E1 E2 E)) 3%Z); reflexivity.
  - assert (H : match exb_run (fun i => qz 2 * exb_scat i + qz (-3) * exb_scat2 i)%Qc 2 ex_F (fun t => lc_l (K := Qc_ops) (qz 2) (qz (-3)) (exb_Fsc t) (ex_F t)) 4 None
      ex_U (lc_st (K := Qc_ops) (qz 2) (qz (-3)) exb_usc ex_U) with Some B => nz (nth 0 (bo_rsc Qc_ops B 3) (qz 0)) | None => false end = true)
      by (vm_compute; reflexivity).
    rewrite E in H. apply nz_spec. exact H.
Qed.

(** C09: forward callbacks change nothing. *)
Theorem C09_born_callbacks_passive (K : ops) (Kr : is_ring K) (P : par K) (recsc : list Z) (pw : nat -> Z * Z) :
  geom_ok K P pw -> Forall (loc_ok K P) (p_src P) -> Forall (loc_ok K P) (p_rec P) -> Forall (loc_ok K P) recsc ->
  forall (v scatter : arr K) f fsc u usc nt sr c vis vrg srg w0 x0,
  (forall t, length (fsc t) = length (f t)) ->
  fvis K P pw vis -> (0 < sr)%Z -> (0 < c)%Z -> (nt = 0 \/ sr <= nt)%Z ->
  exists B B',
    born_forward K P recsc pw v scatter vis vrg srg sr f fsc nt None w0 x0 u usc = Some B /\
    born_forward K P recsc pw v scatter vis vrg srg sr f fsc nt (Some c) w0 x0 u usc = Some B' /\
    ueq K P (bo_u K B) (bo_u K B') /\ ueq K P (bo_usc K B) (bo_usc K B') /\
    (forall t, bo_r K B t = bo_r K B' t) /\ (forall t, bo_rsc K B t = bo_rsc K B' t).
Proof. exact (born_callbacks_passive K Kr P recsc pw). Qed.
Print Assumptions C09_born_callbacks_passive.

(** C10: backward callbacks and the visiting order do not change the gradients. *)
Theorem C10_born_backward_callbacks_passive (K : ops) (Kr : is_ring K) (P : par K) (recsc : list Z) (pw : nat -> Z * Z) :
  geom_ok K P pw -> Forall (loc_ok K P) (p_src P) -> Forall (loc_ok K P) (p_rec P) -> Forall (loc_ok K P) recsc ->
  forall (v scatter : arr K) vis1 vis2 w wsc vrg srg sr gr grsc nt cb1 cb2 g gsc,
  (forall t, length (gr t) = length (p_rec P)) ->
  bvis K P pw vis1 -> bvis K P pw vis2 -> (0 < sr)%Z -> cb_ok nt sr cb1 -> cb_ok nt sr cb2 ->
  exists B1 B2,
    born_backward K P recsc pw v scatter vis1 w wsc vrg srg sr gr grsc nt cb1 g gsc = Some B1 /\
    born_backward K P recsc pw v scatter vis2 w wsc vrg srg sr gr grsc nt cb2 g gsc = Some B2 /\
    ueq K P (bg_u K B1) (bg_u K B2) /\ ueq K P (bg_usc K B1) (bg_usc K B2) /\
    (forall t, bg_f K B1 t = bg_f K B2 t /\ bg_fsc K B1 t = bg_fsc K B2 t) /\
    (srg = true -> forall i, (0 <= i < prodZ (p_shape P))%Z -> bg_scatter K B1 i = bg_scatter K B2 i) /\
    (vrg = true -> forall i, (0 <= i < prodZ (p_shape P))%Z -> bg_v K B1 i = bg_v K B2 i).
Proof. exact (born_backward_same K Kr P recsc pw). Qed.
Print Assumptions C10_born_backward_callbacks_passive.

Example born_callbacks_example : exists B B' G G',
  exb_run exb_scat 2 ex_F exb_Fsc 5 None ex_U exb_usc = Some B /\
  exb_run exb_scat 2 ex_F exb_Fsc 5 (Some 1%Z) ex_U exb_usc = Some B' /\
  bo_rsc Qc_ops B 3 = bo_rsc Qc_ops B' 3 /\ nth 0 (bo_rsc Qc_ops B 3) (qz 0) <> qz 0 /\
  born_backward Qc_ops exP exb_recsc expw ex_v exb_scat ex_visB (fun _ i => qz i) (fun _ i => qz (i + 1)) true true 1 ex_gr exb_grsc 2 None ex_G exb_Gsc = Some G /\
  born_backward Qc_ops exP exb_recsc expw ex_v exb_scat ex_visB (fun _ i => qz i) (fun _ i => qz (i + 1)) true true 1 ex_gr exb_grsc 2 (Some 1%Z) ex_G exb_Gsc = Some G' /\
  bg_v Qc_ops G 3%Z = bg_v Qc_ops G' 3%Z /\ bg_v Qc_ops G 3%Z <> qz 0.
Proof.
  destruct (C09_born_callbacks_passive Qc_ops Qc_is_ring exP exb_recsc expw ex_geom ex_src ex_rec exb_recsc_ok ex_v exb_scat ex_F exb_Fsc ex_U exb_usc 5 2 1
    ex_visF false false ex_store0 ex_store0 ltac:(reflexivity) (Permutation_refl _) ltac:(lia) ltac:(lia) ltac:(lia)) as (B & B' & E & E' & _ & _ & _ & H).
  destruct (C10_born_backward_callbacks_passive Qc_ops Qc_is_ring exP exb_recsc expw ex_geom ex_src ex_rec exb_recsc_ok ex_v exb_scat ex_visB ex_visB
    (fun _ i => qz i) (fun _ i => qz (i + 1)) true true 1 ex_gr exb_grsc 2 None (Some 1%Z) ex_G exb_Gsc ltac:(reflexivity) (Permutation_refl _) (Permutation_refl _)
    ltac:(lia) ltac:(cbn; lia) ltac:(cbn; lia)) as (G & G' & F & F' & _ & _ & _ & _ & HV).
  exists B, B', G, G'. split; [exact E|]. split; [exact E'|]. split; [apply H|]. split; [|split; [exact F|split; [exact F'|split; [apply HV; [reflexivity|cbn; lia]|]]]].
  - assert (X : match exb_run exb_scat 2 ex_F exb_Fsc 5 None ex_U exb_usc with Some B => nz (nth 0 (bo_rsc Qc_ops B 3) (qz 0)) | None => false end = true)
      by (vm_compute; reflexivity).
    unfold exb_run in X. rewrite E in X. apply nz_spec. exact X.
  - assert (X : match born_backward Qc_ops exP exb_recsc expw ex_v exb_scat ex_visB (fun _ i => qz i) (fun _ i => qz (i + 1)) true true 1 ex_gr exb_grsc 2 None ex_G exb_Gsc
      with Some G => nz (bg_v Qc_ops G 3%Z) | None => false end = true) by (vm_compute; reflexivity).
    rewrite F in X. apply nz_spec. exact X.
Qed.

(** C12: with an interval that divides the number of steps, sample [t] of the background and of
    the scattered receivers is the wavefield after [t] steps there. *)
Theorem C12_born_all_steps_partial (K : ops) (Kr : is_ring K) (P : par K) (recsc : list Z) (pw : nat -> Z * Z) :
  geom_ok K P pw -> Forall (loc_ok K P) (p_src P) -> Forall (loc_ok K P) (p_rec P) -> Forall (loc_ok K P) recsc ->
  forall (v scatter : arr K) f fsc u usc nt sr vis vis1 vrg srg vrg1 srg1 cb cb1 w0 x0 w1 x1,
  (forall t, length (fsc t) = length (f t)) ->
  fvis K P pw vis -> fvis K P pw vis1 -> (0 < sr)%Z -> (0 <= nt)%Z -> (nt mod sr = 0)%Z ->
  cb_ok nt sr cb -> cb_ok nt 1 cb1 ->
  exists B B1,
    born_forward K P recsc pw v scatter vis vrg srg sr f fsc nt cb w0 x0 u usc = Some B /\
    born_forward K P recsc pw v scatter vis1 vrg1 srg1 1 f fsc nt cb1 w1 x1 u usc = Some B1 /\
    (ueq K P (bo_u K B) (bo_u K B1) /\ ueq K P (bo_usc K B) (bo_usc K B1) /\
     (forall t, bo_r K B t = bo_r K B1 t) /\ (forall t, bo_rsc K B t = bo_rsc K B1 t)) /\
    (forall t, (0 <= t < nt)%Z -> exists Bt,
       born_forward K P recsc pw v scatter vis1 vrg1 srg1 1 f fsc t None w1 x1 u usc = Some Bt /\
       bo_r K B t = at_receivers P (s_wfc K (bo_u K Bt)) /\
       bo_rsc K B t = at_receivers (withrec P recsc) (s_wfc K (bo_usc K Bt))).
Proof. exact (born_all_steps K Kr P recsc pw). Qed.
Print Assumptions C12_born_all_steps_partial.

(** With any other interval the trailing [nt mod sr] steps are silently not made ... *)
Theorem C12_born_truncated (K : ops) (Kr : is_ring K) (P : par K) (recsc : list Z) (pw : nat -> Z * Z) :
  geom_ok K P pw -> Forall (loc_ok K P) (p_src P) -> Forall (loc_ok K P) (p_rec P) -> Forall (loc_ok K P) recsc ->
  forall (v scatter : arr K) f fsc u usc nt sr vis1 vis2 vrg1 srg1 vrg2 srg2 cb1 cb2 w1 x1 w2 x2 B1 B2,
  (forall t, length (fsc t) = length (f t)) ->
  fvis K P pw vis1 -> fvis K P pw vis2 -> (0 < sr)%Z -> (0 <= nt)%Z -> cb_ok nt sr cb1 -> cb_ok (nt / sr * sr) 1 cb2 ->
  born_forward K P recsc pw v scatter vis1 vrg1 srg1 sr f fsc nt cb1 w1 x1 u usc = Some B1 ->
  born_forward K P recsc pw v scatter vis2 vrg2 srg2 1 f fsc (nt / sr * sr) cb2 w2 x2 u usc = Some B2 ->
  ueq K P (bo_u K B1) (bo_u K B2) /\ ueq K P (bo_usc K B1) (bo_usc K B2) /\
  (forall t, bo_r K B1 t = bo_r K B2 t) /\ (forall t, bo_rsc K B1 t = bo_rsc K B2 t).
Proof. exact (born_truncated K Kr P recsc pw). Qed.
Print Assumptions C12_born_truncated.

(** ... and a run shorter than the interval raises. *)
Theorem C12_born_short_run_raises (K : ops) (P : par K) (recsc : list Z) (pw : nat -> Z * Z) :
  forall (v scatter : arr K) f fsc u usc nt sr vis vrg srg w0 x0,
  (0 < nt < sr)%Z -> born_forward K P recsc pw v scatter vis vrg srg sr f fsc nt None w0 x0 u usc = None.
Proof. exact (born_short_raises K P recsc pw). Qed.
Print Assumptions C12_born_short_run_raises.

Example born_all_steps_example : exists B,
  exb_run exb_scat 2 ex_F exb_Fsc 4 None ex_U exb_usc = Some B /\
  (exists Bt, exb_run exb_scat 1 ex_F exb_Fsc 3 None ex_U exb_usc = Some Bt /\
     bo_rsc Qc_ops B 3 = at_receivers (withrec exP exb_recsc) (s_wfc Qc_ops (bo_usc Qc_ops Bt))) /\
  nth 0 (bo_rsc Qc_ops B 3) (qz 0) <> qz 0.
Proof.
  destruct (C12_born_all_steps_partial Qc_ops Qc_is_ring exP exb_recsc expw ex_geom ex_src ex_rec exb_recsc_ok ex_v exb_scat ex_F exb_Fsc ex_U exb_usc 4 2
    ex_visF ex_visF false false false false None None ex_store0 ex_store0 ex_store0 ex_store0) as (B & B1 & E & E1 & _ & H);
    try (cbn; lia); try apply Permutation_refl; try reflexivity.
  exists B. split; [exact E|]. split.
  - destruct (H 3%Z ltac:(lia)) as (Bt & Et & _ & X). exists Bt. split; [exact Et|exact X].
  - assert (X : match exb_run exb_scat 2 ex_F exb_Fsc 4 None ex_U exb_usc with Some B => nz (nth 0 (bo_rsc Qc_ops B 3) (qz 0)) | None => false end = true)
      by (vm_compute; reflexivity).
    unfold exb_run in X. rewrite E in X. apply nz_spec. exact X.
Qed.

(** C13: superposition of the sources and the initial wavefields (of both wavefields together). *)
Theorem C13_born_superposition (K : ops) (Kr : is_ring K) (P : par K) (recsc : list Z) (pw : nat -> Z * Z) :
  geom_ok K P pw -> Forall (loc_ok K P) (p_src P) -> Forall (loc_ok K P) (p_rec P) -> Forall (loc_ok K P) recsc ->
  forall (a b : K) (v scatter : arr K) f fsc g gsc x xsc y ysc nt sr vis1 vis2 vis vrg1 srg1 vrg2 srg2 vrg srg cb1 cb2 cb
    w1 x1 w2 x2 w0 x0 B1 B2 B,
  fvis K P pw vis1 -> fvis K P pw vis2 -> fvis K P pw vis -> (0 < sr)%Z -> (0 <= nt)%Z ->
  cb_ok nt sr cb1 -> cb_ok nt sr cb2 -> cb_ok nt sr cb ->
  (forall t, length (f t) = length (p_src P) /\ length (fsc t) = length (p_src P) /\
             length (g t) = length (p_src P) /\ length (gsc t) = length (p_src P)) ->
  born_forward K P recsc pw v scatter vis1 vrg1 srg1 sr f fsc nt cb1 w1 x1 x xsc = Some B1 ->
  born_forward K P recsc pw v scatter vis2 vrg2 srg2 sr g gsc nt cb2 w2 x2 y ysc = Some B2 ->
  born_forward K P recsc pw v scatter vis vrg srg sr (fun t => lc_l a b (f t) (g t)) (fun t => lc_l a b (fsc t) (gsc t)) nt cb w0 x0
    (lc_st a b x y) (lc_st a b xsc ysc) = Some B ->
  ueq K P (bo_u K B) (lc_st a b (bo_u K B1) (bo_u K B2)) /\
  ueq K P (bo_usc K B) (lc_st a b (bo_usc K B1) (bo_usc K B2)) /\
  (forall t, bo_r K B t = lc_l a b (bo_r K B1 t) (bo_r K B2 t)) /\
  (forall t, bo_rsc K B t = lc_l a b (bo_rsc K B1 t) (bo_rsc K B2 t)).
Proof. exact (born_superposition K Kr P recsc pw). Qed.
Print Assumptions C13_born_superposition.

Example born_superposition_example : exists B1 B2 B,
  exb_run exb_scat 1 ex_F exb_Fsc 4 None ex_U exb_usc = Some B1 /\
  exb_run exb_scat 1 exb_Fsc ex_F 4 None exb_usc ex_U = Some B2 /\
  exb_run exb_scat 1 (fun t => lc_l (K := Qc_ops) (qz 2) (qz (-3)) (ex_F t) (exb_Fsc t)) (fun t => lc_l (K := Qc_ops) (qz 2) (qz (-3)) (exb_Fsc t) (ex_F t)) 4 None
    (lc_st (K := Qc_ops) (qz 2) (qz (-3)) ex_U exb_usc) (lc_st (K := Qc_ops) (qz 2) (qz (-3)) exb_usc ex_U) = Some B /\
  bo_rsc Qc_ops B 3 = lc_l (K := Qc_ops) (qz 2) (qz (-3)) (bo_rsc Qc_ops B1 3) (bo_rsc Qc_ops B2 3) /\
  nth 0 (bo_rsc Qc_ops B1 3) (qz 0) <> qz 0.
Proof.
  destruct (exb_some exb_scat 1 ex_F exb_Fsc 4 None ex_U exb_usc ltac:(reflexivity) ltac:(lia) ltac:(cbn; lia)) as [B1 E1].
  destruct (exb_some exb_scat 1 exb_Fsc ex_F 4 None exb_usc ex_U ltac:(reflexivity) ltac:(lia) ltac:(cbn; lia)) as [B2 E2].
  destruct (exb_some exb_scat 1 (fun t => lc_l (K := Qc_ops) (qz 2) (qz (-3)) (ex_F t) (exb_Fsc t)) (fun t => lc_l (K := Qc_ops) (qz 2) (qz (-3)) (exb_Fsc t) (ex_F t)) 4 None
    (lc_st (K := Qc_ops) (qz 2) (qz (-3)) ex_U exb_usc) (lc_st (K := Qc_ops) (qz 2) (qz (-3)) exb_usc ex_U) ltac:(reflexivity) ltac:(lia) ltac:(cbn; lia)) as [B E].
  exists B1, B2, B. split; [exact E1|]. split; [exact E2|]. split; [exact E|]. split.
  - refine (proj2 (proj2 (proj2 (C13_born_superposition Qc_ops Qc_is_ring exP exb_recsc expw ex_geom ex_src ex_rec exb_recsc_ok (qz 2) (qz (-3)) ex_v exb_scat
      ex_F exb_Fsc exb_Fsc ex_F ex_U exb_usc exb_usc ex_U 4 1 ex_visF ex_visF ex_visF false false false false false false None None None _ _ _ _ _ _ B1 B2 B
      (Permutation_refl _) (Permutation_refl _) (Permutation_refl _) ltac:(lia) ltac:(lia) ltac:(cbn; lia) ltac:(cbn; lia) ltac:(cbn; lia) _ E1 E2 E))) 3%Z).
    intros t. repeat split.
  - assert (X : match exb_run exb_scat 1 ex_F exb_Fsc 4 None ex_U exb_usc with Some B => nz (nth 0 (bo_rsc Qc_ops B 3) (qz 0)) | None => false end = true)
      by (vm_compute; reflexivity).
    rewrite E1 in X. apply nz_spec. exact X.
Qed.

(** C14: time reversal of the pair of wavefields. *)
Theorem C14_born_time_reversal (K : ops) (Kr : is_ring K) (P : par K) (recsc : list Z) (pw : nat -> Z * Z) :
  geom_ok K P pw -> Forall (loc_ok K P) (p_src P) -> Forall (loc_ok K P) (p_rec P) -> Forall (loc_ok K P) recsc ->
  forall (v scatter : arr K) f1 fsc1 f2 fsc2 u usc x xsc nt sr vis1 vis2 vrg1 srg1 vrg2 srg2 cb1 cb2 w1 x1 w2 x2 B1 B2,
  no_pml P ->
  (forall t, length (fsc1 t) = length (f1 t)) -> (forall t, length (fsc2 t) = length (f2 t)) ->
  fvis K P pw vis1 -> fvis K P pw vis2 -> (0 < sr)%Z -> (0 <= nt)%Z -> cb_ok nt sr cb1 -> cb_ok nt sr cb2 ->
  (forall t, Forall (fun x => x = 0) (f1 t) /\ Forall (fun x => x = 0) (fsc1 t)) ->
  (forall t, Forall (fun x => x = 0) (f2 t) /\ Forall (fun x => x = 0) (fsc2 t)) ->
  born_forward K P recsc pw v scatter vis1 vrg1 srg1 sr f1 fsc1 nt cb1 w1 x1 u usc = Some B1 ->
  (forall q, In q (upts K P) ->
     s_wfc K x q = s_wfp K (bo_u K B1) q /\ s_wfp K x q = s_wfc K (bo_u K B1) q /\
     s_wfc K xsc q = s_wfp K (bo_usc K B1) q /\ s_wfp K xsc q = s_wfc K (bo_usc K B1) q) ->
  born_forward K P recsc pw v scatter vis2 vrg2 srg2 sr f2 fsc2 nt cb2 w2 x2 x xsc = Some B2 ->
  forall q, In q (upts K P) ->
    s_wfc K (bo_u K B2) q = s_wfp K u q /\ s_wfp K (bo_u K B2) q = s_wfc K u q /\
    s_wfc K (bo_usc K B2) q = s_wfp K usc q /\ s_wfp K (bo_usc K B2) q = s_wfc K usc q.
Proof. exact (born_time_reversal K Kr P recsc pw). Qed.
Print Assumptions C14_born_time_reversal.

Example born_reversal_example : exists B1 B2,
  exbN_run la0 lb0 (fun _ => [qz 0]) (fun _ => [qz 0]) 4 UN UscN = Some B1 /\
  exbN_run la0 lb0 (fun _ => [qz 0]) (fun _ => [qz 0]) 4 (swap_wf (bo_u Qc_ops B1)) (swap_wf (bo_usc Qc_ops B1)) = Some B2 /\
  s_wfc Qc_ops (bo_usc Qc_ops B2) [1%Z; 3%Z] = qz 1 /\ s_wfp Qc_ops (bo_usc Qc_ops B2) [1%Z; 3%Z] = qz 2 /\
  s_wfc Qc_ops (bo_usc Qc_ops B1) [1%Z; 3%Z] <> qz 2.
Proof.
  destruct (proj1 (exbN_some (fun _ => [qz 0]) (fun _ => [qz 0]) 4 UN UscN ltac:(reflexivity) ltac:(lia))) as [B1 E1].
  destruct (proj1 (exbN_some (fun _ => [qz 0]) (fun _ => [qz 0]) 4 (swap_wf (bo_u Qc_ops B1)) (swap_wf (bo_usc Qc_ops B1)) ltac:(reflexivity) ltac:(lia))) as [B2 E2].
  exists B1, B2. split; [exact E1|]. split; [exact E2|].
  assert (HZ : forall t : Z, Forall (fun x => x = qz 0) [qz 0] /\ Forall (fun x => x = qz 0) [qz 0]).
  { intros t. split; (constructor; [reflexivity|constructor]). }
  assert (H : forall q, In q (upts Qc_ops (exN la0 lb0)) ->
    s_wfc Qc_ops (bo_u Qc_ops B2) q = s_wfp Qc_ops UN q /\ s_wfp Qc_ops (bo_u Qc_ops B2) q = s_wfc Qc_ops UN q /\
    s_wfc Qc_ops (bo_usc Qc_ops B2) q = s_wfp Qc_ops UscN q /\ s_wfp Qc_ops (bo_usc Qc_ops B2) q = s_wfc Qc_ops UscN q).
  { refine (C14_born_time_reversal Qc_ops Qc_is_ring (exN la0 lb0) [lb0] pwN (exN_geom _ _)
      (Forall_cons _ (exN_la _ _) (Forall_nil _)) (Forall_cons _ (exN_lb _ _) (Forall_nil _)) (Forall_cons _ (exN_lb _ _) (Forall_nil _))
      vN scN _ _ _ _ UN UscN (swap_wf (bo_u Qc_ops B1)) (swap_wf (bo_usc Qc_ops B1)) 4 1 visN visN false false false false None None _ _ _ _ B1 B2 (exN_no_pml _ _)
      _ _ (Permutation_refl _) (Permutation_refl _) ltac:(lia) ltac:(lia) ltac:(cbn; lia) ltac:(cbn; lia) HZ HZ E1 _ E2).
    - reflexivity.
    - reflexivity.
    - intros q _. repeat split. }
  destruct (H [1%Z; 3%Z]) as (_ & _ & H1 & H2); [vm_compute; tauto|].
  split; [rewrite H1; reflexivity|]. split; [rewrite H2; reflexivity|].
  assert (X : match exbN_run la0 lb0 (fun _ => [qz 0]) (fun _ => [qz 0]) 4 UN UscN with
     Some B => nz (s_wfc Qc_ops (bo_usc Qc_ops B) [1%Z; 3%Z] - qz 2)%Qc | None => false end = true) by (vm_compute; reflexivity).
  rewrite E1 in X. intros Y. rewrite Y in X. apply nz_spec in X. apply X. apply Qcplus_opp_r.
Qed.

(** C15: restart. *)
Theorem C15_born_restart_partial (K : ops) (Kr : is_ring K) (P : par K) (recsc : list Z) (pw : nat -> Z * Z) :
  geom_ok K P pw -> Forall (loc_ok K P) (p_src P) -> Forall (loc_ok K P) (p_rec P) -> Forall (loc_ok K P) recsc ->
  forall (v scatter : arr K) f fsc u usc n1 n2 sr vis1 vis2 vis vrg1 srg1 vrg2 srg2 vrg srg cb1 cb2 cb w1 x1 w2 x2 w0 x0 B1 B2 B,
  (forall t, length (fsc t) = length (f t)) ->
  fvis K P pw vis1 -> fvis K P pw vis2 -> fvis K P pw vis -> (0 < sr)%Z -> (0 <= n1)%Z -> (0 <= n2)%Z -> (n1 mod sr = 0)%Z ->
  cb_ok n1 sr cb1 -> cb_ok n2 sr cb2 -> cb_ok (n1 + n2) sr cb ->
  born_forward K P recsc pw v scatter vis1 vrg1 srg1 sr f fsc n1 cb1 w1 x1 u usc = Some B1 ->
  born_forward K P recsc pw v scatter vis2 vrg2 srg2 sr (fun t => f (n1 + t)%Z) (fun t => fsc (n1 + t)%Z) n2 cb2 w2 x2
    (bo_u K B1) (bo_usc K B1) = Some B2 ->
  born_forward K P recsc pw v scatter vis vrg srg sr f fsc (n1 + n2) cb w0 x0 u usc = Some B ->
  ueq K P (bo_u K B) (bo_u K B2) /\ ueq K P (bo_usc K B) (bo_usc K B2) /\
  (forall t, (0 <= t < n1)%Z -> bo_r K B t = bo_r K B1 t /\ bo_rsc K B t = bo_rsc K B1 t) /\
  (forall t, (0 <= t)%Z -> bo_r K B (n1 + t) = bo_r K B2 t /\ bo_rsc K B (n1 + t) = bo_rsc K B2 t).
Proof. exact (born_restart K Kr P recsc pw). Qed.
Print Assumptions C15_born_restart_partial.

Example born_restart_example : exists B1 B2 B,
  exb_run exb_scat 2 ex_F exb_Fsc 2 None ex_U exb_usc = Some B1 /\
  exb_run exb_scat 2 (fun t => ex_F (2 + t)) (fun t => exb_Fsc (2 + t)) 2 None (bo_u Qc_ops B1) (bo_usc Qc_ops B1) = Some B2 /\
  exb_run exb_scat 2 ex_F exb_Fsc 4 None ex_U exb_usc = Some B /\
  bo_rsc Qc_ops B 3 = bo_rsc Qc_ops B2 1 /\ nth 0 (bo_rsc Qc_ops B 3) (qz 0) <> qz 0.
Proof.
  destruct (exb_some exb_scat 2 ex_F exb_Fsc 2 None ex_U exb_usc ltac:(reflexivity) ltac:(lia) ltac:(cbn; lia)) as [B1 E1].
  destruct (exb_some exb_scat 2 (fun t => ex_F (2 + t)) (fun t => exb_Fsc (2 + t)) 2 None (bo_u Qc_ops B1) (bo_usc Qc_ops B1) ltac:(reflexivity) ltac:(lia) ltac:(cbn; lia)) as [B2 E2].
  destruct (exb_some exb_scat 2 ex_F exb_Fsc (2 + 2) None ex_U exb_usc ltac:(reflexivity) ltac:(lia) ltac:(cbn; lia)) as [B E].
  exists B1, B2, B. split; [exact E1|]. split; [exact E2|]. split; [exact E|]. split.
  - refine (proj2 (proj2 (proj2 (proj2 (C15_born_restart_partial Qc_ops Qc_is_ring exP exb_recsc expw ex_geom ex_src ex_rec exb_recsc_ok ex_v exb_scat
      ex_F exb_Fsc ex_U exb_usc 2 2 2 ex_visF ex_visF ex_visF false false false false false false None None None _ _ _ _ _ _ B1 B2 B
      _ (Permutation_refl _) (Permutation_refl _) (Permutation_refl _) ltac:(lia) ltac:(lia) ltac:(lia) _ ltac:(cbn; lia) ltac:(cbn; lia) ltac:(cbn; lia) E1 E2 E))) 1%Z ltac:(lia)));
      reflexivity.
  - assert (X : match exb_run exb_scat 2 ex_F exb_Fsc (2 + 2) None ex_U exb_usc with Some B => nz (nth 0 (bo_rsc Qc_ops B 3) (qz 0)) | None => false end = true)
      by (vm_compute; reflexivity).
    rewrite E in X. apply nz_spec. exact X.
Qed.

(** C18: ignored locations. *)
Theorem C18_born_ignored_source (K : ops) (Kr : is_ring K) (P : par K) (recsc : list Z) (pw : nat -> Z * Z) :
  geom_ok K P pw -> Forall (loc_ok K P) (p_src P) -> Forall (loc_ok K P) (p_rec P) -> Forall (loc_ok K P) recsc ->
  forall (v scatter : arr K) f fsc f' fsc' u usc nt sr vis1 vis2 vrg1 srg1 vrg2 srg2 cb1 cb2 w1 x1 w2 x2 B1 B2,
  fvis K P pw vis1 -> fvis K P pw vis2 -> (0 < sr)%Z -> (0 <= nt)%Z -> cb_ok nt sr cb1 -> cb_ok nt sr cb2 ->
  (forall t, length (f t) = length (p_src P) /\ length (fsc t) = length (p_src P) /\
             length (f' t) = length (p_src P) /\ length (fsc' t) = length (p_src P)) ->
  (forall t, (0 <= t < nt)%Z -> forall k l, nth_error (p_src P) k = Some l -> (0 <= l)%Z ->
     nth_error (f t) k = nth_error (f' t) k /\ nth_error (fsc t) k = nth_error (fsc' t) k) ->
  born_forward K P recsc pw v scatter vis1 vrg1 srg1 sr f fsc nt cb1 w1 x1 u usc = Some B1 ->
  born_forward K P recsc pw v scatter vis2 vrg2 srg2 sr f' fsc' nt cb2 w2 x2 u usc = Some B2 ->
  ueq K P (bo_u K B1) (bo_u K B2) /\ ueq K P (bo_usc K B1) (bo_usc K B2) /\
  (forall t, bo_r K B1 t = bo_r K B2 t) /\ (forall t, bo_rsc K B1 t = bo_rsc K B2 t).
Proof. exact (born_ignored_source K Kr P recsc pw). Qed.
Print Assumptions C18_born_ignored_source.

Theorem C18_born_ignored_receiver (K : ops) (Kr : is_ring K) (P : par K) (recsc : list Z) (pw : nat -> Z * Z) :
  geom_ok K P pw -> Forall (loc_ok K P) (p_src P) -> Forall (loc_ok K P) (p_rec P) -> Forall (loc_ok K P) recsc ->
  forall (v scatter : arr K) f fsc u usc nt sr vis vrg srg cb w0 x0 B,
  (forall t, length (fsc t) = length (f t)) -> fvis K P pw vis -> (0 < sr)%Z -> cb_ok nt sr cb ->
  born_forward K P recsc pw v scatter vis vrg srg sr f fsc nt cb w0 x0 u usc = Some B ->
  (forall k l, nth_error (p_rec P) k = Some l -> (l < 0)%Z -> forall t, nth_error (bo_r K B t) k = Some 0) /\
  (forall k l, nth_error recsc k = Some l -> (l < 0)%Z -> forall t, nth_error (bo_rsc K B t) k = Some 0).
Proof. exact (born_ignored_receiver K Kr P recsc pw). Qed.
Print Assumptions C18_born_ignored_receiver.

Theorem C18_born_ignored_source_gradient (K : ops) (Kr : is_ring K) (P : par K) (recsc : list Z) (pw : nat -> Z * Z) :
  geom_ok K P pw -> Forall (loc_ok K P) (p_src P) -> Forall (loc_ok K P) (p_rec P) -> Forall (loc_ok K P) recsc ->
  forall (v scatter : arr K) vis w wsc vrg srg sr gr grsc nt cb g gsc B,
  (forall t, length (gr t) = length (p_rec P)) -> bvis K P pw vis -> (0 < sr)%Z -> cb_ok nt sr cb ->
  born_backward K P recsc pw v scatter vis w wsc vrg srg sr gr grsc nt cb g gsc = Some B ->
  forall k l, nth_error (p_src P) k = Some l -> (l < 0)%Z -> forall t,
    nth_error (bg_f K B t) k = Some 0 /\ nth_error (bg_fsc K B t) k = Some 0.
Proof. exact (born_ignored_source_gradient K Kr P recsc pw). Qed.
Print Assumptions C18_born_ignored_source_gradient.

Definition exb_F' (t : Z) : list Qc := [qz (t + 1); qz (-100)].
Definition exb_Fsc' (t : Z) : list Qc := [qz (2 - t); qz 77].
Example born_ignored_example : exists B1 B2 G,
  exb_run exb_scat 1 ex_F exb_Fsc 3 None ex_U exb_usc = Some B1 /\
  exb_run exb_scat 1 exb_F' exb_Fsc' 3 None ex_U exb_usc = Some B2 /\
  bo_rsc Qc_ops B1 2 = bo_rsc Qc_ops B2 2 /\ nth_error (bo_rsc Qc_ops B1 2) 1 = Some (qz 0) /\ nth 0 (bo_rsc Qc_ops B1 2) (qz 0) <> qz 0 /\
  born_backward Qc_ops exP exb_recsc expw ex_v exb_scat ex_visB (fun _ i => qz i) (fun _ i => qz (i + 1)) true true 1 ex_gr exb_grsc 2 None ex_G exb_Gsc = Some G /\
  nth_error (bg_fsc Qc_ops G 1) 1 = Some (qz 0).
Proof.
  destruct (exb_some exb_scat 1 ex_F exb_Fsc 3 None ex_U exb_usc ltac:(reflexivity) ltac:(lia) ltac:(cbn; lia)) as [B1 E1].
  destruct (exb_some exb_scat 1 exb_F' exb_Fsc' 3 None ex_U exb_usc ltac:(reflexivity) ltac:(lia) ltac:(cbn; lia)) as [B2 E2].
  destruct (C10_born_backward_callbacks_passive Qc_ops Qc_is_ring exP exb_recsc expw ex_geom ex_src ex_rec exb_recsc_ok ex_v exb_scat ex_visB ex_visB
    (fun _ i => qz i) (fun _ i => qz (i + 1)) true true 1 ex_gr exb_grsc 2 None (Some 1%Z) ex_G exb_Gsc ltac:(reflexivity) (Permutation_refl _) (Permutation_refl _)
    ltac:(lia) ltac:(cbn; lia) ltac:(cbn; lia)) as (G & _ & F & _).
  exists B1, B2, G. split; [exact E1|]. split; [exact E2|]. split; [|split; [|split; [|split]]].
  - refine (proj2 (proj2 (proj2 (C18_born_ignored_source Qc_ops Qc_is_ring exP exb_recsc expw ex_geom ex_src ex_rec exb_recsc_ok ex_v exb_scat
      ex_F exb_Fsc exb_F' exb_Fsc' ex_U exb_usc 3 1 ex_visF ex_visF false false false false None None _ _ _ _ B1 B2
      (Permutation_refl _) (Permutation_refl _) ltac:(lia) ltac:(lia) ltac:(cbn; lia) ltac:(cbn; lia) _ _ E1 E2))) 2%Z).
    + intros t. repeat split.
    + intros t Ht [|[|k]] l Hk Hl; [split; reflexivity| |].
      * cbn in Hk. injection Hk as <-. vm_compute in Hl. exfalso. apply Hl. reflexivity.
      * destruct k; split; reflexivity.
  - refine (proj2 (C18_born_ignored_receiver Qc_ops Qc_is_ring exP exb_recsc expw ex_geom ex_src ex_rec exb_recsc_ok ex_v exb_scat
      ex_F exb_Fsc ex_U exb_usc 3 1 ex_visF false false None _ _ B1 _ (Permutation_refl _) ltac:(lia) ltac:(cbn; lia) E1) 1%nat IGNORE _ _ 2%Z); reflexivity.
  - assert (X : match exb_run exb_scat 1 ex_F exb_Fsc 3 None ex_U exb_usc with Some B => nz (nth 0 (bo_rsc Qc_ops B 2) (qz 0)) | None => false end = true)
      by (vm_compute; reflexivity).
    rewrite E1 in X. apply nz_spec. exact X.
  - exact F.
  - refine (proj2 (C18_born_ignored_source_gradient Qc_ops Qc_is_ring exP exb_recsc expw ex_geom ex_src ex_rec exb_recsc_ok ex_v exb_scat ex_visB _ _ true true 1 ex_gr exb_grsc
      2 None ex_G exb_Gsc G _ (Permutation_refl _) ltac:(lia) ltac:(cbn; lia) F 1%nat IGNORE _ _ 1%Z)); reflexivity.
Qed.

(** C27: reciprocity of the scattered data (one source, one receiver, no PML); the receivers of
    the background, [ra] and [rb], do not matter. *)
Theorem C27_born_reciprocity (K : ops) (Kr : is_ring K) (P : par K) (pw : nat -> Z * Z) :
  geom_ok K P pw -> no_pml P ->
  forall (la lb : Z) (v scatter : arr K) (f : Z -> K) nt sr ra rb vis1 vis2 vrg1 srg1 vrg2 srg2 cb1 cb2 w1 x1 w2 x2 B1 B2,
  let PA := with_locs P [la] ra in
  let PB := with_locs P [lb] rb in
  (0 <= la)%Z -> loc_ok K P la -> (0 <= lb)%Z -> loc_ok K P lb -> Forall (loc_ok K P) ra -> Forall (loc_ok K P) rb ->
  fvis K P pw vis1 -> fvis K P pw vis2 -> (0 < sr)%Z -> (0 <= nt)%Z -> cb_ok nt sr cb1 -> cb_ok nt sr cb2 ->
  born_forward K PA [lb] pw v scatter vis1 vrg1 srg1 sr (fun t => scale_amps K P v [la] [f t]) (fun t => scale_amps_sc K P v scatter [la] [f t])
    nt cb1 w1 x1 (zero_st K) (zero_st K) = Some B1 ->
  born_forward K PB [la] pw v scatter vis2 vrg2 srg2 sr (fun t => scale_amps K P v [lb] [f t]) (fun t => scale_amps_sc K P v scatter [lb] [f t])
    nt cb2 w2 x2 (zero_st K) (zero_st K) = Some B2 ->
  forall t, bo_rsc K B1 t = bo_rsc K B2 t.
Proof. exact (born_reciprocity K Kr P pw). Qed.
Print Assumptions C27_born_reciprocity.

Definition fbN (t : Z) : Qc := qz (t + 1).
Definition ampN (l : Z) (t : Z) : list Qc := scale_amps Qc_ops (exN la0 lb0) vN [l] [fbN t].
Definition ampscN (l : Z) (t : Z) : list Qc := scale_amps_sc Qc_ops (exN la0 lb0) vN scN [l] [fbN t].
Example born_reciprocity_example : exists B1 B2,
  exbN_run la0 lb0 (ampN la0) (ampscN la0) 6 (zero_st Qc_ops) (zero_st Qc_ops) = Some B1 /\
  exbN_run lb0 la0 (ampN lb0) (ampscN lb0) 6 (zero_st Qc_ops) (zero_st Qc_ops) = Some B2 /\
  bo_rsc Qc_ops B1 5 = bo_rsc Qc_ops B2 5 /\ nth 0 (bo_rsc Qc_ops B1 5) (qz 0) <> qz 0 /\ scN la0 <> scN lb0.
Proof.
  destruct (proj1 (exbN_some (ampN la0) (ampscN la0) 6 (zero_st Qc_ops) (zero_st Qc_ops) ltac:(reflexivity) ltac:(lia))) as [B1 E1].
  destruct (proj2 (exbN_some (ampN lb0) (ampscN lb0) 6 (zero_st Qc_ops) (zero_st Qc_ops) ltac:(reflexivity) ltac:(lia))) as [B2 E2].
  exists B1, B2. split; [exact E1|]. split; [exact E2|]. split; [|split].
  - refine (C27_born_reciprocity Qc_ops Qc_is_ring (exN la0 lb0) pwN (exN_geom _ _) (exN_no_pml _ _) la0 lb0 vN scN fbN 6 1 [lb0] [la0] visN visN
      false false false false None None _ _ _ _ B1 B2 _ (exN_la _ _) _ (exN_lb _ _) (Forall_cons _ (exN_lb _ _) (Forall_nil _)) (Forall_cons _ (exN_la _ _) (Forall_nil _))
      (Permutation_refl _) (Permutation_refl _) ltac:(lia) ltac:(lia) ltac:(cbn; lia) ltac:(cbn; lia) E1 E2 5%Z); vm_compute; discriminate.
  - assert (X : match exbN_run la0 lb0 (ampN la0) (ampscN la0) 6 (zero_st Qc_ops) (zero_st Qc_ops) with
       Some B => nz (nth 0 (bo_rsc Qc_ops B 5) (qz 0)) | None => false end = true) by (vm_compute; reflexivity).
    rewrite E1 in X. apply nz_spec. exact X.
  - vm_compute. discriminate.
Qed.

(** C28: causality. *)
Theorem C28_born_causality (K : ops) (Kr : is_ring K) (P : par K) (recsc : list Z) (pw : nat -> Z * Z) :
  geom_ok K P pw -> Forall (loc_ok K P) (p_src P) -> Forall (loc_ok K P) (p_rec P) -> Forall (loc_ok K P) recsc ->
  forall (v scatter : arr K) f1 fsc1 f2 fsc2 u usc nt sr vis1 vis2 vrg1 srg1 vrg2 srg2 cb1 cb2 w1 x1 w2 x2 B1 B2 t0,
  (forall t, length (fsc1 t) = length (f1 t)) -> (forall t, length (fsc2 t) = length (f2 t)) ->
  fvis K P pw vis1 -> fvis K P pw vis2 -> (0 < sr)%Z -> cb_ok nt sr cb1 -> cb_ok nt sr cb2 ->
  born_forward K P recsc pw v scatter vis1 vrg1 srg1 sr f1 fsc1 nt cb1 w1 x1 u usc = Some B1 ->
  born_forward K P recsc pw v scatter vis2 vrg2 srg2 sr f2 fsc2 nt cb2 w2 x2 u usc = Some B2 ->
  (forall t, (0 <= t < t0)%Z -> f1 t = f2 t /\ fsc1 t = fsc2 t) ->
  forall t, (t <= t0)%Z -> bo_r K B1 t = bo_r K B2 t /\ bo_rsc K B1 t = bo_rsc K B2 t.
Proof. exact (born_causality K Kr P recsc pw). Qed.
Print Assumptions C28_born_causality.

(** C28: finite speed.  [l] is the location of receiver [j] (of either kind). *)
Theorem C28_born_finite_speed (K : ops) (Kr : is_ring K) (P1 : par K) (r1 : list Z) (pw1 : nat -> Z * Z)
    (Q2 : par K) (r2 : list Z) (pw2 : nat -> Z * Z) (o : pt) :
  geom_ok K P1 pw1 -> geom_ok K Q2 pw2 ->
  Forall (loc_ok K P1) (p_src P1) -> Forall (loc_ok K P1) (p_rec P1) -> Forall (loc_ok K P1) r1 ->
  Forall (loc_ok K Q2) (p_src Q2) -> Forall (loc_ok K Q2) (p_rec Q2) -> Forall (loc_ok K Q2) r2 ->
  length o = length (p_shape P1) -> length (p_shape Q2) = length (p_shape P1) ->
  p_acc Q2 = p_acc P1 -> (forall d, p_rd Q2 d = p_rd P1 d) -> (forall d, p_rd2 Q2 d = p_rd2 P1 d) ->
  p_dt2 Q2 = p_dt2 P1 ->
  Forall2 (same_loc (p_shape P1) (p_shape Q2) o) (p_src P1) (p_src Q2) ->
  Forall2 (same_loc (p_shape P1) (p_shape Q2) o) (p_rec P1) (p_rec Q2) ->
  Forall2 (same_loc (p_shape P1) (p_shape Q2) o) r1 r2 ->
  forall v1 s1 v2 s2 f fsc nt sr vis1 vis2 vrg1 srg1 vrg2 srg2 cb1 cb2 w1 x1 w2 x2 B1 B2,
  (forall t, length (fsc t) = length (f t)) ->
  fvis K P1 pw1 vis1 -> fvis K Q2 pw2 vis2 -> (0 < sr)%Z -> cb_ok nt sr cb1 -> cb_ok nt sr cb2 ->
  born_forward K P1 r1 pw1 v1 s1 vis1 vrg1 srg1 sr f fsc nt cb1 w1 x1 (zero_st K) (zero_st K) = Some B1 ->
  born_forward K Q2 r2 pw2 v2 s2 vis2 vrg2 srg2 sr f fsc nt cb2 w2 x2 (zero_st K) (zero_st K) = Some B2 ->
  forall t l,
  (forall c, on_path K P1 (t - 1) (unidx (p_shape P1) l) c ->
     interior K P1 c = interior K Q2 (translate o c) /\
     (interior K P1 c = true -> v1 (idx (p_shape P1) c) = v2 (idx (p_shape Q2) (translate o c)) /\
                                s1 (idx (p_shape P1) c) = s2 (idx (p_shape Q2) (translate o c))) /\
     forall d, (d < length (p_shape P1))%nat ->
       p_a P1 d (coord d c) = p_a Q2 d (coord d (translate o c)) /\
       p_b P1 d (coord d c) = p_b Q2 d (coord d (translate o c)) /\
       p_db P1 d (coord d c) = p_db Q2 d (coord d (translate o c))) ->
  (forall j, (j < length (p_rec P1))%nat -> nth j (p_rec P1) 0%Z = l -> nth j (bo_r K B1 t) 0 = nth j (bo_r K B2 t) 0) /\
  (forall j, (j < length r1)%nat -> nth j r1 0%Z = l -> nth j (bo_rsc K B1 t) 0 = nth j (bo_rsc K B2 t) 0).
Proof. exact (born_finite_speed K Kr P1 r1 pw1 Q2 r2 pw2 o). Qed.
Print Assumptions C28_born_finite_speed.

Definition FbM (t : Z) : list Qc := [fbN t].
Definition FbscM (t : Z) : list Qc := [qz (3 - t)].
Definition exbM_run nt :=
  born_forward Qc_ops exM (p_rec exM) pwN vM scM visM false false 1 FbM FbscM nt None ex_store0 ex_store0 (zero_st Qc_ops) (zero_st Qc_ops).
Example born_finite_speed_example : exists B1 B2,
  exbN_run la0 lb0 FbM FbscM 7 (zero_st Qc_ops) (zero_st Qc_ops) = Some B1 /\ exbM_run 7 = Some B2 /\
  nth 0 (bo_rsc Qc_ops B1 4) (qz 0) = nth 0 (bo_rsc Qc_ops B2 4) (qz 0) /\ nth 0 (bo_rsc Qc_ops B1 4) (qz 0) <> qz 0 /\
  nth 0 (bo_rsc Qc_ops B1 6) (qz 0) <> nth 0 (bo_rsc Qc_ops B2 6) (qz 0).
Proof.
  destruct (proj1 (exbN_some FbM FbscM 7 (zero_st Qc_ops) (zero_st Qc_ops) ltac:(reflexivity) ltac:(lia))) as [B1 E1].
  assert (exists B, exbM_run 7 = Some B) as [B2 E2].
  { apply (born_exists Qc_ops Qc_is_ring exM (p_rec exM) pwN exM_geom exM_src exM_rec exM_rec); [reflexivity|apply Permutation_refl|lia|cbn; lia]. }
  exists B1, B2. split; [exact E1|]. split; [exact E2|]. split; [|split].
  - refine (proj2 (C28_born_finite_speed Qc_ops Qc_is_ring (exN la0 lb0) [lb0] pwN exM (p_rec exM) pwN [0%Z; 2%Z] (exN_geom _ _) exM_geom
      (Forall_cons _ (exN_la _ _) (Forall_nil _)) (Forall_cons _ (exN_lb _ _) (Forall_nil _)) (Forall_cons _ (exN_lb _ _) (Forall_nil _)) exM_src exM_rec exM_rec
      eq_refl eq_refl eq_refl (fun _ => eq_refl) (fun _ => eq_refl) eq_refl _ _ _ vN scN vM scM FbM FbscM 7 1 visN visM false false false false None None _ _ _ _ B1 B2
      (fun _ => eq_refl) (Permutation_refl _) (Permutation_refl _) ltac:(lia) ltac:(cbn; lia) ltac:(cbn; lia) E1 E2 4%Z lb0 _) 0%nat _ eq_refl).
    + constructor; [|constructor]. right. split; [vm_compute; discriminate|]. split; [vm_compute; discriminate|]. reflexivity.
    + constructor; [|constructor]. right. split; [vm_compute; discriminate|]. split; [vm_compute; discriminate|]. reflexivity.
    + constructor; [|constructor]. right. split; [vm_compute; discriminate|]. split; [vm_compute; discriminate|]. reflexivity.
    + change (unidx (p_shape (exN la0 lb0)) lb0) with [3%Z; 4%Z].
      intros c (Hl & l & [<-|[]] & _ & Hd). change (unidx (p_shape (exN la0 lb0)) la0) with [2%Z; 2%Z] in Hd.
      destruct c as [|y [|x [|]]]; try discriminate. change (4 - 1)%Z with 3%Z in Hd.
      change (fd_pad (p_acc (exN la0 lb0))) with 1%Z in Hd. cbn [dist] in Hd.
      assert (Hy : (y = 2 \/ y = 3)%Z) by lia. assert (Hx : (x = 2 \/ x = 3 \/ x = 4)%Z) by lia.
      destruct Hy as [-> | ->]; destruct Hx as [-> | [-> | ->]]; (split; [reflexivity|]); (split; [intros _; split; reflexivity|]);
        intros d Hd'; repeat split; reflexivity.
    + cbn. lia.
  - assert (X : match exbN_run la0 lb0 FbM FbscM 7 (zero_st Qc_ops) (zero_st Qc_ops) with
       Some B => nz (nth 0 (bo_rsc Qc_ops B 4) (qz 0)) | None => false end = true) by (vm_compute; reflexivity).
    rewrite E1 in X. apply nz_spec. exact X.
  - assert (X : match exbN_run la0 lb0 FbM FbscM 7 (zero_st Qc_ops) (zero_st Qc_ops), exbM_run 7 with
       Some B, Some B' => nz (nth 0 (bo_rsc Qc_ops B 6) (qz 0) - nth 0 (bo_rsc Qc_ops B' 6) (qz 0))%Qc | _, _ => false end = true)
      by (vm_compute; reflexivity).
    rewrite E1, E2 in X. intros Y. rewrite Y in X. apply nz_spec in X. apply X. apply Qcplus_opp_r.
Qed.

(** C41: a zero-step run. *)
Theorem C41_born_zero_steps (K : ops) (Kr : is_ring K) (P : par K) (recsc : list Z) (pw : nat -> Z * Z) :
  geom_ok K P pw -> Forall (loc_ok K P) (p_src P) -> Forall (loc_ok K P) (p_rec P) -> Forall (loc_ok K P) recsc ->
  forall (v scatter : arr K) f fsc u usc sr vis vrg srg cb w0 x0 B,
  (forall t, length (fsc t) = length (f t)) -> (0 < sr)%Z -> cb_ok 0 sr cb -> fvis K P pw vis ->
  born_forward K P recsc pw v scatter vis vrg srg sr f fsc 0 cb w0 x0 u usc = Some B ->
  forall q, In q (upts K P) ->
    let keep d (x : K) := if ((fst (pw d) <=? nth d q 0) && (nth d q 0 <? nth d (p_shape P) 0 - 2 * fd_pad (p_acc P) - snd (pw d)))%Z then 0 else x in
    s_wfc K (bo_u K B) q = s_wfc K u q /\ s_wfp K (bo_u K B) q = s_wfp K u q /\
    s_wfc K (bo_usc K B) q = s_wfc K usc q /\ s_wfp K (bo_usc K B) q = s_wfp K usc q /\
    forall d, (d < length (p_shape P))%nat ->
      s_psi K (bo_u K B) d q = keep d (s_psi K u d q) /\ s_zeta K (bo_u K B) d q = keep d (s_zeta K u d q) /\
      s_psi K (bo_usc K B) d q = keep d (s_psi K usc d q) /\ s_zeta K (bo_usc K B) d q = keep d (s_zeta K usc d q).
Proof. exact (born_zero_steps K Kr P recsc pw). Qed.
Print Assumptions C41_born_zero_steps.

Example born_zero_example : exists B,
  exb_run exb_scat 1 ex_F exb_Fsc 0 None ex_U exb_usc = Some B /\
  s_wfc Qc_ops (bo_usc Qc_ops B) [5%Z] = qz 4 /\ s_psi Qc_ops (bo_usc Qc_ops B) 0 [1%Z] = qz 1 /\ s_psi Qc_ops (bo_usc Qc_ops B) 0 [3%Z] = qz 0.
Proof.
  destruct (exb_some exb_scat 1 ex_F exb_Fsc 0 None ex_U exb_usc ltac:(reflexivity) ltac:(lia) ltac:(cbn; lia)) as [B E].
  exists B. split; [exact E|].
  pose proof (C41_born_zero_steps Qc_ops Qc_is_ring exP exb_recsc expw ex_geom ex_src ex_rec exb_recsc_ok ex_v exb_scat ex_F exb_Fsc ex_U exb_usc 1 ex_visF false false None
    ex_store0 ex_store0 B (fun _ => eq_refl) ltac:(lia) ltac:(cbn; lia) (Permutation_refl _) E) as H.
  split; [apply (H [5%Z]); vm_compute; tauto|]. split.
  - destruct (H [1%Z]) as (_ & _ & _ & _ & H'); [vm_compute; tauto|]. destruct (H' 0%nat) as (_ & _ & -> & _); [cbn; lia|]. reflexivity.
  - destruct (H [3%Z]) as (_ & _ & _ & _ & H'); [vm_compute; tauto|]. destruct (H' 0%nat) as (_ & _ & -> & _); [cbn; lia|]. reflexivity.
Qed.
