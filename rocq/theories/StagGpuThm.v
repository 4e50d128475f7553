(** * The staggered-grid propagators on a CUDA device: runs exist; the acoustic and elastic instances. *)
From Coq Require Import List ZArith QArith Lia Bool Permutation.
From Verif Require Import Ops Sums Grid Stencil ScalarModel ScalarRefine Param ShotsModel Shots ShotsRun Stag StagAdj StagKernel StagCell StagRefine StagGrad StagRun StagParam
  AcousticModel AcousticThm ElasticModel ElasticThm StagRunInst StagShotsModel StagShots StagShotsRun StagShotsThm StagShotsInst
  Threads GpuModel GpuLaunch GpuLocs GpuThm StagGpuModel StagGpuLaunch StagGpuPhase StagGpuComb StagGpuRun.
Import ListNotations.
Local Open Scope K_scope.

Section Exists.
Variable S : sys.
Variable N : kern S.
Variable K : ops.
Variable C_dec : forall a b : sC S, {a = b} + {a <> b}.
Variable P0 : spar S K.
Variable num : (kM N -> arr K) -> knum S N K.
Variable NS : Z.
Variables nsrc nrec : sC S -> Z.
Variables srcs recs : sC S -> Z -> Z.
Variable bt : kM N -> bool.
Variables oQ oM : bool.
Notation shape := (sp_shape P0).
Notation fd := (fd_pad (sp_acc P0)).
Notation mem := (mem (sgloc S N) K).
Hypothesis HnS : forall c, (0 <= nsrc c < 2 ^ 31)%Z.
Hypothesis HnR : forall c, (0 <= nrec c < 2 ^ 31)%Z.
Hypothesis HN : (0 < NS < 2 ^ 16)%Z.
Hypothesis Hfit : match shape with
  | [nz; ny; nx] => (2 * fd <= nx < 2 ^ 31 - 1 /\ 2 * fd <= ny <= 4 * 65535 /\ 2 * fd <= nz <= 65535)%Z
  | [ny; nx] => (2 * fd <= nx < 2 ^ 31 - 1 /\ 2 * fd <= ny <= 4 * 65535)%Z
  | [nx] => (2 * fd <= nx < 2 ^ 31 - 1)%Z
  | _ => False
  end.
Definition total (s : mem -> mem -> Prop) : Prop := forall M, exists M', s M M'.
Lemma turn_total l : Forall total l -> total (in_turn S N K l).
Proof.
  induction 1 as [|s l Hs _ IH]; intros M; [exists M; reflexivity|]. destruct (Hs M) as [M1 H1]. destruct (IH M1) as [M2 H2]. exists M2, M1. auto.
Qed.
Lemma skexec_total L tp : launch_valid L = true -> total (skexec S N K C_dec L tp).
Proof. intros H M. eexists. split; [exact H|]. apply exec_exists. Qed.
Lemma fits : cells_fit fd (map Z.succ shape) /\ cells_fit 0 shape.
Proof. pose proof (fd_pad_pos (sp_acc P0)). destruct shape as [|a [|b [|c [|? ?]]]]; try contradiction; cbn [map cells_fit]; lia. Qed.
Lemma phase_total A pr : total (launch_phase S N K C_dec P0 NS A pr).
Proof. apply skexec_total. apply cells_valid; [|apply fits|exact HN]. pose proof (fd_pad_pos (sp_acc P0)). lia. Qed.
Lemma comb_total q : total (launch_comb S N K C_dec P0 NS q).
Proof. apply skexec_total. exact (proj2 (cells_valid 0 shape NS ltac:(lia) (proj2 fits) HN)). Qed.
Lemma opt_total m pr : (m < 2 ^ 31)%Z -> total (launch_opt S N K C_dec NS m pr).
Proof. intros Hm. unfold launch_opt. destruct (Z.ltb_spec 0 m); [|intros M; exists M; reflexivity]. apply skexec_total, locs_valid; lia. Qed.
Ltac totals := repeat (apply Forall_app; split); try (apply Forall_map, Forall_forall; intros; apply opt_total; first [apply HnS|apply HnR]); try (constructor; [apply phase_total|constructor]).
Lemma sgpu_forward_exists pw md fq sr f nt cb store u : exists out, sgpu_forward S N K C_dec P0 num NS nsrc nrec srcs recs bt oQ pw md fq sr f nt cb store u out.
Proof.
  unfold sgpu_forward. match goal with |- exists out, exists M, in_turn _ _ _ ?l ?M0 M /\ _ => destruct (turn_total l) with (M := M0) as [M H] end.
  - destruct (_ <=? _)%Z; [constructor|]. unfold sgf_calls. apply Forall_flat_map, Forall_forall. intros s _. apply Forall_flat_map, Forall_forall. intros t _. unfold sgf_step. cbv zeta. totals.
  - eexists. exists M. split; [exact H|reflexivity].
Qed.
Lemma loop_total pml0 pml1 md fm sr gr ts : forall sw, Forall total (sgb_loop S N K C_dec P0 num NS nsrc nrec srcs recs bt oM pml0 pml1 md fm sr gr sw ts).
Proof. induction ts as [|t ts IH]; intros sw; [constructor|]. cbn [sgb_loop]. apply Forall_app. split; [|apply IH]. unfold sgb_step. cbv zeta. totals. Qed.
Lemma calls_total pml0 pml1 md fm sr gr cf ss : forall sw, Forall total (fst (sgb_calls S N K C_dec P0 num NS nsrc nrec srcs recs bt oM pml0 pml1 md fm sr gr cf sw ss)).
Proof.
  induction ss as [|s ss IH]; intros sw; [constructor|]. cbn [sgb_calls fst]. apply Forall_app. split; [|apply IH]. unfold sgb_call. apply Forall_app. split; [apply loop_total|].
  apply Forall_map, Forall_forall. intros q _. apply comb_total.
Qed.
Lemma sgpu_backward_exists pw md fm sr gr nt cb store g : exists out, sgpu_backward S N K C_dec P0 num NS nsrc nrec srcs recs bt oM pw md fm sr gr nt cb store g out.
Proof.
  unfold sgpu_backward. cbv zeta. match goal with |- exists out, exists M, in_turn _ _ _ ?l ?M0 M /\ _ => destruct (turn_total l) with (M := M0) as [M H] end.
  - apply calls_total.
  - eexists. exists M. split; [exact H|reflexivity].
Qed.
End Exists.

Lemma sg_sizes (S : sys) K (P0 : spar S K) pw NS nd : length (sp_shape P0) = nd -> (1 <= nd <= 3)%nat -> sgeom S K P0 pw ->
  Forall (fun m => m < 2 ^ 31 - 1)%Z (sp_shape P0) -> (0 <= NS < 2 ^ 31)%Z -> sizes_ok (fd_pad (sp_acc P0)) (map Z.succ (sp_shape P0)) NS.
Proof.
  intros <- Hn3 Hgeo Hm HNS. split; [rewrite map_length; exact Hn3|]. split; [|exact HNS]. apply Forall_map. rewrite Forall_forall in *. intros x Hx.
  specialize (Hm x Hx). destruct (In_nth _ _ 0%Z Hx) as (d & Hd & E). pose proof (sg_dims S K P0 pw Hgeo d Hd) as G. rewrite E in G. lia.
Qed.
Arguments sg_sizes S K P0 pw NS {nd}.
Lemma ac_allC_NoDup nd : NoDup (allC (ac_sys nd)).
Proof.
  cbn [ac_sys allC]. unfold ac_allX. constructor; [intros H; apply in_map_iff in H; destruct H as (d & H & _); discriminate|].
  apply FinFun.Injective_map_NoDup; [intros a b E; injection E; auto|apply seq_NoDup].
Qed.
Lemma el_allC_NoDup nd : NoDup (allC (el_sys nd)).
Proof.
  cbn [el_sys allC]. unfold el_allC. apply (Permutation_NoDup (l := CP :: map CV (seq 0 nd))); [apply Permutation_cons_append|].
  constructor; [intros H; apply in_map_iff in H; destruct H as (d & H & _); discriminate|].
  apply FinFun.Injective_map_NoDup; [intros a b E; injection E; auto|apply seq_NoDup].
Qed.
Lemma kmodels_grp (S : sys) (N : kern S) q : (exists A h, In h (kgrp N A) /\ In q (g_M h)) -> In q (kmodels S N).
Proof. intros (A & h & H1 & H2). unfold kmodels. apply in_flat_map. exists h. split; [|exact H2]. apply in_or_app. destruct A; auto. Qed.

Lemma acoustic_gpu_fwd (nd : nat) (K : ops) (Kr : is_ring K) (P0 : spar (ac_sys nd) K) (pw : nat -> Z * Z) (NS : Z)
    (nsrc nrec : aX -> Z) (srcs recs : aX -> Z -> Z) (kbat bbat : bool) :
  length (sp_shape P0) = nd -> (1 <= nd <= 3)%nat -> sgeom (ac_sys nd) K P0 pw -> Forall (fun m => m < 2 ^ 31 - 1)%Z (sp_shape P0) -> (0 <= NS < 2 ^ 31)%Z ->
  (forall c, (0 <= nsrc c < 2 ^ 31)%Z) -> (forall c, (0 <= nrec c < 2 ^ 31)%Z) ->
  (forall c j, (0 <= j < NS * nsrc c)%Z -> sloc_ok (ac_sys nd) K P0 c (srcs c j)) ->
  (forall c j, (0 <= j < NS * nrec c)%Z -> sloc_ok (ac_sys nd) K P0 c (recs c j)) ->
  forall (dt : K) (kb : aM -> arr K) kg bg sr f nt cb store u visA visB out k,
  (forall c k j j', In c (ac_allX nd) -> (0 <= k < NS)%Z -> (0 <= j < nsrc c)%Z -> (0 <= j' < nsrc c)%Z ->
     (0 <= srcs c (k * nsrc c + j))%Z -> srcs c (k * nsrc c + j)%Z = srcs c (k * nsrc c + j')%Z -> j = j') ->
  ac_fvis nd K P0 pw true visA -> ac_fvis nd K P0 pw false visB -> nt_ok nt sr cb -> (0 <= k < NS)%Z ->
  acoustic_gpu_forward nd K P0 NS nsrc nrec srcs recs kbat bbat pw dt kb kg bg sr f nt cb store u out ->
  exists U1 R1 St1,
    acoustic_forward nd K (@mkspar (ac_sys nd) K (sp_acc P0) (sp_shape P0) (sp_rd P0) (sp_a P0) (sp_b P0)
        (fun c => map (fun j => srcs c (k * nsrc c + j)%Z) (zrange 0 (nsrc c))) (fun c => map (fun j => recs c (k * nrec c + j)%Z) (zrange 0 (nrec c))))
      pw dt (fun q => if ac_flag kbat bbat q then (fun i => kb q (k * prodZ (sp_shape P0) + i)%Z) else kb q) visA visB kg bg sr
      (fun t c => map (fun j => f t c (k * nsrc c + j)%Z) (zrange 0 (nsrc c))) nt cb (fun q si i => store q si (k * prodZ (sp_shape P0) + i)%Z) (u k)
      = Some (U1, R1, St1) /\
    (forall x p, mn (fst (fst out) k) x p = mn U1 x p) /\ (forall e p, me (fst (fst out) k) e p = me U1 e p) /\
    (forall t c, In c (ac_allX nd) -> map (fun j => snd (fst out) t c (k * nrec c + j)%Z) (zrange 0 (nrec c)) = R1 t c) /\
    (forall q si i, (0 <= i < prodZ (sp_shape P0))%Z -> snd out q si (k * prodZ (sp_shape P0) + i)%Z = St1 q si i).
Proof.
  intros Hnd Hn3 Hgeo Hm HNS Hns Hnr Hs Hr. ac_oks.
  intros dt kb kg bg sr f nt cb store u visA visB out k Hd VA VB Hcb Hk0 HG.
  exact (sgpu_forward_shot (ac_sys nd) (ac_kern nd) K aX_dec P0 (ac_num nd K dt) (ac_kc dt) pw NS nsrc nrec srcs recs (ac_flag kbat bbat) false Sok Hk (fun md => ac_num_ok nd K Kr dt md) (fun md => ac_numrel nd K K eq (oprel_eq K) (prodZ (sp_shape P0)) dt dt md md eq_refl (fun _ _ _ => eq_refl)) Hgeo (sg_sizes _ K P0 pw NS Hnd Hn3 Hgeo Hm HNS) HNS (ac_allC_NoDup nd) (fun c => proj2 (Hns c)) (fun c => proj2 (Hnr c)) (Hsrc' _ K P0 pw NS nsrc srcs Hgeo Hs) (Hrec' _ K P0 pw NS nrec recs Hgeo Hr) kb (ac_flag kg bg) sr f visA visB VA VB (fun c Hc k j j' => Hd c k j j' Hc) nt cb store u out k Hcb Hk0 HG).
Qed.

Lemma acoustic_gpu_bwd (nd : nat) (K : ops) (Kr : is_ring K) (P0 : spar (ac_sys nd) K) (pw : nat -> Z * Z) (NS : Z)
    (nsrc nrec : aX -> Z) (srcs recs : aX -> Z -> Z) (kbat bbat : bool) :
  length (sp_shape P0) = nd -> (1 <= nd <= 3)%nat -> sgeom (ac_sys nd) K P0 pw -> Forall (fun m => m < 2 ^ 31 - 1)%Z (sp_shape P0) -> (0 <= NS < 2 ^ 31)%Z ->
  (forall c, (0 <= nsrc c < 2 ^ 31)%Z) -> (forall c, (0 <= nrec c < 2 ^ 31)%Z) ->
  (forall c j, (0 <= j < NS * nsrc c)%Z -> sloc_ok (ac_sys nd) K P0 c (srcs c j)) ->
  (forall c j, (0 <= j < NS * nrec c)%Z -> sloc_ok (ac_sys nd) K P0 c (recs c j)) ->
  sroom (ac_sys nd) K P0 pw -> forall (dt : K) (kb : aM -> arr K) kg bg sr gr nt cb store g visA visB out k,
  (forall c k j j', In c (ac_allX nd) -> (0 <= k < NS)%Z -> (0 <= j < nrec c)%Z -> (0 <= j' < nrec c)%Z ->
     (0 <= recs c (k * nrec c + j))%Z -> recs c (k * nrec c + j)%Z = recs c (k * nrec c + j')%Z -> j = j') ->
  ac_bvis nd K P0 pw true visA -> ac_bvis nd K P0 pw false visB -> nt_ok nt sr cb -> (0 <= k < NS)%Z ->
  acoustic_gpu_backward nd K P0 NS nsrc nrec srcs recs kbat bbat pw dt kb kg bg sr gr nt cb store g out ->
  exists U1 f1 gm1,
    acoustic_backward nd K (@mkspar (ac_sys nd) K (sp_acc P0) (sp_shape P0) (sp_rd P0) (sp_a P0) (sp_b P0)
        (fun c => map (fun j => srcs c (k * nsrc c + j)%Z) (zrange 0 (nsrc c))) (fun c => map (fun j => recs c (k * nrec c + j)%Z) (zrange 0 (nrec c))))
      pw dt (fun q => if ac_flag kbat bbat q then (fun i => kb q (k * prodZ (sp_shape P0) + i)%Z) else kb q) visA visB kg bg sr
      (fun t c => map (fun j => gr t c (k * nrec c + j)%Z) (zrange 0 (nrec c))) nt cb (fun q si i => store q si (k * prodZ (sp_shape P0) + i)%Z) (g k)
      = Some (U1, f1, gm1) /\
    (forall x p, mn (fst (fst out) k) x p = mn U1 x p) /\ (forall e p, me (fst (fst out) k) e p = me U1 e p) /\
    (forall t c, In c (ac_allX nd) -> map (fun j => snd (fst out) t c (k * nsrc c + j)%Z) (zrange 0 (nsrc c)) = f1 t c).
Proof.
  intros Hnd Hn3 Hgeo Hm HNS Hns Hnr Hs Hr. ac_oks.
  intros Hroom dt kb kg bg sr gr nt cb store g visA visB out k Hd VA VB Hcb Hk0 HG.
  exact (sgpu_backward_shot (ac_sys nd) (ac_kern nd) K Kr aX_dec P0 (ac_num nd K dt) (ac_kc dt) pw NS nsrc nrec srcs recs (ac_flag kbat bbat) true Sok Hk (fun md => ac_num_ok nd K Kr dt md) (fun md => ac_numrel nd K K eq (oprel_eq K) (prodZ (sp_shape P0)) dt dt md md eq_refl (fun _ _ _ => eq_refl)) Hgeo (sg_sizes _ K P0 pw NS Hnd Hn3 Hgeo Hm HNS) HNS (ac_allC_NoDup nd) (fun c => proj2 (Hns c)) (fun c => proj2 (Hnr c)) (Hsrc' _ K P0 pw NS nsrc srcs Hgeo Hs) (Hrec' _ K P0 pw NS nrec recs Hgeo Hr) kb Hroom (ac_flag kg bg) sr gr visA visB VA VB (fun c Hc k j j' => Hd c k j j' Hc) nt cb store g out k Hcb Hk0 HG).
Qed.

Lemma acoustic_gpu_grad (nd : nat) (K : ops) (Kr : is_ring K) (P0 : spar (ac_sys nd) K) (pw : nat -> Z * Z) (NS : Z)
    (nsrc nrec : aX -> Z) (srcs recs : aX -> Z -> Z) (kbat bbat : bool) :
  length (sp_shape P0) = nd -> (1 <= nd <= 3)%nat -> sgeom (ac_sys nd) K P0 pw -> Forall (fun m => m < 2 ^ 31 - 1)%Z (sp_shape P0) -> (0 <= NS < 2 ^ 31)%Z ->
  (forall c, (0 <= nsrc c < 2 ^ 31)%Z) -> (forall c, (0 <= nrec c < 2 ^ 31)%Z) ->
  (forall c j, (0 <= j < NS * nsrc c)%Z -> sloc_ok (ac_sys nd) K P0 c (srcs c j)) ->
  (forall c j, (0 <= j < NS * nrec c)%Z -> sloc_ok (ac_sys nd) K P0 c (recs c j)) ->
  sroom (ac_sys nd) K P0 pw -> forall (dt : K) (kb : aM -> arr K) kg bg sr gr nt cb store g visA visB out q,
  (forall c k j j', In c (ac_allX nd) -> (0 <= k < NS)%Z -> (0 <= j < nrec c)%Z -> (0 <= j' < nrec c)%Z ->
     (0 <= recs c (k * nrec c + j))%Z -> recs c (k * nrec c + j)%Z = recs c (k * nrec c + j')%Z -> j = j') ->
  ac_bvis nd K P0 pw true visA -> ac_bvis nd K P0 pw false visB -> nt_ok nt sr cb -> (0 < NS)%Z -> ac_models nd q -> ac_flag kg bg q = true ->
  ac_flag kbat bbat q = true \/ NS = 1%Z \/ cb = None ->
  acoustic_gpu_backward nd K P0 NS nsrc nrec srcs recs kbat bbat pw dt kb kg bg sr gr nt cb store g out ->
  let gm1 k := gm_of (acoustic_backward nd K (@mkspar (ac_sys nd) K (sp_acc P0) (sp_shape P0) (sp_rd P0) (sp_a P0) (sp_b P0)
        (fun c => map (fun j => srcs c (k * nsrc c + j)%Z) (zrange 0 (nsrc c))) (fun c => map (fun j => recs c (k * nrec c + j)%Z) (zrange 0 (nrec c))))
      pw dt (fun q => if ac_flag kbat bbat q then (fun i => kb q (k * prodZ (sp_shape P0) + i)%Z) else kb q) visA visB kg bg sr
      (fun t c => map (fun j => gr t c (k * nrec c + j)%Z) (zrange 0 (nrec c))) nt cb (fun q si i => store q si (k * prodZ (sp_shape P0) + i)%Z) (g k)) q in
  if ac_flag kbat bbat q
  then forall k i, (0 <= k < NS)%Z -> (0 <= i < prodZ (sp_shape P0))%Z -> snd out q (k * prodZ (sp_shape P0) + i)%Z = gm1 k i
  else forall i, (0 <= i < prodZ (sp_shape P0))%Z -> snd out q i = sumf (zrange 0 NS) (fun k => gm1 k i).
Proof.
  intros Hnd Hn3 Hgeo Hm HNS Hns Hnr Hs Hr. ac_oks.
  intros Hroom dt kb kg bg sr gr nt cb store g visA visB out q Hd VA VB Hcb HN Hq Hf Hor HG.
  exact (sgpu_backward_models (ac_sys nd) (ac_kern nd) K Kr aX_dec P0 (ac_num nd K dt) (ac_kc dt) pw NS nsrc nrec srcs recs (ac_flag kbat bbat) true Sok Hk (fun md => ac_num_ok nd K Kr dt md) (fun md => ac_numrel nd K K eq (oprel_eq K) (prodZ (sp_shape P0)) dt dt md md eq_refl (fun _ _ _ => eq_refl)) Hgeo (sg_sizes _ K P0 pw NS Hnd Hn3 Hgeo Hm HNS) HNS (ac_allC_NoDup nd) (fun c => proj2 (Hns c)) (fun c => proj2 (Hnr c)) (Hsrc' _ K P0 pw NS nsrc srcs Hgeo Hs) (Hrec' _ K P0 pw NS nrec recs Hgeo Hr) kb Hroom (ac_flag kg bg) sr gr visA visB VA VB (fun c Hc k j j' => Hd c k j j' Hc) nt cb store g out q Hcb HG (kmodels_grp (ac_sys nd) (ac_kern nd) q (ac_models_grp nd q Hq)) Hf HN Hor).
Qed.

Lemma acoustic_gpu_exists (nd : nat) (K : ops) (P0 : spar (ac_sys nd) K) (NS : Z) (nsrc nrec : aX -> Z) (srcs recs : aX -> Z -> Z) (kbat bbat : bool) :
  (forall c, (0 <= nsrc c < 2 ^ 31)%Z) -> (forall c, (0 <= nrec c < 2 ^ 31)%Z) -> (0 < NS < 2 ^ 16)%Z ->
  let fd := fd_pad (sp_acc P0) in
  match sp_shape P0 with
  | [nz; ny; nx] => (2 * fd <= nx < 2 ^ 31 - 1 /\ 2 * fd <= ny <= 4 * 65535 /\ 2 * fd <= nz <= 65535)%Z
  | [ny; nx] => (2 * fd <= nx < 2 ^ 31 - 1 /\ 2 * fd <= ny <= 4 * 65535)%Z
  | [nx] => (2 * fd <= nx < 2 ^ 31 - 1)%Z
  | _ => False
  end ->
  (forall pw dt kb kg bg sr f nt cb store u, exists out, acoustic_gpu_forward nd K P0 NS nsrc nrec srcs recs kbat bbat pw dt kb kg bg sr f nt cb store u out) /\
  (forall pw dt kb kg bg sr gr nt cb store g, exists out, acoustic_gpu_backward nd K P0 NS nsrc nrec srcs recs kbat bbat pw dt kb kg bg sr gr nt cb store g out).
Proof.
  intros Hns Hnr HN fd Hfit. split; intros.
  - apply sgpu_forward_exists; assumption.
  - apply sgpu_backward_exists; assumption.
Qed.

Lemma elastic_gpu_fwd (nd : nat) (K : ops) (Kr : is_ring K) (P0 : spar (el_sys nd) K) (pw : nat -> Z * Z) (NS : Z)
    (nsrc nrec : eC -> Z) (srcs recs : eC -> Z -> Z) (lbat mbat bbat : bool) :
  length (sp_shape P0) = nd -> (1 <= nd <= 3)%nat -> sgeom (el_sys nd) K P0 pw -> Forall (fun m => m < 2 ^ 31 - 1)%Z (sp_shape P0) -> (0 <= NS < 2 ^ 31)%Z ->
  (forall c, (0 <= nsrc c < 2 ^ 31)%Z) -> (forall c, (0 <= nrec c < 2 ^ 31)%Z) ->
  (forall c j, (0 <= j < NS * nsrc c)%Z -> sloc_ok (el_sys nd) K P0 c (srcs c j)) ->
  (forall c j, (0 <= j < NS * nrec c)%Z -> sloc_ok (el_sys nd) K P0 c (recs c j)) ->
  forall (dt : K) (md : eM -> arr K) lg mg bg sr f nt cb store u visA visB out k,
  (forall c k j j', In c (el_allC nd) -> (0 <= k < NS)%Z -> (0 <= j < nsrc c)%Z -> (0 <= j' < nsrc c)%Z ->
     (0 <= srcs c (k * nsrc c + j))%Z -> srcs c (k * nsrc c + j)%Z = srcs c (k * nsrc c + j')%Z -> j = j') ->
  el_fvis nd K P0 pw true visA -> el_fvis nd K P0 pw false visB -> nt_ok nt sr cb -> (0 <= k < NS)%Z ->
  elastic_gpu_forward nd K P0 NS nsrc nrec srcs recs lbat mbat bbat pw dt md lg mg bg sr f nt cb store u out ->
  exists U1 R1 St1,
    elastic_forward nd K (@mkspar (el_sys nd) K (sp_acc P0) (sp_shape P0) (sp_rd P0) (sp_a P0) (sp_b P0)
        (fun c => map (fun j => srcs c (k * nsrc c + j)%Z) (zrange 0 (nsrc c))) (fun c => map (fun j => recs c (k * nrec c + j)%Z) (zrange 0 (nrec c))))
      pw dt (fun q => if el_fm lbat mbat bbat q then (fun i => md q (k * prodZ (sp_shape P0) + i)%Z) else md q) visA visB lg mg bg sr
      (fun t c => map (fun j => f t c (k * nsrc c + j)%Z) (zrange 0 (nsrc c))) nt cb (fun q si i => store q si (k * prodZ (sp_shape P0) + i)%Z) (u k)
      = Some (U1, R1, St1) /\
    (forall x p, mn (fst (fst out) k) x p = mn U1 x p) /\ (forall e p, me (fst (fst out) k) e p = me U1 e p) /\
    (forall t c, In c (el_allC nd) -> map (fun j => snd (fst out) t c (k * nrec c + j)%Z) (zrange 0 (nrec c)) = R1 t c) /\
    (forall q si i, (0 <= i < prodZ (sp_shape P0))%Z -> snd out q si (k * prodZ (sp_shape P0) + i)%Z = St1 q si i).
Proof.
  intros Hnd Hn3 Hgeo Hm HNS Hns Hnr Hs Hr. assert (Hpos : (0 < nd)%nat) by lia. el_oks.
  intros dt md lg mg bg sr f nt cb store u visA visB out k Hd VA VB Hcb Hk0 HG.
  exact (sgpu_forward_shot (el_sys nd) (el_kern nd) K eC_dec P0 (el_num nd K dt) (el_kc dt) pw NS nsrc nrec srcs recs (el_fm lbat mbat bbat) true Sok Hk (fun md => el_num_ok nd K Kr dt md) (fun md => el_numrel nd K K eq (oprel_eq K) (prodZ (sp_shape P0)) dt dt md md eq_refl (fun _ _ _ => eq_refl)) Hgeo (sg_sizes _ K P0 pw NS Hnd Hn3 Hgeo Hm HNS) HNS (el_allC_NoDup nd) (fun c => proj2 (Hns c)) (fun c => proj2 (Hnr c)) (Hsrc' _ K P0 pw NS nsrc srcs Hgeo Hs) (Hrec' _ K P0 pw NS nrec recs Hgeo Hr) md (el_fq lg mg bg) sr f visA visB VA VB (fun c Hc k j j' => Hd c k j j' Hc) nt cb store u out k Hcb Hk0 HG).
Qed.

Lemma elastic_gpu_bwd (nd : nat) (K : ops) (Kr : is_ring K) (P0 : spar (el_sys nd) K) (pw : nat -> Z * Z) (NS : Z)
    (nsrc nrec : eC -> Z) (srcs recs : eC -> Z -> Z) (lbat mbat bbat : bool) :
  length (sp_shape P0) = nd -> (1 <= nd <= 3)%nat -> sgeom (el_sys nd) K P0 pw -> Forall (fun m => m < 2 ^ 31 - 1)%Z (sp_shape P0) -> (0 <= NS < 2 ^ 31)%Z ->
  (forall c, (0 <= nsrc c < 2 ^ 31)%Z) -> (forall c, (0 <= nrec c < 2 ^ 31)%Z) ->
  (forall c j, (0 <= j < NS * nsrc c)%Z -> sloc_ok (el_sys nd) K P0 c (srcs c j)) ->
  (forall c j, (0 <= j < NS * nrec c)%Z -> sloc_ok (el_sys nd) K P0 c (recs c j)) ->
  sroom (el_sys nd) K P0 pw -> forall (dt : K) (md : eM -> arr K) lg mg bg sr gr nt cb store g visA visB out k,
  (forall c k j j', In c (el_allC nd) -> (0 <= k < NS)%Z -> (0 <= j < nrec c)%Z -> (0 <= j' < nrec c)%Z ->
     (0 <= recs c (k * nrec c + j))%Z -> recs c (k * nrec c + j)%Z = recs c (k * nrec c + j')%Z -> j = j') ->
  el_bvis nd K P0 pw true visA -> el_bvis nd K P0 pw false visB -> nt_ok nt sr cb -> (0 <= k < NS)%Z ->
  elastic_gpu_backward nd K P0 NS nsrc nrec srcs recs lbat mbat bbat pw dt md lg mg bg sr gr nt cb store g out ->
  exists U1 f1 gm1,
    elastic_backward nd K (@mkspar (el_sys nd) K (sp_acc P0) (sp_shape P0) (sp_rd P0) (sp_a P0) (sp_b P0)
        (fun c => map (fun j => srcs c (k * nsrc c + j)%Z) (zrange 0 (nsrc c))) (fun c => map (fun j => recs c (k * nrec c + j)%Z) (zrange 0 (nrec c))))
      pw dt (fun q => if el_fm lbat mbat bbat q then (fun i => md q (k * prodZ (sp_shape P0) + i)%Z) else md q) visA visB lg mg bg sr
      (fun t c => map (fun j => gr t c (k * nrec c + j)%Z) (zrange 0 (nrec c))) nt cb (fun q si i => store q si (k * prodZ (sp_shape P0) + i)%Z) (g k)
      = Some (U1, f1, gm1) /\
    (forall x p, mn (fst (fst out) k) x p = mn U1 x p) /\ (forall e p, me (fst (fst out) k) e p = me U1 e p) /\
    (forall t c, In c (el_allC nd) -> map (fun j => snd (fst out) t c (k * nsrc c + j)%Z) (zrange 0 (nsrc c)) = f1 t c).
Proof.
  intros Hnd Hn3 Hgeo Hm HNS Hns Hnr Hs Hr. assert (Hpos : (0 < nd)%nat) by lia. el_oks.
  intros Hroom dt md lg mg bg sr gr nt cb store g visA visB out k Hd VA VB Hcb Hk0 HG.
  exact (sgpu_backward_shot (el_sys nd) (el_kern nd) K Kr eC_dec P0 (el_num nd K dt) (el_kc dt) pw NS nsrc nrec srcs recs (el_fm lbat mbat bbat) false Sok Hk (fun md => el_num_ok nd K Kr dt md) (fun md => el_numrel nd K K eq (oprel_eq K) (prodZ (sp_shape P0)) dt dt md md eq_refl (fun _ _ _ => eq_refl)) Hgeo (sg_sizes _ K P0 pw NS Hnd Hn3 Hgeo Hm HNS) HNS (el_allC_NoDup nd) (fun c => proj2 (Hns c)) (fun c => proj2 (Hnr c)) (Hsrc' _ K P0 pw NS nsrc srcs Hgeo Hs) (Hrec' _ K P0 pw NS nrec recs Hgeo Hr) md Hroom (el_fm lg mg bg) sr gr visA visB VA VB (fun c Hc k j j' => Hd c k j j' Hc) nt cb store g out k Hcb Hk0 HG).
Qed.

Lemma elastic_gpu_grad (nd : nat) (K : ops) (Kr : is_ring K) (P0 : spar (el_sys nd) K) (pw : nat -> Z * Z) (NS : Z)
    (nsrc nrec : eC -> Z) (srcs recs : eC -> Z -> Z) (lbat mbat bbat : bool) :
  length (sp_shape P0) = nd -> (1 <= nd <= 3)%nat -> sgeom (el_sys nd) K P0 pw -> Forall (fun m => m < 2 ^ 31 - 1)%Z (sp_shape P0) -> (0 <= NS < 2 ^ 31)%Z ->
  (forall c, (0 <= nsrc c < 2 ^ 31)%Z) -> (forall c, (0 <= nrec c < 2 ^ 31)%Z) ->
  (forall c j, (0 <= j < NS * nsrc c)%Z -> sloc_ok (el_sys nd) K P0 c (srcs c j)) ->
  (forall c j, (0 <= j < NS * nrec c)%Z -> sloc_ok (el_sys nd) K P0 c (recs c j)) ->
  sroom (el_sys nd) K P0 pw -> forall (dt : K) (md : eM -> arr K) lg mg bg sr gr nt cb store g visA visB out q,
  (forall c k j j', In c (el_allC nd) -> (0 <= k < NS)%Z -> (0 <= j < nrec c)%Z -> (0 <= j' < nrec c)%Z ->
     (0 <= recs c (k * nrec c + j))%Z -> recs c (k * nrec c + j)%Z = recs c (k * nrec c + j')%Z -> j = j') ->
  el_bvis nd K P0 pw true visA -> el_bvis nd K P0 pw false visB -> nt_ok nt sr cb -> (0 < NS)%Z -> el_models nd q -> el_fm lg mg bg q = true ->
  el_fm lbat mbat bbat q = true \/ NS = 1%Z \/ cb = None ->
  elastic_gpu_backward nd K P0 NS nsrc nrec srcs recs lbat mbat bbat pw dt md lg mg bg sr gr nt cb store g out ->
  let gm1 k := gm_of (elastic_backward nd K (@mkspar (el_sys nd) K (sp_acc P0) (sp_shape P0) (sp_rd P0) (sp_a P0) (sp_b P0)
        (fun c => map (fun j => srcs c (k * nsrc c + j)%Z) (zrange 0 (nsrc c))) (fun c => map (fun j => recs c (k * nrec c + j)%Z) (zrange 0 (nrec c))))
      pw dt (fun q => if el_fm lbat mbat bbat q then (fun i => md q (k * prodZ (sp_shape P0) + i)%Z) else md q) visA visB lg mg bg sr
      (fun t c => map (fun j => gr t c (k * nrec c + j)%Z) (zrange 0 (nrec c))) nt cb (fun q si i => store q si (k * prodZ (sp_shape P0) + i)%Z) (g k)) q in
  if el_fm lbat mbat bbat q
  then forall k i, (0 <= k < NS)%Z -> (0 <= i < prodZ (sp_shape P0))%Z -> snd out q (k * prodZ (sp_shape P0) + i)%Z = gm1 k i
  else forall i, (0 <= i < prodZ (sp_shape P0))%Z -> snd out q i = sumf (zrange 0 NS) (fun k => gm1 k i).
Proof.
  intros Hnd Hn3 Hgeo Hm HNS Hns Hnr Hs Hr. assert (Hpos : (0 < nd)%nat) by lia. el_oks.
  intros Hroom dt md lg mg bg sr gr nt cb store g visA visB out q Hd VA VB Hcb HN Hq Hf Hor HG.
  exact (sgpu_backward_models (el_sys nd) (el_kern nd) K Kr eC_dec P0 (el_num nd K dt) (el_kc dt) pw NS nsrc nrec srcs recs (el_fm lbat mbat bbat) false Sok Hk (fun md => el_num_ok nd K Kr dt md) (fun md => el_numrel nd K K eq (oprel_eq K) (prodZ (sp_shape P0)) dt dt md md eq_refl (fun _ _ _ => eq_refl)) Hgeo (sg_sizes _ K P0 pw NS Hnd Hn3 Hgeo Hm HNS) HNS (el_allC_NoDup nd) (fun c => proj2 (Hns c)) (fun c => proj2 (Hnr c)) (Hsrc' _ K P0 pw NS nsrc srcs Hgeo Hs) (Hrec' _ K P0 pw NS nrec recs Hgeo Hr) md Hroom (el_fm lg mg bg) sr gr visA visB VA VB (fun c Hc k j j' => Hd c k j j' Hc) nt cb store g out q Hcb HG (kmodels_grp (el_sys nd) (el_kern nd) q (el_models_grp nd q Hq)) Hf HN Hor).
Qed.

Lemma elastic_gpu_exists (nd : nat) (K : ops) (P0 : spar (el_sys nd) K) (NS : Z) (nsrc nrec : eC -> Z) (srcs recs : eC -> Z -> Z) (lbat mbat bbat : bool) :
  (forall c, (0 <= nsrc c < 2 ^ 31)%Z) -> (forall c, (0 <= nrec c < 2 ^ 31)%Z) -> (0 < NS < 2 ^ 16)%Z ->
  let fd := fd_pad (sp_acc P0) in
  match sp_shape P0 with
  | [nz; ny; nx] => (2 * fd <= nx < 2 ^ 31 - 1 /\ 2 * fd <= ny <= 4 * 65535 /\ 2 * fd <= nz <= 65535)%Z
  | [ny; nx] => (2 * fd <= nx < 2 ^ 31 - 1 /\ 2 * fd <= ny <= 4 * 65535)%Z
  | [nx] => (2 * fd <= nx < 2 ^ 31 - 1)%Z
  | _ => False
  end ->
  (forall pw dt md lg mg bg sr f nt cb store u, exists out, elastic_gpu_forward nd K P0 NS nsrc nrec srcs recs lbat mbat bbat pw dt md lg mg bg sr f nt cb store u out) /\
  (forall pw dt md lg mg bg sr gr nt cb store g, exists out, elastic_gpu_backward nd K P0 NS nsrc nrec srcs recs lbat mbat bbat pw dt md lg mg bg sr gr nt cb store g out).
Proof.
  intros Hns Hnr HN fd Hfit. split; intros.
  - apply sgpu_forward_exists; assumption.
  - apply sgpu_backward_exists; assumption.
Qed.

(** With callbacks: the blocks of the shots are added once per call. *)
Lemma acoustic_gpu_again (nd : nat) (K : ops) (Kr : is_ring K) (P0 : spar (ac_sys nd) K) (pw : nat -> Z * Z) (NS : Z)
    (nsrc nrec : aX -> Z) (srcs recs : aX -> Z -> Z) (kbat bbat : bool) :
  length (sp_shape P0) = nd -> (1 <= nd <= 3)%nat -> sgeom (ac_sys nd) K P0 pw -> Forall (fun m => m < 2 ^ 31 - 1)%Z (sp_shape P0) -> (0 <= NS < 2 ^ 31)%Z ->
  (forall c, (0 <= nsrc c < 2 ^ 31)%Z) -> (forall c, (0 <= nrec c < 2 ^ 31)%Z) ->
  (forall c j, (0 <= j < NS * nsrc c)%Z -> sloc_ok (ac_sys nd) K P0 c (srcs c j)) ->
  (forall c j, (0 <= j < NS * nrec c)%Z -> sloc_ok (ac_sys nd) K P0 c (recs c j)) ->
  sroom (ac_sys nd) K P0 pw -> forall (dt : K) (kb : aM -> arr K) kg bg sr gr nt cb store g visA visB out q i,
  (forall c k j j', In c (ac_allX nd) -> (0 <= k < NS)%Z -> (0 <= j < nrec c)%Z -> (0 <= j' < nrec c)%Z ->
     (0 <= recs c (k * nrec c + j))%Z -> recs c (k * nrec c + j)%Z = recs c (k * nrec c + j')%Z -> j = j') ->
  ac_bvis nd K P0 pw true visA -> ac_bvis nd K P0 pw false visB -> nt_ok nt sr cb -> (0 < nt)%Z -> ac_models nd q -> sgseparate (ac_sys nd) (ac_kern nd) NS (ac_flag kbat bbat) (ac_flag kg bg) q = true ->
  (0 <= i < prodZ (sp_shape P0))%Z -> acoustic_gpu_backward nd K P0 NS nsrc nrec srcs recs kbat bbat pw dt kb kg bg sr gr nt cb store g out ->
  snd out q i = sagain (ac_sys nd) (ac_kern nd) K P0 (ac_num nd K dt) NS nsrc nrec srcs recs (ac_flag kbat bbat) kb (ac_flag kg bg) sr gr visA visB (k_cf nt sr cb) (range_down (nt / sr) (k_cf nt sr cb))
    (fun k => (k_init (ac_sys nd) (ac_kern nd) K (sshot_par (ac_sys nd) K P0 nsrc nrec srcs recs k) pw (fun q si => bsh (prodZ (sp_shape P0)) k (store q si)) (g k), k_rec0 (ac_sys nd) K (sp_src (sshot_par (ac_sys nd) K P0 nsrc nrec srcs recs k)))) q i 0.
Proof.
  intros Hnd Hn3 Hgeo Hm HNS Hns Hnr Hs Hr. ac_oks. intros Hroom dt kb kg bg sr gr nt cb store g visA visB out q i Hd VA VB Hcb Hnt Hq Hsp Hi HG.
  exact (sgpu_backward_again (ac_sys nd) (ac_kern nd) K Kr aX_dec P0 (ac_num nd K dt) (ac_kc dt) pw NS nsrc nrec srcs recs (ac_flag kbat bbat) true Sok Hk (fun md => ac_num_ok nd K Kr dt md) (fun md => ac_numrel nd K K eq (oprel_eq K) (prodZ (sp_shape P0)) dt dt md md eq_refl (fun _ _ _ => eq_refl)) Hgeo (sg_sizes _ K P0 pw NS Hnd Hn3 Hgeo Hm HNS) HNS (ac_allC_NoDup nd) (fun c => proj2 (Hns c)) (fun c => proj2 (Hnr c)) (Hsrc' _ K P0 pw NS nsrc srcs Hgeo Hs) (Hrec' _ K P0 pw NS nrec recs Hgeo Hr) kb Hroom (ac_flag kg bg) sr gr visA visB VA VB (fun c Hc k j j' => Hd c k j j' Hc) nt cb store g out q i Hcb Hnt HG Hsp (kmodels_grp (ac_sys nd) (ac_kern nd) q (ac_models_grp nd q Hq)) Hi).
Qed.
