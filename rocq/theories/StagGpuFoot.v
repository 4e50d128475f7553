(** * Which locations the cells of the CUDA kernels of the staggered-grid propagators load and store; the launches of a step. *)
From Coq Require Import List ZArith QArith Lia Bool Permutation.
From Verif Require Import Ops Sums Grid Stencil ScalarModel ScalarRefine ScalarForward ShotsModel Shots Param Stag StagAdj StagKernel StagCell StagRefine StagParam
  StagShotsModel StagShots StagShotsRun Threads GpuModel GpuLaunch StagGpuModel StagGpuCell StagGpuLaunch.
Import ListNotations.
Local Open Scope K_scope.

Section SGFoot.
Variable S : sys.
Variable N : kern S.
Variable K : ops.
Variable C_dec : forall a b : sC S, {a = b} + {a <> b}.
Variable P0 : spar S K.
Notation shape := (sp_shape P0).
Notation n := (prodZ shape).
Notation nd := (length shape).
Notation fd := (fd_pad (sp_acc P0)).
Notation kvar := (svar (sX S) (sE S) (kQ N) (kM N)).
Notation kgp := (grp S (kQ N) (kM N)).
Notation cell := (kgp * (list Z * pt))%type.
Notation kmem := (kmem S N K).
Notation leq := (sgloc_eq S N C_dec).
Notation mem := (mem (sgloc S N) K).
Notation prog := (prog (sgloc S N) K).
Notation at_ := (at_ S N K P0).
Hypothesis Sok : sys_ok S nd.
Hypothesis Hk : kern_ok S N nd.

Section Foot.
Variables (sw : bool) (k : Z) (R W : sgloc S N -> Prop).
Lemma foot_sloads ls kont : (forall l, In l ls -> R l) -> (forall xs, foot R W (kont xs)) -> foot R W (sloads S N K ls kont).
Proof.
  revert kont. induction ls as [|l ls IH]; intros kont Hl Hk0; cbn [sloads]; [apply Hk0|]. apply foot_load; [apply Hl; left; reflexivity|].
  intros x. apply IH; [intros; apply Hl; right; assumption|]. intros xs. apply Hk0.
Qed.
Lemma foot_srd_st h v i s kont : (forall j, R (at_ sw k v j)) -> (forall w, foot R W (kont w)) -> foot R W (srd_st S N K P0 sw k h v i s kont).
Proof.
  intros H1 H2. unfold srd_st. cbv zeta. apply foot_sloads; [|intros; apply H2]. intros l Hl. apply in_map_iff in Hl. destruct Hl as (o & <- & _). apply H1.
Qed.
Lemma foot_srd_vars h i s xs : forall Y kont, (forall x j, In x xs -> R (at_ sw k (VX x) j)) -> (forall w, foot R W (kont w)) -> foot R W (srd_vars S N K P0 sw k h i s xs Y kont).
Proof.
  induction xs as [|x xs IH]; intros Y kont H1 H2; cbn [srd_vars]; [apply H2|]. apply foot_srd_st; [intros; apply H1; left; reflexivity|].
  intros w. apply IH; [intros; apply H1; right; assumption|exact H2].
Qed.
Lemma foot_rd_cell i xs : forall Y kont, (forall x, In x xs -> R (at_ sw k (VX x) i)) -> (forall w, foot R W (kont w)) -> foot R W (rd_cell S N K P0 sw k i xs Y kont).
Proof.
  induction xs as [|x xs IH]; intros Y kont H1 H2; cbn [rd_cell]; [apply H2|]. apply foot_load; [apply H1; left; reflexivity|].
  intros w. apply IH; [intros; apply H1; right; assumption|exact H2].
Qed.
Lemma foot_rd_snaps si i qs : forall Q kont, (forall q, In q qs -> R (at_ sw k (VQ q si) i)) -> (forall w, foot R W (kont w)) -> foot R W (rd_snaps S N K P0 sw k si i qs Q kont).
Proof.
  induction qs as [|x xs IH]; intros Y kont H1 H2; cbn [rd_snaps]; [apply H2|]. apply foot_load; [apply H1; left; reflexivity|].
  intros w. apply IH; [intros; apply H1; right; assumption|exact H2].
Qed.
End Foot.

Section OneCell.
Variable U : knum S N K.
Variables pml0 pml1 : nat -> Z.
Variables (sw : bool) (k : Z) (g : kgp) (p : pt) (A : bool).
Hypothesis Hg : In g (kgrp N A).
Notation i := (idx shape p).
Variable O : kgp -> kvar -> Prop.
Variable W : kvar -> Prop.
Notation own := (cown S N K P0 sw O (k, (g, p))).
Notation R := (fun l => cshared S N sw W l \/ own l).
Lemma r_sh v j : ~ W v -> R (at_ sw k v j).
Proof. intros H. left. exists v, (k * n + j)%Z. split; [exact H|reflexivity]. Qed.
Lemma w_own v : O g v -> own (at_ sw k v i).
Proof. intros H. exists v. split; [exact H|reflexivity]. Qed.
Lemma r_own v : O g v -> R (at_ sw k v i).
Proof. intros H. right. apply w_own, H. Qed.

(** Forward. *)
Lemma terms_foot es : (forall e, In e es -> In e (g_E g)) ->
  (forall e, In e (g_E g) -> ~ W (VX (esrc S e)) /\ O g (VM e)) -> forall T kont, (forall T, foot R own (kont T)) ->
  foot R own (g_terms S N K P0 pml0 pml1 sw k g p es T kont).
Proof.
  intros He H. induction es as [|e es IH]; intros T kont Hk0; cbn [g_terms]; [apply Hk0|]. specialize (IH (fun e' X => He e' (or_intror X))).
  destruct (H e (He e (or_introl eq_refl))) as [H1 H2]. cbv zeta. apply foot_srd_st; [intros j; apply r_sh, H1|]. intros w. destruct (spml pml0 pml1 (g_h g (edim S e)) p (edim S e)).
  - apply foot_load; [apply r_own, H2|]. intros x. apply foot_store; [apply w_own, H2|]. apply IH, Hk0.
  - apply IH, Hk0.
Qed.
Lemma snaps_foot fq si T qs : (forall q, In q qs -> O g (VQ q si)) -> foot R own (g_snaps S N K P0 U sw k fq si i T qs).
Proof.
  induction qs as [|q qs IH]; intros H; cbn [g_snaps]; [constructor|]. specialize (IH (fun e' X => H e' (or_intror X))).
  destruct (fq q); [apply foot_store; [apply w_own, H; left; reflexivity|exact IH]|exact IH].
Qed.
Lemma upd_foot T xs : (forall x, In x xs -> O g (VX x)) -> foot R own (g_upd S N K P0 U sw k i T xs).
Proof.
  induction xs as [|x xs IH]; intros H; cbn [g_upd]; [constructor|]. specialize (IH (fun e' X => H e' (or_intror X))).
  apply foot_load; [apply r_own, H; left; reflexivity|]. intros y. apply foot_store; [apply w_own, H; left; reflexivity|exact IH].
Qed.
Lemma fcell_foot oQ fq si : (forall e, In e (g_E g) -> ~ W (VX (esrc S e)) /\ O g (VM e)) -> (forall q, In q (g_Q g) -> O g (VQ q si)) -> (forall x, In x (g_X g) -> O g (VX x)) ->
  foot R own (g_fcell S N K P0 oQ U pml0 pml1 sw k fq si (g, p)).
Proof.
  intros H1 H2 H3. unfold g_fcell. apply terms_foot; [auto|exact H1|]. intros T. destruct oQ; apply foot_bind; auto using snaps_foot, upd_foot.
Qed.

(** Backward. *)
Lemma bsum_foot es : (forall e, In e es -> ~ W (VM e) /\ forall x, In x (incX S e) -> ~ W (VX x)) -> forall kont, (forall r, foot R own (kont r)) ->
  foot R own (g_bsum S N K P0 U pml0 pml1 sw k g p es kont).
Proof.
  intros H. induction es as [|e es IH]; intros kont Hk0; cbn [g_bsum]; [apply Hk0|]. specialize (IH (fun e' X => H e' (or_intror X))).
  destruct (H e (or_introl eq_refl)) as [H1 H2]. cbv zeta. apply foot_srd_vars; [intros x j Hx; apply r_sh, H2, Hx|]. intros Y. destruct (spml pml0 pml1 (g_h g (edim S e)) p (edim S e)).
  - apply foot_srd_st; [intros j; apply r_sh, H1|]. intros w. apply IH. intros; apply Hk0.
  - apply IH. intros; apply Hk0.
Qed.
Lemma bX_foot xs : (forall x, In x xs -> O g (VX x)) -> (forall x e, In x xs -> In e (srcE S x) -> ~ W (VM e) /\ forall x', In x' (incX S e) -> ~ W (VX x')) ->
  foot R own (g_bX S N K P0 U pml0 pml1 sw k g p xs).
Proof.
  induction xs as [|x xs IH]; intros H1 H2; cbn [g_bX]; [constructor|]. cbv zeta. apply bsum_foot; [intros e He; apply (H2 x e (or_introl eq_refl) He)|]. intros r.
  apply foot_load; [apply r_own, H1; left; reflexivity|]. intros y. apply foot_store; [apply w_own, H1; left; reflexivity|]. apply IH; intros; [apply H1; right; assumption|apply (H2 x0); [right|]; assumption].
Qed.
Lemma bmem_foot dst es : (forall e, In e es -> O g (dst e) /\ R (at_ sw k (VM e) i) /\ forall x, In x (incX S e) -> O g (VX x)) ->
  foot R own (g_bmem S N K P0 U pml0 pml1 sw k dst g p es).
Proof.
  induction es as [|e es IH]; intros H; cbn [g_bmem]; [constructor|]. cbv zeta. specialize (IH (fun e' X => H e' (or_intror X))). destruct (H e (or_introl eq_refl)) as (H1 & H2 & H3).
  destruct (kguard N e && negb (spml pml0 pml1 (g_h g (edim S e)) p (edim S e))); [exact IH|]. apply foot_load; [exact H2|]. intros m0. apply foot_rd_cell; [intros x Hx; apply r_own, H3, Hx|]. intros Y. apply foot_store; [apply w_own, H1|exact IH].
Qed.
Lemma bgrad_foot fm sr si qs : (forall q, In q qs -> O g (VG q)) -> (forall x, In x (g_X g) -> O g (VX x)) -> (forall q, In q (g_Q g) -> ~ W (VQ q si)) ->
  foot R own (g_bgrad S N K P0 U sw k fm sr si g p qs).
Proof.
  intros H1 H2 H3. induction qs as [|q qs IH]; cbn [g_bgrad]; [constructor|]. cbv zeta. specialize (IH (fun e' X => H1 e' (or_intror X))).
  destruct (fm q); [|exact IH]. apply foot_load; [apply r_own, H1; left; reflexivity|]. intros g0. apply foot_rd_cell; [intros x Hx; apply r_own, H2, Hx|]. intros Y. apply foot_rd_snaps; [intros q' Hq; apply r_sh, H3, Hq|]. intros Q.
  apply foot_store; [apply w_own, H1; left; reflexivity|exact IH].
Qed.
Lemma grpX_all x : In x (g_X g) -> In x (allX S).
Proof.
  intros Hx. apply (Permutation_in _ (Permutation_sym (ko_X S N nd Hk))). apply in_flat_map. exists g. split; [|exact Hx].
  apply in_or_app. destruct A; [left|right]; exact Hg.
Qed.
Lemma adj_other x e : In x (g_X g) -> In e (srcE S x) -> eA S e = negb A /\ forall x', In x' (incX S e) -> xA S x' = negb A.
Proof.
  intros Hx He. destruct (srcE_spec S K P0 Sok x e He) as (H1 & H2 & H3). destruct (ko_Xg S N nd Hk A g x Hg Hx) as [H4 _].
  assert (H5 : eA S e = negb A) by (rewrite <- H4, H3, negb_involutive; reflexivity). split; [exact H5|]. intros x' Hx'. apply incX_spec in Hx'. destruct Hx' as [B1 B2].
  destruct (ok_inc S nd Sok x' e B1 H1 B2) as [B3 _]. congruence.
Qed.
Lemma mem_own e : In e (g_E g) -> forall x, In x (incX S e) -> In x (g_X g).
Proof. intros He x Hx. apply incX_spec in Hx. destruct Hx as [H1 H2]. apply (ko_incX S N nd Hk A g x e); assumption. Qed.
End OneCell.

Lemma fcell_foot' U pml0 pml1 sw k g p A oQ fq si : In g (kgrp N A) ->
  foot (fun l => cshared S N sw (f_W S N A) l \/ cown S N K P0 sw (f_own S N si) (k, (g, p)) l) (cown S N K P0 sw (f_own S N si) (k, (g, p)))
    (g_fcell S N K P0 oQ U pml0 pml1 sw k fq si (g, p)).
Proof.
  intros Hg. apply (fcell_foot U pml0 pml1 sw k g p); cbn; auto. intros e He. split; [|exact He].
  destruct (ko_Eg S N nd Hk A g e Hg He) as [E _].
  assert (HeE : In e (allE S)).
  { apply (Permutation_in _ (Permutation_sym (ko_E S N nd Hk))). apply in_flat_map. exists g. split; [|exact He]. apply in_or_app. destruct A; [left|right]; exact Hg. }
  rewrite (ok_half S nd Sok e HeE), E. destruct A; discriminate.
Qed.
Lemma bAcell_foot U pml0 pml1 sw k g p fm sr si : In g (kgrp N true) ->
  foot (fun l => cshared S N sw (bA_W S N) l \/ cown S N K P0 sw (bA_own S N) (k, (g, p)) l) (cown S N K P0 sw (bA_own S N) (k, (g, p)))
    (g_bAcell S N K P0 U pml0 pml1 sw k fm sr si (g, p)).
Proof.
  intros Hg. unfold g_bAcell. apply foot_bind; [|apply foot_bind].
  - apply bX_foot; cbn; auto. intros x e Hx He. split; [auto|]. intros x' Hx'. rewrite (proj2 (adj_other g true Hg x e Hx He) x' Hx'). discriminate.
  - apply bmem_foot. intros e He. cbn. split; [exact He|]. split; [apply r_sh; cbn; auto|]. apply (mem_own g true Hg e He).
  - apply bgrad_foot; cbn; auto.
Qed.
Lemma bBcell_foot U pml0 pml1 sw k g p oM fm sr si : In g (kgrp N false) ->
  foot (fun l => cshared S N sw (bB_W S N) l \/ cown S N K P0 sw (bB_own S N) (k, (g, p)) l) (cown S N K P0 sw (bB_own S N) (k, (g, p)))
    (g_bBcell S N K P0 oM U pml0 pml1 sw k fm sr si (g, p)).
Proof.
  intros Hg.
  assert (HG : foot (fun l => cshared S N sw (bB_W S N) l \/ cown S N K P0 sw (bB_own S N) (k, (g, p)) l) (cown S N K P0 sw (bB_own S N) (k, (g, p))) (g_bgrad S N K P0 U sw k fm sr si g p (g_M g)))
    by (apply bgrad_foot; cbn; auto).
  assert (HM : foot (fun l => cshared S N sw (bB_W S N) l \/ cown S N K P0 sw (bB_own S N) (k, (g, p)) l) (cown S N K P0 sw (bB_own S N) (k, (g, p))) (g_bmem S N K P0 U pml0 pml1 sw k VM g p (g_E g))).
  { apply bmem_foot. intros e He. cbn. split; [exact He|]. split; [apply r_own; exact He|]. apply (mem_own g false Hg e He). }
  unfold g_bBcell. apply foot_bind; [destruct oM; apply foot_bind; assumption|].
  apply bX_foot; cbn; auto. intros x e Hx He. destruct (adj_other g false Hg x e Hx He) as [H1 H2]. split; [rewrite H1; discriminate|]. intros x' Hx'. rewrite (H2 x' Hx'). discriminate.
Qed.
End SGFoot.
