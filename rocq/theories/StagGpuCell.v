(** * One cell of the CUDA kernels of the staggered-grid propagators does what the CPU kernel does. *)
From Coq Require Import List ZArith QArith Lia Bool Permutation.
From Verif Require Import Ops Sums Grid Stencil ScalarModel ScalarRefine ScalarForward ShotsModel Shots Stag StagAdj StagKernel StagCell StagRefine StagShotsModel Threads GpuModel StagGpuModel.
Import ListNotations.
Local Open Scope K_scope.

Section SGCell.
Variable S : sys.
Variable N : kern S.
Variable K : ops.
Variable C_dec : forall a b : sC S, {a = b} + {a <> b}.
Variable P0 : spar S K.
Variable U : knum S N K.
Variable kc : sX S -> sE S -> arr K.
Notation shape := (sp_shape P0).
Notation n := (prodZ shape).
Notation nd := (length shape).
Notation fd := (fd_pad (sp_acc P0)).
Notation kvar := (svar (sX S) (sE S) (kQ N) (kM N)).
Notation kgp := (grp S (kQ N) (kM N)).
Notation kmem := (kmem S N K).
Notation leq := (sgloc_eq S N C_dec).
Notation mem := (mem (sgloc S N) K).
Notation prog := (prog (sgloc S N) K).
Notation at_ := (at_ S N K P0).
Notation run := (run leq).
Notation setm := (setm S N K).
Hypothesis Sok : sys_ok S nd.
Hypothesis Hk : kern_ok S N nd.
Hypothesis Hu : num_ok S N K U kc.
Variables pml0 pml1 : nat -> Z.
Variable sw : bool.
Variable k : Z.
Notation loc_ := (at_ sw k).

Lemma qv_qv b v : qv S N b (qv S N b v) = v.
Proof. destruct v as [x|e|e|q s|g]; cbn; try reflexivity; destruct (b && eA S e) eqn:E; cbn; rewrite E; reflexivity. Qed.
Lemma qv_inj b v w : qv S N b v = qv S N b w -> v = w.
Proof. intros E. rewrite <- (qv_qv b v), E. apply qv_qv. Qed.
Lemma at_inj v i w j : loc_ v i = loc_ w j -> v = w /\ i = j.
Proof. unfold StagGpuModel.at_. intros E. injection E as E1 E2. apply qv_inj in E1. split; [exact E1|lia]. Qed.

(** What the pointers of shot [k] see. *)
Definition Vw (M : mem) (m : kmem) : Prop := forall v i, M (loc_ v i) = m v i.
Lemma Vw_put M m v i x : Vw M m -> Vw (put leq M (loc_ v i) x) (setm m v i x).
Proof.
  intros H w j. unfold put, StagKernel.setm. destruct (leq (loc_ v i) (loc_ w j)) as [E|E].
  - apply at_inj in E. destruct E as [-> ->]. destruct (kvar_dec S N w w); [|contradiction]. rewrite Z.eqb_refl. reflexivity.
  - destruct (kvar_dec S N w v) as [->|]; [|apply H]. destruct (Z.eqb_spec j i) as [->|]; [contradiction|apply H].
Qed.
Lemma Vw_ext M m m' : (forall v i, m v i = m' v i) -> Vw M m -> Vw M m'.
Proof. intros H1 H2 v i. rewrite H2. apply H1. Qed.

(** *** Loads *)
Lemma run_sloads ls kont M : run (sloads S N K ls kont) M = run (kont (map M ls)) M.
Proof. revert kont. induction ls as [|l ls IH]; intros kont; cbn; [reflexivity|]. rewrite IH. reflexivity. Qed.
Definition rng (h : bool) (o : Z) : Prop := if h then (1 - fd <= o <= fd)%Z else (- fd <= o <= fd - 1)%Z.
Lemma nth_zrange {A} (f : Z -> A) lo w o z : (lo <= o < lo + w)%Z -> nth (Z.to_nat (o - lo)) (map f (zrange lo (lo + w))) z = f o.
Proof.
  intros H. rewrite (zrange_app lo o (lo + w)) by lia. rewrite map_app, app_nth2.
  - rewrite map_length, zrange_length, Nat.sub_diag. rewrite zrange_cons by lia. reflexivity.
  - rewrite map_length, zrange_length. lia.
Qed.
Lemma run_srd_st h v i s kont M m : Vw M m -> exists W, run (srd_st S N K P0 sw k h v i s kont) M = run (kont W) M /\
  forall o, rng h o -> W o = m v (i + o * s)%Z.
Proof.
  intros H. unfold srd_st. rewrite run_sloads. eexists. split; [reflexivity|]. intros o Ho. cbv beta. rewrite map_map.
  rewrite (nth_zrange (fun o => M (loc_ v (i + o * s)%Z))); [apply H|]. unfold rng in Ho. destruct h; lia.
Qed.
Lemma kdiff_ext h d f g : (forall o, rng h o -> f o = g o) -> kdiff S K P0 h d f = kdiff S K P0 h d g.
Proof. intros H. unfold kdiff. destruct h; [apply SDIFFH1_ext|apply SDIFF1_ext]; intros j Hj; apply H; exact Hj. Qed.
Lemma run_srd_vars h i s xs kont M m : Vw M m -> forall Y, exists Y', run (srd_vars S N K P0 sw k h i s xs Y kont) M = run (kont Y') M /\
  (forall x o, In x xs -> rng h o -> Y' x o = m (VX x) (i + o * s)%Z) /\ (forall x, ~ In x xs -> Y' x = Y x).
Proof.
  intros HV. induction xs as [|x xs IH]; intros Y; cbn [srd_vars]; [exists Y; repeat split; auto; contradiction|].
  destruct (run_srd_st h (VX x) i s (fun W => srd_vars S N K P0 sw k h i s xs (fun x' => if kX_dec N x' x then W else Y x') kont) M m HV) as (W & -> & HW).
  destruct (IH (fun x' => if kX_dec N x' x then W else Y x')) as (Y' & -> & H1 & H2). exists Y'. split; [reflexivity|]. split.
  - intros x' o Hx Ho. destruct (in_dec (kX_dec N) x' xs) as [Hi|Hi]; [apply H1; assumption|]. destruct Hx as [<-|Hx]; [|contradiction].
    rewrite H2 by exact Hi. destruct (kX_dec N x x); [|contradiction]. apply HW, Ho.
  - intros x' Hx. rewrite H2 by (intros Hi; apply Hx; right; exact Hi). destruct (kX_dec N x' x) as [->|]; [|reflexivity]. exfalso. apply Hx. left. reflexivity.
Qed.
Lemma run_rd_cell i xs kont M m : Vw M m -> forall Y, exists Y', run (rd_cell S N K P0 sw k i xs Y kont) M = run (kont Y') M /\
  (forall x, In x xs -> Y' x = m (VX x) i) /\ (forall x, ~ In x xs -> Y' x = Y x).
Proof.
  intros HV. induction xs as [|x xs IH]; intros Y; cbn [rd_cell]; [exists Y; repeat split; auto; contradiction|]. cbn [Threads.run].
  destruct (IH (fun x' => if kX_dec N x' x then M (loc_ (VX x) i) else Y x')) as (Y' & -> & H1 & H2). exists Y'. split; [reflexivity|]. split.
  - intros x' Hx. destruct (in_dec (kX_dec N) x' xs) as [Hi|Hi]; [apply H1; assumption|]. destruct Hx as [<-|Hx]; [|contradiction].
    rewrite H2 by exact Hi. destruct (kX_dec N x x); [|contradiction]. apply HV.
  - intros x' Hx. rewrite H2 by (intros Hi; apply Hx; right; exact Hi). destruct (kX_dec N x' x) as [->|]; [|reflexivity]. exfalso. apply Hx. left. reflexivity.
Qed.
Lemma run_rd_snaps si i qs kont M m : Vw M m -> forall Q, exists Q', run (rd_snaps S N K P0 sw k si i qs Q kont) M = run (kont Q') M /\
  (forall q, In q qs -> Q' q = m (VQ q si) i) /\ (forall q, ~ In q qs -> Q' q = Q q).
Proof.
  intros HV. induction qs as [|x xs IH]; intros Y; cbn [rd_snaps]; [exists Y; repeat split; auto; contradiction|]. cbn [Threads.run].
  destruct (IH (fun x' => if kQ_dec N x' x then M (loc_ (VQ x si) i) else Y x')) as (Y' & -> & H1 & H2). exists Y'. split; [reflexivity|]. split.
  - intros x' Hx. destruct (in_dec (kQ_dec N) x' xs) as [Hi|Hi]; [apply H1; assumption|]. destruct Hx as [<-|Hx]; [|contradiction].
    rewrite H2 by exact Hi. destruct (kQ_dec N x x); [|contradiction]. apply HV.
  - intros x' Hx. rewrite H2 by (intros Hi; apply Hx; right; exact Hi). destruct (kQ_dec N x' x) as [->|]; [|reflexivity]. exfalso. apply Hx. left. reflexivity.
Qed.

(** *** Steps that may be exchanged *)
Definition meq (a b : kmem) : Prop := forall v i, a v i = b v i.
Section Commute.
Context {A B : Type}.
Variable f : kmem -> A -> kmem.
Variable g : kmem -> B -> kmem.
Variable PA : A -> Prop.
Variable PB : B -> Prop.
Hypothesis Hf : forall a b x, PA x -> meq a b -> meq (f a x) (f b x).
Hypothesis Hg : forall a b y, PB y -> meq a b -> meq (g a y) (g b y).
Hypothesis Hc : forall m x y, PA x -> PB y -> meq (f (g m y) x) (g (f m x) y).
Lemma fold_meq_f l a b : (forall x, In x l -> PA x) -> meq a b -> meq (fold_left f l a) (fold_left f l b).
Proof. revert a b. induction l as [|x l IH]; intros a b Hl H; cbn; [exact H|]. apply IH; [intros; apply Hl; right; assumption|]. apply Hf; [apply Hl; left; reflexivity|exact H]. Qed.
Lemma fold_meq_g l a b : (forall x, In x l -> PB x) -> meq a b -> meq (fold_left g l a) (fold_left g l b).
Proof. revert a b. induction l as [|x l IH]; intros a b Hl H; cbn; [exact H|]. apply IH; [intros; apply Hl; right; assumption|]. apply Hg; [apply Hl; left; reflexivity|exact H]. Qed.
Lemma fold_one l m y : (forall x, In x l -> PA x) -> PB y -> meq (fold_left f l (g m y)) (g (fold_left f l m) y).
Proof.
  intros Hl Hy. revert m. induction l as [|x l IH]; intros m; cbn; [intros v i; reflexivity|].
  intros v i. rewrite (fold_meq_f l _ _ (fun x H => Hl x (or_intror H)) (Hc m x y (Hl x (or_introl eq_refl)) Hy) v i). apply IH. intros; apply Hl; right; assumption.
Qed.
Lemma fold_commute l l' m : (forall x, In x l -> PA x) -> (forall x, In x l' -> PB x) -> meq (fold_left f l (fold_left g l' m)) (fold_left g l' (fold_left f l m)).
Proof.
  intros Hl. revert m. induction l' as [|y l' IH]; intros m Hl'; cbn; [intros v i; reflexivity|]. intros v i. rewrite (IH (g m y) (fun x H => Hl' x (or_intror H)) v i).
  apply fold_meq_g; [intros; apply Hl'; right; assumption|]. apply fold_one; [exact Hl|apply Hl'; left; reflexivity].
Qed.
End Commute.
Lemma setm_meq a b v i x y : x = y -> meq a b -> meq (setm a v i x) (setm b v i y).
Proof. intros <- H w j. unfold StagKernel.setm. destruct (kvar_dec S N w v); [destruct (j =? i)%Z; [reflexivity|apply H]|apply H]. Qed.
Lemma setm_comm m v i x w j y : v <> w -> meq (setm (setm m v i x) w j y) (setm (setm m w j y) v i x).
Proof.
  intros Hn u l. unfold StagKernel.setm. destruct (kvar_dec S N u w) as [E|E]; destruct (kvar_dec S N u v) as [F|F]; try reflexivity.
  exfalso. apply Hn. congruence.
Qed.
Lemma setm_diff m v i x w j : v <> w -> setm m v i x w j = m w j.
Proof. intros Hn. unfold StagKernel.setm. destruct (kvar_dec S N w v) as [E|E]; [exfalso; apply Hn; congruence|reflexivity]. Qed.
Lemma meq_trans a b c : meq a b -> meq b c -> meq a c.
Proof. intros H1 H2 v i. rewrite H1. apply H2. Qed.

(** *** Forward *)
Section OneCell.
Variables (g : kgp) (r : list Z) (p : pt) (A : bool).
Hypothesis Hg : In g (kgrp N A).
Notation i := (idx shape p).
(** The tag of the region agrees with the tests of the thread. *)
Hypothesis Htag : forall d, (d < nd)%nat -> spml pml0 pml1 (g_h g d) p d = negb (reg_at r d =? 1)%Z.

Lemma run_terms es : (forall e, In e es -> In e (g_E g)) -> forall T kont M m, Vw M m ->
  exists M', run (g_terms S N K P0 pml0 pml1 sw k g p es T kont) M = run (kont (fst (fold_left (f_term S N K P0 r p) es (T, m)))) M' /\
    Vw M' (snd (fold_left (f_term S N K P0 r p) es (T, m))).
Proof.
  induction es as [|e es IH]; intros He T kont M m HV; [exists M; split; [reflexivity|exact HV]|].
  cbn [g_terms fold_left].
  assert (HeE : In e (allE S)).
  { apply (Permutation_in _ (Permutation_sym (ko_E S N nd Hk))). apply in_flat_map. exists g. split; [|apply He; left; reflexivity].
    apply in_or_app. destruct A; [left|right]; exact Hg. }
  pose proof (ok_dim S nd Sok e HeE) as Hd.
  specialize (IH (fun e' H => He e' (or_intror H))).
  match goal with |- context [srd_st S N K P0 sw k ?h ?v ?i0 ?s ?ko] => destruct (run_srd_st h v i0 s ko M m HV) as (W & -> & HW) end.
  cbv zeta beta.
  assert (E0 : kdiff S K P0 (eh S e (edim S e)) (edim S e) W
             = kdiff S K P0 (eh S e (edim S e)) (edim S e) (fun o => m (VX (esrc S e)) (i + o * stride shape (edim S e))%Z))
    by (apply kdiff_ext, HW).
  rewrite E0, (Htag _ Hd). cbn [f_term]. cbv zeta. destruct (reg_at r (edim S e) =? 1)%Z; cbn [negb].
  - apply (IH _ kont M m HV).
  - cbn [Threads.run]. rewrite (HV (VM e) i). apply IH. apply Vw_put, HV.
Qed.
Lemma run_snaps fq si T qs : forall M m, Vw M m ->
  Vw (run (g_snaps S N K P0 U sw k fq si i T qs) M) (fold_left (fun m q => if fq q then setm m (VQ q si) i (n_sto U q T) else m) qs m).
Proof.
  induction qs as [|q qs IH]; intros M m HV; [exact HV|]. cbn [g_snaps fold_left]. destruct (fq q); [|apply IH, HV].
  cbn [Threads.run]. apply IH, Vw_put, HV.
Qed.
Lemma run_upd T xs : forall M m, Vw M m ->
  Vw (run (g_upd S N K P0 U sw k i T xs) M) (fold_left (fun m x => setm m (VX x) i (m (VX x) i + n_inc U x T i)) xs m).
Proof.
  induction xs as [|x xs IH]; intros M m HV; [exact HV|]. cbn [g_upd fold_left]. cbn [Threads.run]. rewrite (HV (VX x) i). apply IH, Vw_put, HV.
Qed.
Lemma run_fcell oQ fq si M m : Vw M m ->
  Vw (run (g_fcell S N K P0 oQ U pml0 pml1 sw k fq si (g, p)) M) (f_cell S N K P0 U fq si m (g, (r, p))).
Proof.
  intros HV. unfold g_fcell, f_cell. match goal with |- context [g_terms S N K P0 pml0 pml1 sw k g p ?es ?T ?ko] =>
    destruct (run_terms es (fun e H => H) T ko M m HV) as (M' & -> & HV') end.
  destruct (fold_left (f_term S N K P0 r p) (g_E g) (fun _ => 0, m)) as [T m1]. cbn [fst snd] in *. destruct oQ; rewrite run_bind.
  - eapply Vw_ext; [|apply run_snaps, run_upd, HV']. intros v j. apply (fold_commute
      (fun m q => if fq q then setm m (VQ q si) i (n_sto U q T) else m) (fun m x => setm m (VX x) i (m (VX x) i + n_inc U x T i)) (fun _ => True) (fun _ => True)); auto.
    + intros a b q _ H. destruct (fq q); [apply setm_meq; auto|exact H].
    + intros a b x _ H. apply setm_meq; [rewrite H; reflexivity|exact H].
    + intros m0 q x _ _. destruct (fq q); [|intros v0 i0; reflexivity].
      eapply meq_trans; [apply setm_comm; discriminate|]. apply setm_meq; [|intros v0 i0; reflexivity]. rewrite setm_diff by discriminate. reflexivity.
  - apply run_upd, run_snaps, HV'.
Qed.

(** *** Backward *)
Lemma grpX_srcE x e : In x (g_X g) -> In e (srcE S x) -> In e (allE S) /\ esrcb S e x = true /\ (edim S e < nd)%nat.
Proof.
  intros Hx He. apply filter_In in He. destruct He as [He Eb]. split; [exact He|]. split; [exact Eb|]. apply (ok_dim S nd Sok e He).
Qed.
Lemma run_bsum es : (forall e, In e es -> In e (allE S) /\ (edim S e < nd)%nat) -> forall kont M m, Vw M m ->
  run (g_bsum S N K P0 U pml0 pml1 sw k g p es kont) M = run (kont (sumf es (fun e =>
    let d := edim S e in
    let h := eh S e d in
    let s := stride shape d in
    let y := coord d p in
    - kdiff S K P0 (negb h) d (fun o =>
        let j := (i + o * s)%Z in
        if (reg_at r d =? 1)%Z then n_tb U e (fun x' => m (VX x') j) j
        else n_tbp U e (sp_b P0 h d (y + o)%Z) (m (VM e) j) (fun x' => m (VX x') j) j)))) M.
Proof.
  induction es as [|e es IH]; intros He kont M m HV; [reflexivity|]. cbn [g_bsum sumf]. cbv zeta.
  destruct (He e (or_introl eq_refl)) as [HeE Hd]. specialize (IH (fun e' H => He e' (or_intror H))).
  match goal with |- context [srd_vars S N K P0 sw k ?h ?i0 ?s ?xs ?Y ?ko] => destruct (run_srd_vars h i0 s xs ko M m HV Y) as (Y' & -> & HY & _) end.
  rewrite (Htag _ Hd). 
  assert (Etb : forall o, rng (negb (eh S e (edim S e))) o -> forall j, n_tb U e (fun x' => Y' x' o) j
     = n_tb U e (fun x' => m (VX x') (i + o * stride shape (edim S e))%Z) j).
  { intros o Ho j. rewrite !(no_tb S N K U kc Hu e _ j HeE). apply sumf_ext. intros x Hx. rewrite HY by assumption. reflexivity. }
  destruct (reg_at r (edim S e) =? 1)%Z; cbn [negb].
  - rewrite (IH _ M m HV). cbv beta. match goal with |- run (kont (- ?a + _)) _ = run (kont (- ?b + _)) _ => assert (E : a = b); [apply kdiff_ext|rewrite E; reflexivity] end. intros o Ho. apply Etb, Ho.
  - match goal with |- context [srd_st S N K P0 sw k ?h ?v ?i0 ?s ?ko] => destruct (run_srd_st h v i0 s ko M m HV) as (W & -> & HW) end.
    rewrite (IH _ M m HV). cbv beta. match goal with |- run (kont (- ?a + _)) _ = run (kont (- ?b + _)) _ => assert (E : a = b); [apply kdiff_ext|rewrite E; reflexivity] end. intros o Ho. rewrite !(no_tbp S N K U kc Hu e _ _ _ _ HeE), Etb, HW by exact Ho. reflexivity.
Qed.
Lemma run_bX xs : (forall x, In x xs -> In x (g_X g)) -> forall M m, Vw M m ->
  Vw (run (g_bX S N K P0 U pml0 pml1 sw k g p xs) M) (fold_left (fun m x => setm m (VX x) i (m (VX x) i + b_sum S N K P0 U m r p x)) xs m).
Proof.
  induction xs as [|x xs IH]; intros Hx M m HV; [exact HV|]. cbn [g_bX fold_left]. cbv zeta.
  rewrite (run_bsum (srcE S x)) with (m := m); [|intros e He; apply (grpX_srcE x e) in He; [tauto|apply Hx; left; reflexivity]|exact HV].
  cbn [Threads.run]. rewrite (HV (VX x) i). apply IH; [intros y Hy; apply Hx; right; exact Hy|]. apply Vw_put, HV.
Qed.
Lemma run_bmem dst es : (forall e, In e es -> In e (g_E g)) -> forall M m, Vw M m ->
  Vw (run (g_bmem S N K P0 U pml0 pml1 sw k dst g p es) M) (fold_left (b_mem S N K P0 U dst r p) es m).
Proof.
  induction es as [|e es IH]; intros He M m HV; [exact HV|]. cbn [g_bmem fold_left]. cbv zeta. specialize (IH (fun e' H => He e' (or_intror H))).
  assert (HeE : In e (allE S)).
  { apply (Permutation_in _ (Permutation_sym (ko_E S N nd Hk))). apply in_flat_map. exists g. split; [|apply He; left; reflexivity].
    apply in_or_app. destruct A; [left|right]; exact Hg. }
  pose proof (ok_dim S nd Sok e HeE) as Hd. unfold b_mem at 2. rewrite (Htag _ Hd), negb_involutive. destruct (kguard N e && (reg_at r (edim S e) =? 1)%Z); [apply IH, HV|].
  cbn [Threads.run]. match goal with |- context [rd_cell S N K P0 sw k ?i0 ?xs ?Y ?ko] => destruct (run_rd_cell i0 xs ko M m HV Y) as (Y' & -> & HY & _) end.
  cbn [Threads.run]. apply IH. rewrite (HV (VM e) i).
  assert (E : n_mem U e (sp_a P0 (eh S e (edim S e)) (edim S e) (coord (edim S e) p)) (m (VM e) i) Y' i
            = n_mem U e (sp_a P0 (eh S e (edim S e)) (edim S e) (coord (edim S e) p)) (m (VM e) i) (fun x => m (VX x) i) i).
  { rewrite !(no_mem S N K U kc Hu e _ _ _ _ HeE). f_equal. f_equal. rewrite !(no_tb S N K U kc Hu e _ _ HeE). apply sumf_ext. intros x Hx. rewrite HY by exact Hx. reflexivity. }
  rewrite E. apply Vw_put, HV.
Qed.
Lemma run_bgrad fm sr si qs : (forall q, In q qs -> In q (g_M g)) -> forall M m, Vw M m ->
  Vw (run (g_bgrad S N K P0 U sw k fm sr si g p qs) M) (fold_left (b_grad S N K U fm (ofZ K sr) si i) qs m).
Proof.
  induction qs as [|q qs IH]; intros Hq M m HV; [exact HV|]. cbn [g_bgrad fold_left]. cbv zeta. specialize (IH (fun q' H => Hq q' (or_intror H))).
  unfold b_grad at 2. destruct (fm q); [|apply IH, HV]. cbn [Threads.run].
  match goal with |- context [rd_cell S N K P0 sw k ?i0 ?xs ?Y ?ko] => destruct (run_rd_cell i0 xs ko M m HV Y) as (Y' & -> & HY & _) end.
  match goal with |- context [rd_snaps S N K P0 sw k ?si ?i0 ?xs ?Y ?ko] => destruct (run_rd_snaps si i0 xs ko M m HV Y) as (Q' & -> & HQ & _) end.
  cbn [Threads.run]. apply IH. rewrite (HV (VG q) i).
  rewrite (no_gm S N K U kc Hu A g q Y' (fun x => m (VX x) i) Q' (fun q => m (VQ q si) i) (ofZ K sr) Hg (Hq q (or_introl eq_refl)) HY HQ). apply Vw_put, HV.
Qed.
Lemma run_bAcell fm sr si M m : Vw M m ->
  Vw (run (g_bAcell S N K P0 U pml0 pml1 sw k fm sr si (g, p)) M) (bA_cell S N K P0 U fm sr si m (g, (r, p))).
Proof. intros HV. unfold g_bAcell, bA_cell. rewrite !run_bind. apply run_bgrad; [auto|]. apply run_bmem; [auto|]. apply run_bX; auto. Qed.

Lemma grpE_all e : In e (g_E g) -> In e (allE S).
Proof.
  intros He. apply (Permutation_in _ (Permutation_sym (ko_E S N nd Hk))). apply in_flat_map. exists g. split; [|exact He].
  apply in_or_app. destruct A; [left|right]; exact Hg.
Qed.
Lemma b_mem_meq dst a b e : In e (g_E g) -> meq a b -> meq (b_mem S N K P0 U dst r p a e) (b_mem S N K P0 U dst r p b e).
Proof.
  intros Hi H. apply grpE_all in Hi. unfold b_mem. cbv zeta. destruct (kguard N e && (reg_at r (edim S e) =? 1)%Z); [exact H|].
  apply setm_meq; [|exact H]. rewrite !(no_mem S N K U kc Hu e _ _ _ _ Hi), (H (VM e)). f_equal. f_equal. rewrite !(no_tb S N K U kc Hu e _ _ Hi). apply sumf_ext. intros x _. rewrite H. reflexivity.
Qed.
Lemma b_grad_meq fm sr si a b q : In q (g_M g) -> meq a b -> meq (b_grad S N K U fm sr si i a q) (b_grad S N K U fm sr si i b q).
Proof.
  intros Hi H. unfold b_grad. destruct (fm q); [|exact H]. apply setm_meq; [|exact H]. rewrite H. f_equal. apply (no_gm S N K U kc Hu A g q); auto.
Qed.
Lemma b_mem_grad fm sr si m e q : In e (g_E g) -> In q (g_M g) ->
  meq (b_mem S N K P0 U VM r p (b_grad S N K U fm sr si i m q) e) (b_grad S N K U fm sr si i (b_mem S N K P0 U VM r p m e) q).
Proof.
  intros He Hq. apply grpE_all in He. unfold b_mem, b_grad. cbv zeta. destruct (kguard N e && (reg_at r (edim S e) =? 1)%Z); [intros v j; reflexivity|].
  destruct (fm q); [|intros v j; reflexivity]. eapply meq_trans; [apply setm_comm; discriminate|]. apply setm_meq.
  - reflexivity.
  - apply setm_meq; [|intros v j; reflexivity]. reflexivity.
Qed.
Lemma run_bBcell oM fm sr si M m : Vw M m ->
  Vw (run (g_bBcell S N K P0 oM U pml0 pml1 sw k fm sr si (g, p)) M) (bB_cell S N K P0 U fm sr si m (g, (r, p))).
Proof.
  intros HV. unfold g_bBcell, bB_cell. rewrite run_bind. apply run_bX; [auto|]. destruct oM; rewrite run_bind.
  - eapply Vw_ext; [|apply run_bgrad, run_bmem, HV; auto]. intros v j. symmetry.
    apply (fold_commute (b_mem S N K P0 U VM r p) (b_grad S N K U fm (ofZ K sr) si i) (fun e => In e (g_E g)) (fun q => In q (g_M g))); auto.
    + intros a b x. apply b_mem_meq.
    + intros a b x. apply b_grad_meq.
    + intros m0 x y. apply b_mem_grad.
  - apply run_bmem; [auto|]. apply run_bgrad; auto.
Qed.
End OneCell.
End SGCell.
