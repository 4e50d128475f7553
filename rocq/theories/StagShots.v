(** * A batch of shots of a staggered-grid propagator gives what the shots give one by one. *)
From Coq Require Import List ZArith QArith Lia Bool Ring.
From Verif Require Import Ops Sums Grid Stencil ScalarModel ScalarRefine Param ShotsModel Shots Stag StagAdj StagKernel StagCell
  StagParam StagShotsModel.
Import ListNotations.
Local Open Scope K_scope.

Lemma bsh_bunsh {A} n k (a : Z -> A) i : bsh n k (bunsh n k a) i = a i.
Proof. unfold bsh, bunsh. f_equal. lia. Qed.
Lemma bsh_bstack {A} n k (a : Z -> Z -> A) i : (0 <= i < n)%Z -> bsh n k (bstack n a) i = a k i.
Proof.
  intros Hi. unfold bsh, bstack. f_equal.
  - rewrite Z.div_add_l by lia. rewrite Z.div_small by lia. lia.
  - rewrite Z.add_comm, Z.mod_add by lia. apply Z.mod_small. lia.
Qed.

(** ** Interleaved actions on global memory *)
Section Abs.
Variable S : sys.
Variable N : kern S.
Variable K : ops.
Hypothesis Kr : is_ring K.
Add Ring KRing : Kr.
Variable P0 : spar S K.
Variable NS : Z.
Variable cnt : sC S -> Z.
Hypothesis Hcnt : forall c, (0 <= cnt c)%Z.
Notation n := (prodZ (sp_shape P0)).
Notation kvar := (svar (sX S) (sE S) (kQ N) (kM N)).
Notation mem := (kmem S N K * krec S K)%type.
Notation shots := (zrange 0 NS).

Definition win (i : Z) : Prop := (0 <= i < n)%Z.
Definition nonG (v : kvar) : Prop := match v with VG _ => False | _ => True end.
Definition allv (v : kvar) : Prop := True.

(** Equal memories in the block of a shot. *)
Definition peq (W : kvar -> Prop) (a b : mem) : Prop :=
  (forall v i, W v -> win i -> fst a v i = fst b v i) /\ (forall t c, snd a t c = snd b t c).

Lemma peq_trans W a b c : peq W a b -> peq W b c -> peq W a c.
Proof. intros [H1 H2] [H3 H4]. split; intros; [rewrite H1 by auto; auto|rewrite H2; auto]. Qed.
Lemma peq_refl W a : peq W a a.
Proof. split; auto. Qed.
Lemma peq_sym W a b : peq W a b -> peq W b a.
Proof. intros [H1 H2]. split; intros; symmetry; auto. Qed.
Lemma peq_nonG W a b : peq allv a b -> peq W a b.
Proof. intros [H1 H2]. split; auto. intros. apply H1; auto. exact I. Qed.

Lemma peq_prrel W a b : peq W a b <-> prrel S N K K eq P0 W (fun _ => True) a b.
Proof.
  split; intros [H1 H2]; split.
  - intros v Hv i Hi. apply H1; auto.
  - intros t c _. apply Forall2_eq. apply H2.
  - intros v i Hv Hi. apply (H1 v Hv i Hi).
  - intros t c. apply Forall2_eq. apply (H2 t c I).
Qed.

(** Memory with the gradients set to zero. *)
Definition wipe (a : mem) : mem := (fun v => match v with VG _ => fun _ => 0 | _ => fst a v end, snd a).

Lemma wipe_nonG a : peq nonG (wipe a) a.
Proof. split; auto. intros v i Hv Hi. destruct v; cbn in *; try reflexivity. contradiction. Qed.
Lemma wipe_all a b : peq nonG a b -> peq allv (wipe a) (wipe b).
Proof. intros [H1 H2]. split; auto. intros v i _ Hi. destruct v; cbn; try reflexivity; apply H1; auto; exact I. Qed.

Context {A : Type}.
Variable blk : kM N -> Z -> Z.
Variable act : Z -> mem -> A -> mem.
Variable aok : A -> Prop.
Hypothesis Alocal : forall W k a b x, (W = nonG \/ W = allv) -> (0 <= k < NS)%Z -> aok x -> peq W a b -> peq W (act k a x) (act k b x).
Hypothesis Aframe : forall k a x, (0 <= k < NS)%Z -> aok x -> forall v j, ~ win j -> fst (act k a x) v j = fst a v j.
Hypothesis Alen : forall k a x, (forall t c, length (snd a t c) = Z.to_nat (cnt c)) ->
  (0 <= k < NS)%Z -> forall t c, length (snd (act k a x) t c) = Z.to_nat (cnt c).
Hypothesis Aadd : forall k a x, (0 <= k < NS)%Z -> aok x -> forall q i, win i ->
  fst (act k a x) (VG q) i = fst a (VG q) i + fst (act k (wipe a) x) (VG q) i.
Notation view := (gview S N K P0 cnt blk).
Definition aexec (G : gmem S N K) (x : Z * A) : gmem S N K :=
  gput S N K P0 cnt blk (fst x) (act (fst x) (view (fst x) G) (snd x)) G.

Lemma aexec_own k G x : (0 <= k < NS)%Z -> peq allv (view k (aexec G (k, x))) (act k (view k G) x).
Proof.
  intros Hk. split.
  - intros v i _ Hi. cbn [aexec gview gput fst snd G_m]. apply bsh_bunsh.
  - intros t c. cbn [aexec gview gput fst snd G_r]. apply row_put. apply Alen; [|exact Hk].
    intros u c'. cbn. apply row_length. apply Hcnt.
Qed.

(** Other blocks are left alone. *)
Lemma block_other (a : arr K) b b' i (g : arr K) : b <> b' -> win i -> (forall j, ~ win j -> a j = bsh n b g j) ->
  bunsh n b a (b' * n + i)%Z = g (b' * n + i)%Z.
Proof.
  unfold win. intros Hb Hi H. unfold bunsh. rewrite H.
  - unfold bsh. f_equal. lia.
  - intros Hc. apply Hb. nia.
Qed.

Lemma aexec_other k k' G x : (0 <= k < NS)%Z -> aok x -> k <> k' -> peq nonG (view k' (aexec G (k, x))) (view k' G).
Proof.
  intros Hk Hx Hn. split.
  - intros v i Hv Hi. cbn [aexec gview gput fst snd G_m].
    assert (E : forall b, vblk S N blk b v = b) by (intros; destruct v; auto; contradiction). rewrite !E.
    apply block_other; auto. intros j Hj. rewrite (Aframe k (view k G) x Hk Hx v j Hj). cbn [gview fst]. rewrite E. reflexivity.
  - intros t c. cbn [aexec gview gput fst snd G_r]. apply row_put_other. exact Hn.
Qed.

Lemma aexec_buf k G x : (0 <= k < NS)%Z -> aok x -> forall q b i, win i ->
  G_m S N K (aexec G (k, x)) (VG q) (b * n + i)%Z =
  G_m S N K G (VG q) (b * n + i)%Z + (if (blk q k =? b)%Z then fst (act k (wipe (view k G)) x) (VG q) i else 0).
Proof.
  intros Hk Hx q b i Hi. cbn [aexec gput fst snd G_m vblk]. destruct (Z.eqb_spec (blk q k) b) as [<-|E].
  - unfold bunsh. replace (blk q k * n + i - blk q k * n)%Z with i by lia. rewrite Aadd by auto. reflexivity.
  - rewrite (block_other _ (blk q k) b i (G_m S N K G (VG q))); [ring|exact E|exact Hi|].
    intros j Hj. rewrite Aframe by auto. reflexivity.
Qed.

(** [G] after some actions, [fam k] the memory of shot [k] alone after its actions. *)
Definition ainv (B0 : kM N -> arr K) (fam0 : Z -> mem) (G : gmem S N K) (fam : Z -> mem) : Prop :=
  (forall k, (0 <= k < NS)%Z -> peq nonG (view k G) (fam k)) /\
  forall q b i, win i ->
    G_m S N K G (VG q) (b * n + i)%Z = B0 q (b * n + i)%Z
      + sumf (filter (fun k => blk q k =? b)%Z shots) (fun k => fst (fam k) (VG q) i - fst (fam0 k) (VG q) i).

Lemma sum_fset (fam fam0 : Z -> mem) q k m' b i : (0 <= k < NS)%Z ->
  sumf (filter (fun k => blk q k =? b)%Z shots) (fun j => fst (fset fam k m' j) (VG q) i - fst (fam0 j) (VG q) i) =
  sumf (filter (fun k => blk q k =? b)%Z shots) (fun j => fst (fam j) (VG q) i - fst (fam0 j) (VG q) i)
  + (if (blk q k =? b)%Z then fst m' (VG q) i - fst (fam k) (VG q) i else 0).
Proof.
  intros Hk.
  assert (E : sumf (filter (fun k => blk q k =? b)%Z shots) (fun j => if (j =? k)%Z then fst m' (VG q) i - fst (fam k) (VG q) i else 0)
     = if (blk q k =? b)%Z then fst m' (VG q) i - fst (fam k) (VG q) i else 0).
  { destruct (blk q k =? b)%Z eqn:Eb.
    - rewrite (sumf_single K Kr _ k).
      + rewrite Z.eqb_refl. reflexivity.
      + apply NoDup_filter. apply NoDup_zrange.
      + apply filter_In. split; [apply In_zrange; exact Hk|exact Eb].
      + intros x _ Hx. destruct (Z.eqb_spec x k); [congruence|reflexivity].
    - apply (sumf_zero K Kr). intros x Hx. apply filter_In in Hx. destruct Hx as [_ Hx].
      destruct (Z.eqb_spec x k); [subst; congruence|reflexivity]. }
  rewrite <- E, <- (sumf_add K Kr). apply sumf_ext. intros j _. unfold fset.
  destruct (Z.eqb_spec j k); [subst|]; ring.
Qed.

Lemma ainv_exec B0 fam0 G fam k x : (0 <= k < NS)%Z -> aok x -> ainv B0 fam0 G fam ->
  ainv B0 fam0 (aexec G (k, x)) (fset fam k (act k (fam k) x)).
Proof.
  intros Hk Hx [H1 H2]. split.
  - intros j Hj. unfold fset. destruct (Z.eqb_spec j k) as [->|Hn].
    + eapply peq_trans; [apply peq_nonG, aexec_own; exact Hk|]. apply Alocal; auto.
    + eapply peq_trans; [apply aexec_other; auto|]. apply H1. exact Hj.
  - intros q b i Hi. rewrite aexec_buf by assumption. rewrite H2 by exact Hi. rewrite sum_fset by exact Hk.
    destruct (blk q k =? b)%Z; [|ring].
    rewrite (Aadd k (fam k) x Hk Hx q i Hi).
    destruct (Alocal allv k _ _ x (or_intror eq_refl) Hk Hx (wipe_all _ _ (H1 k Hk))) as [E _].
    rewrite (E (VG q) i I Hi). ring.
Qed.

(** One call on the batch. *)
Lemma batch_acall prog l G fam :
  (forall x, In x prog -> aok x) -> interleaves NS (fun _ => prog) l ->
  (forall k, (0 <= k < NS)%Z -> peq nonG (view k G) (fam k)) ->
  ainv (fun q => G_m S N K G (VG q)) fam (fold_left aexec l G) (fun k => fold_left (act k) prog (fam k)).
Proof.
  intros Hv [Hl Hp] Hi.
  set (B0 := fun q => G_m S N K G (VG q)).
  assert (X : ainv B0 fam (fold_left aexec l G)
                (fun k => fold_left (act k) (map snd (filter (fun x => fst x =? k)%Z l)) (fam k))).
  { apply (interleave_inv aexec act (ainv B0 fam) l G fam).
    - intros g fm j a Hin Hg. rewrite Forall_forall in Hl. specialize (Hl _ Hin). cbn in Hl. apply ainv_exec; auto.
      apply Hv. rewrite <- (Hp j Hl). apply in_map_iff. exists (j, a). split; [reflexivity|].
      apply filter_In. split; [exact Hin|]. cbn. apply Z.eqb_refl.
    - intros g fm fm' He [G1 G2]. split.
      + intros j Hj. rewrite <- He. auto.
      + intros q b i Hbi. rewrite G2 by exact Hbi. f_equal. apply sumf_ext. intros j _. rewrite He. reflexivity.
    - split; [exact Hi|]. intros q b i Hbi. rewrite (sumf_zero K Kr); [unfold B0; ring|]. intros; ring. }
  destruct X as [X1 X2]. split.
  - intros k Hk. rewrite <- (Hp k Hk). apply X1. exact Hk.
  - intros q b i Hbi. rewrite X2 by exact Hbi. f_equal. apply sumf_ext. intros k Hk. apply filter_In in Hk.
    destruct Hk as [Hk _]. apply In_zrange in Hk. rewrite (Hp k Hk). reflexivity.
Qed.

Lemma aexec_g l G : G_g S N K (fold_left aexec l G) = G_g S N K G.
Proof. revert G. induction l as [|x l IH]; intros G; [reflexivity|]. cbn [fold_left]. rewrite IH. reflexivity. Qed.

End Abs.

(** ** Actions of the kernels *)
Section Acts.
Variable S : sys.
Variable N : kern S.
Variable K : ops.
Hypothesis Kr : is_ring K.
Add Ring KRing2 : Kr.
Variable P : spar S K.
Variable U : knum S N K.
Notation shape := (sp_shape P).
Notation nd := (length shape).
Notation n := (prodZ shape).
Hypothesis HU : numrel S N K K eq n U U.
Hypothesis Sok : sys_ok S nd.
Hypothesis Nok : kern_ok S N nd.
Hypothesis Hsrc : forall c, Forall (fun l => (l < n)%Z) (sp_src P c).
Hypothesis Hrec : forall c, Forall (fun l => (l < n)%Z) (sp_rec P c).
Notation kvar := (svar (sX S) (sE S) (kQ N) (kM N)).
Notation cell := (grp S (kQ N) (kM N) * (list Z * pt))%type.
Notation mem := (kmem S N K * krec S K)%type.
Notation win := (win S K P).
Notation nonG := (nonG S N).
Notation allv := (allv S N).
Notation peq := (peq S N K P).
Notation mrel W := (mrel S N K K eq P W).

Lemma sprel_refl : sprel S K K eq P P.
Proof. split; reflexivity. Qed.

Definition saok (a : sact cell) : Prop := match a with SCell A _ c => cellok S N K P A c | _ => True end.

Lemma W_X W x : W = nonG \/ W = allv -> W (VX x). Proof. intros [-> | ->]; exact I. Qed.
Lemma W_M W e : W = nonG \/ W = allv -> W (VM e). Proof. intros [-> | ->]; exact I. Qed.
Lemma W_N W e : W = nonG \/ W = allv -> W (VN e). Proof. intros [-> | ->]; exact I. Qed.
Lemma W_Q W q si : W = nonG \/ W = allv -> W (VQ q si). Proof. intros [-> | ->]; exact I. Qed.

Lemma F2eq {A} (l : list A) : Forall2 eq l l.
Proof. apply Forall2_eq. reflexivity. Qed.

(** Outside of the window nothing changes. *)
Definition frame (m m' : kmem S N K) : Prop := forall v j, ~ win j -> m' v j = m v j.
Lemma frame_refl m : frame m m. Proof. intros v j _. reflexivity. Qed.
Lemma frame_trans m1 m2 m3 : frame m1 m2 -> frame m2 m3 -> frame m1 m3.
Proof. intros H1 H2 v j Hj. rewrite H2, H1 by exact Hj. reflexivity. Qed.
Lemma frame_setm m v i x : win i -> frame m (setm S N K m v i x).
Proof.
  intros Hi w j Hj. unfold setm. destruct (kvar_dec S N w v); [|reflexivity].
  destruct (Z.eqb_spec j i); [subst; contradiction|reflexivity].
Qed.
Lemma frame_fold {A} (l : list A) f : (forall m a, In a l -> frame m (f m a)) -> forall m, frame m (fold_left f l m).
Proof.
  induction l as [|a l IH]; intros H m; [apply frame_refl|]. cbn [fold_left].
  eapply frame_trans; [apply H; left; reflexivity|]. apply IH. intros; apply H. right; assumption.
Qed.

Lemma add_frame_n (wf : arr K) locs amps j : Forall (fun l => (l < n)%Z) locs -> ~ win j ->
  add_to_wavefield K wf locs amps j = wf j.
Proof.
  unfold StagShots.win. intros Hl Hj. unfold add_to_wavefield. revert wf amps.
  induction locs as [|l locs IH]; intros wf amps; [reflexivity|].
  destruct amps as [|x amps]; [reflexivity|]. inversion Hl as [|z zs Hl1 Hl2]; subst. cbn [combine fold_left fst snd].
  rewrite IH by assumption. destruct (Z.leb_spec 0 l); [|reflexivity].
  unfold upd. destruct (Z.eqb_spec j l); [lia|reflexivity].
Qed.
Lemma frame_k_add locs am m c : (forall c, Forall (fun l => (l < n)%Z) (locs c)) -> frame m (k_add S N K locs am m c).
Proof.
  intros Hl. unfold k_add. apply frame_fold. intros m1 x _ v j Hj. unfold seta.
  destruct (kvar_dec S N v (VX x)) as [->|_]; [|reflexivity]. apply add_frame_n; auto.
Qed.

Lemma f_terms_frame reg p : win (idx shape p) -> forall l T m, frame m (snd (fold_left (f_term S N K P reg p) l (T, m))).
Proof.
  intros Hi. induction l as [|e l IH]; intros T m; [apply frame_refl|]. cbn [fold_left].
  destruct (f_term S N K P reg p (T, m) e) as [T' m'] eqn:E. eapply frame_trans; [|apply IH].
  unfold f_term in E. destruct (reg_at reg (edim S e) =? 1)%Z; injection E as _ <-; [apply frame_refl|].
  apply frame_setm. exact Hi.
Qed.
Lemma f_cell_frame A fq si m c : cellok S N K P A c -> frame m (f_cell S N K P U fq si m c).
Proof.
  destruct c as [g [reg p]]. intros [_ Hp]. cbn [fst snd] in Hp. pose proof (cell_idx S K P _ _ Hp) as Hi. unfold f_cell.
  pose proof (f_terms_frame reg p Hi (g_E g) (fun _ => 0) m) as H.
  destruct (fold_left (f_term S N K P reg p) (g_E g) (fun _ => 0, m)) as [T m1]. cbn [snd] in H.
  eapply frame_trans; [exact H|]. eapply frame_trans; [|apply frame_fold; intros; apply frame_setm; exact Hi].
  apply frame_fold. intros m2 q _. destruct (fq q); [apply frame_setm; exact Hi|apply frame_refl].
Qed.
Lemma b_mem_frame dst reg p m e : win (idx shape p) -> frame m (b_mem S N K P U dst reg p m e).
Proof. intros Hi. unfold b_mem. destruct (_ && _); [apply frame_refl|apply frame_setm; exact Hi]. Qed.
Lemma b_grad_frame fm sr si i m q : win i -> frame m (b_grad S N K U fm sr si i m q).
Proof. intros Hi. unfold b_grad. destruct (fm q); [apply frame_setm; exact Hi|apply frame_refl]. Qed.
Lemma bA_cell_frame A fm sr si m c : cellok S N K P A c -> frame m (bA_cell S N K P U fm sr si m c).
Proof.
  destruct c as [g [reg p]]. intros [_ Hp]. cbn [fst snd] in Hp. pose proof (cell_idx S K P _ _ Hp) as Hi. unfold bA_cell.
  eapply frame_trans; [|apply frame_fold; intros; apply b_grad_frame; exact Hi].
  eapply frame_trans; [|apply frame_fold; intros; apply b_mem_frame; exact Hi].
  apply frame_fold; intros; apply frame_setm; exact Hi.
Qed.
Lemma bB_cell_frame A fm sr si m c : cellok S N K P A c -> frame m (bB_cell S N K P U fm sr si m c).
Proof.
  destruct c as [g [reg p]]. intros [_ Hp]. cbn [fst snd] in Hp. pose proof (cell_idx S K P _ _ Hp) as Hi. unfold bB_cell.
  eapply frame_trans; [|apply frame_fold; intros; apply frame_setm; exact Hi].
  eapply frame_trans; [|apply frame_fold; intros; apply b_mem_frame; exact Hi].
  apply frame_fold; intros; apply b_grad_frame; exact Hi.
Qed.

(** Gradients are only added to. *)
Definition gadd (D : kM N -> arr K) (m1 m2 : kmem S N K) : Prop :=
  mrel nonG m1 m2 /\ forall q i, win i -> m1 (VG q) i = D q i + m2 (VG q) i.

Lemma setm_G m v i x q j : nonG v -> setm S N K m v i x (VG q) j = m (VG q) j.
Proof. intros Hv. unfold setm. destruct (kvar_dec S N (VG q) v) as [<-|_]; [contradiction|reflexivity]. Qed.
Lemma seta_G m v a q : nonG v -> seta S N K m v a (VG q) = m (VG q).
Proof. intros Hv. unfold seta. destruct (kvar_dec S N (VG q) v) as [<-|_]; [contradiction|reflexivity]. Qed.

Lemma gadd_setm D m1 m2 v i x1 x2 : nonG v -> x1 = x2 -> gadd D m1 m2 -> gadd D (setm S N K m1 v i x1) (setm S N K m2 v i x2).
Proof.
  intros Hv Hx [H1 H2]. split; [apply setm_rel; auto|]. intros q j Hj. rewrite !setm_G by exact Hv. auto.
Qed.
Lemma gadd_fold D {A} (l : list A) f : (forall m1 m2 a, In a l -> gadd D m1 m2 -> gadd D (f m1 a) (f m2 a)) ->
  forall m1 m2, gadd D m1 m2 -> gadd D (fold_left f l m1) (fold_left f l m2).
Proof.
  induction l as [|a l IH]; intros H m1 m2 Hm; [exact Hm|]. cbn [fold_left]. apply IH.
  - intros; apply H; auto. right; assumption.
  - apply H; [left; reflexivity|exact Hm].
Qed.
Lemma gadd_k_add D locs am m1 m2 c : (forall c, Forall (fun l => (l < n)%Z) (locs c)) ->
  gadd D m1 m2 -> gadd D (k_add S N K locs am m1 c) (k_add S N K locs am m2 c).
Proof.
  intros Hl. unfold k_add. apply gadd_fold. intros a1 a2 x _ [H1 H2]. split.
  - apply seta_rel; [exact H1|]. intros _. apply (arel_add _ _ _ (oprel_eq K)); auto; [|apply F2eq]. apply H1. exact I.
  - intros q i Hi. rewrite !seta_G by exact I. auto.
Qed.
Lemma gadd_grad D fm sr si i q m1 m2 : win i -> gadd D m1 m2 ->
  gadd D (b_grad S N K U fm sr si i m1 q) (b_grad S N K U fm sr si i m2 q).
Proof.
  intros Hi [H1 H2]. unfold b_grad. destruct (fm q); [|split; assumption]. split.
  - apply setm_rel; [exact H1|]. intros [].
  - intros q' j Hj. unfold setm. destruct (kvar_dec S N (VG q') (VG q)) as [E|_]; [|auto].
    injection E as ->. destruct (Z.eqb_spec j i) as [->|_]; [|auto]. rewrite (H2 q i Hi).
    rewrite (nr_gm _ _ _ _ _ _ _ _ HU q (fun x => m1 (VX x) i) (fun x => m2 (VX x) i) (fun q => m1 (VQ q si) i) (fun q => m2 (VQ q si) i) sr sr).
    + ring.
    + intros x. apply (H1 (VX x) I i Hi).
    + intros q0. apply (H1 (VQ q0 si) I i Hi).
    + reflexivity.
Qed.
Lemma gadd_mem D A g dst reg p e m1 m2 : In g (kgrp N A) -> dom S K P (g_h g) p = true -> In e (g_E g) -> (forall e, nonG (dst e)) ->
  gadd D m1 m2 -> gadd D (b_mem S N K P U dst reg p m1 e) (b_mem S N K P U dst reg p m2 e).
Proof.
  intros Hg Hp He Hd [H1 H2]. split.
  - apply (b_mem_rel S N K K eq P P sprel_refl U U HU Sok Nok nonG (fun _ => I) (fun _ => I) A g); auto.
  - intros q i Hi. unfold b_mem. destruct (_ && _); [auto|]. rewrite !setm_G by apply Hd. auto.
Qed.
Lemma gadd_var D A g reg p x m1 m2 : In g (kgrp N A) -> dom S K P (g_h g) p = true -> In x (g_X g) -> gadd D m1 m2 ->
  gadd D (setm S N K m1 (VX x) (idx shape p) (m1 (VX x) (idx shape p) + b_sum S N K P U m1 reg p x))
         (setm S N K m2 (VX x) (idx shape p) (m2 (VX x) (idx shape p) + b_sum S N K P U m2 reg p x)).
Proof.
  intros Hg Hp Hx H. apply gadd_setm; [exact I| |exact H]. destruct H as [H1 H2]. f_equal.
  - apply (H1 (VX x) I). apply (cell_idx S K P _ _ Hp).
  - apply (b_sum_rel S N K K eq (oprel_eq K) P P sprel_refl U U HU Sok Nok nonG (fun _ => I) (fun _ => I) A g); auto.
Qed.
Lemma gadd_bA D A fm sr si m1 m2 c : cellok S N K P A c -> gadd D m1 m2 ->
  gadd D (bA_cell S N K P U fm sr si m1 c) (bA_cell S N K P U fm sr si m2 c).
Proof.
  destruct c as [g [reg p]]. intros [Hg Hp] H. cbn [fst snd] in Hg, Hp. unfold bA_cell.
  pose proof (cell_idx S K P _ _ Hp) as Hi.
  apply gadd_fold; [intros; apply gadd_grad; auto|].
  apply gadd_fold; [intros; apply (gadd_mem D A g); auto; intros; exact I|].
  apply gadd_fold; [|exact H]. intros; apply (gadd_var D A g); auto.
Qed.
Lemma gadd_bB D A fm sr si m1 m2 c : cellok S N K P A c -> gadd D m1 m2 ->
  gadd D (bB_cell S N K P U fm sr si m1 c) (bB_cell S N K P U fm sr si m2 c).
Proof.
  destruct c as [g [reg p]]. intros [Hg Hp] H. cbn [fst snd] in Hg, Hp. unfold bB_cell.
  pose proof (cell_idx S K P _ _ Hp) as Hi.
  apply gadd_fold; [intros; apply (gadd_var D A g); auto|].
  apply gadd_fold; [intros; apply (gadd_mem D A g); auto; intros; exact I|].
  apply gadd_fold; [|exact H]. intros; apply gadd_grad; auto.
Qed.
Lemma gadd_swap D m1 m2 : gadd D m1 m2 -> gadd D (kswap S N K m1) (kswap S N K m2).
Proof.
  intros [H1 H2]. split; [|exact H2]. apply kswap_rel; auto; intros; exact I.
Qed.
Lemma gadd_wipe (a : mem) : gadd (fun q => fst a (VG q)) (fst a) (fst (wipe S N K a)).
Proof.
  split.
  - intros v Hv i Hi. symmetry. apply (proj1 (wipe_nonG S N K P a) v i Hv Hi).
  - intros q i Hi. cbn. ring.
Qed.

Lemma record_length m locs old c : length old = length locs -> length (k_rec S N K m locs old c) = length locs.
Proof. intros H. unfold k_rec, record_from_wavefield. rewrite map_length, combine_length, H. lia. Qed.
Lemma kput_length r t cs f (len : sC S -> nat) : (forall t c, length (r t c) = len c) ->
  (forall c old, length old = len c -> length (f c old) = len c) -> forall u c, length (kput S K r t cs f u c) = len c.
Proof. intros H Hf u c. unfold kput. destruct (_ && _); auto. Qed.

(** Forward actions. *)
Section F.
Variables (fq : kQ N -> bool) (sr : Z) (f : krec S K).
Notation act := (sfact S N K P U fq sr f).

Lemma sfact_local W a b x : (W = nonG \/ W = allv) -> saok x -> peq W a b -> peq W (act a x) (act b x).
Proof.
  intros HW Hx H. apply peq_prrel in H. apply peq_prrel. destruct H as [Hm Hr].
  pose proof (W_X W) as WX. pose proof (W_M W) as WM.
  destruct x as [A t|A t c|A t]; cbn [sfact]; split; cbn [fst snd]; auto.
  - apply kput_rel; [exact Hr|]. intros c o1 o2 _ Ho.
    apply (k_rec_rel S N K K eq (oprel_eq K) P W (fun x => WX x HW)); auto.
  - apply (f_cell_rel S N K K eq (oprel_eq K) P P sprel_refl U U HU Sok Nok W (fun x => WX x HW) (fun e => WM e HW) A); auto.
  - apply (fold_rel S N K K eq P W); [|exact Hm]. intros.
    apply (k_add_rel S N K K eq (oprel_eq K) P W (fun x => WX x HW)); auto. apply F2eq.
Qed.
Lemma sfact_frame a x : saok x -> frame (fst a) (fst (act a x)).
Proof.
  intros Hx. destruct x as [A t|A t c|A t]; cbn [sfact fst].
  - apply frame_refl.
  - apply (f_cell_frame A). exact Hx.
  - apply frame_fold. intros. apply frame_k_add. exact Hsrc.
Qed.
Lemma sfact_len (len : sC S -> nat) a x : (forall c, length (sp_rec P c) = len c) ->
  (forall t c, length (snd a t c) = len c) -> forall t c, length (snd (act a x) t c) = len c.
Proof.
  intros Hl Ha. destruct x as [A t|A t c|A t]; cbn [sfact snd]; auto.
  apply kput_length; [exact Ha|]. intros c old Ho. rewrite record_length; [apply Hl|rewrite Ho, Hl; reflexivity].
Qed.
(** The forward kernel leaves gradients alone. *)
Lemma f_terms_G reg p q : forall l T m, snd (fold_left (f_term S N K P reg p) l (T, m)) (VG q) = m (VG q).
Proof.
  induction l as [|e l IH]; intros T m; [reflexivity|]. cbn [fold_left].
  destruct (f_term S N K P reg p (T, m) e) as [T' m'] eqn:E. rewrite IH. unfold f_term in E.
  destruct (_ =? 1)%Z; injection E as _ <-; [reflexivity|]. unfold setm. destruct (kvar_dec _ _ _ _); [discriminate|reflexivity].
Qed.
Lemma sfact_G a x q : fst (act a x) (VG q) = fst a (VG q).
Proof.
  destruct x as [A t|A t c|A t]; cbn [sfact fst]; auto.
  - destruct c as [g [reg p]]. unfold f_cell.
    pose proof (f_terms_G reg p q (g_E g) (fun _ => 0) (fst a)) as H.
    destruct (fold_left (f_term S N K P reg p) (g_E g) (fun _ => 0, fst a)) as [T m1]. cbn [snd] in H. rewrite <- H.
    assert (E : forall l m, fold_left (fun m x => setm S N K m (VX x) (idx shape p) (m (VX x) (idx shape p) + n_inc U x T (idx shape p))) l m (VG q) = m (VG q)).
    { induction l as [|y l IH]; intros m; [reflexivity|]. cbn [fold_left]. rewrite IH. unfold setm. destruct (kvar_dec _ _ _ _); [discriminate|reflexivity]. }
    rewrite E.
    assert (E2 : forall l m, fold_left (fun m q => if fq q && (t mod sr =? 0)%Z then setm S N K m (VQ q (t / sr)%Z) (idx shape p) (n_sto U q T) else m) l m (VG q) = m (VG q)).
    { induction l as [|y l IH]; intros m; [reflexivity|]. cbn [fold_left]. rewrite IH. destruct (_ && _); [|reflexivity].
      unfold setm. destruct (kvar_dec _ _ _ _); [discriminate|reflexivity]. }
    apply E2.
  - assert (E : forall c m, k_add S N K (sp_src P) (f t) m c (VG q) = m (VG q)).
    { intros c m. unfold k_add. revert m. induction (cinX S c) as [|y l IH]; intros m; [reflexivity|]. cbn [fold_left]. rewrite IH.
      apply seta_G. exact I. }
    assert (E2 : forall l m, fold_left (k_add S N K (sp_src P) (f t)) l m (VG q) = m (VG q)).
    { induction l as [|y l IH]; intros m; [reflexivity|]. cbn [fold_left]. rewrite IH. apply E. }
    apply E2.
Qed.
Lemma sfact_add a x q i : fst (act a x) (VG q) i = fst a (VG q) i + fst (act (wipe S N K a) x) (VG q) i.
Proof. rewrite !sfact_G. cbn. ring. Qed.

Lemma sfprog_aok visA visB nt s0 x :
  (forall c, In c visA -> cellok S N K P true c) -> (forall c, In c visB -> cellok S N K P false c) ->
  In x (sfprog S N visA visB nt s0) -> saok x.
Proof.
  intros HA HB Hx. unfold sfprog in Hx. apply in_flat_map in Hx. destruct Hx as (t & _ & Hx). rewrite !in_app_iff, !in_map_iff in Hx.
  destruct Hx as [[<-|[]]|[(c & <- & Hc)|[[<-|[]]|[(c & <- & Hc)|[<-|[]]]]]]; cbn; auto.
Qed.

Lemma fold_cells A t : forall l a, fold_left act (map (SCell A t) l) a =
  (fold_left (f_cell S N K P U (fun q => fq q && (t mod sr =? 0)%Z) (t / sr)%Z) l (fst a), snd a).
Proof. induction l as [|c l IH]; intros [m r]; [reflexivity|]. cbn [map fold_left]. rewrite IH. reflexivity. Qed.

Lemma sfprog_forward visA visB nt s0 a :
  fold_left act (sfprog S N visA visB nt s0) a = k_forward S N K P U visA visB fq sr f nt s0 a.
Proof.
  unfold sfprog, k_forward. generalize (zrange s0 (s0 + nt)) as ts. intros ts. revert a.
  induction ts as [|t ts IH]; intros a; [reflexivity|]. cbn [flat_map fold_left].
  rewrite fold_left_app, IH. f_equal. rewrite !fold_left_app. cbn [fold_left]. rewrite !fold_cells.
  destruct a as [m r]. cbn [sfact fst snd f_body]. reflexivity.
Qed.
End F.

(** Backward actions. *)
Section B.
Variables (fm : kM N -> bool) (sr : Z) (gr : krec S K) (s0 : Z).
Notation act := (sbact S N K P U fm sr gr s0).

Definition stime (a : sact cell) : Z := match a with SRec _ t => t | SCell _ t _ => t | SInj _ t => t end.
Definition sbody (mr : mem) (a : sact cell) : mem :=
  let t := stime a in
  let fmt := fun q => fm q && (t mod sr =? 0)%Z in
  match a with
  | SRec A t => (fst mr, kput S K (snd mr) t (fun c => Bool.eqb (cA S c) A) (fun c old => k_rec S N K (fst mr) (sp_src P c) old c))
  | SCell A t c => ((if A then bA_cell S N K P U fmt sr (t / sr)%Z (fst mr) c
                     else bB_cell S N K P U fmt sr (t / sr)%Z (fst mr) c), snd mr)
  | SInj _ t => (fold_left (k_add S N K (sp_rec P) (gr t)) (allC S) (fst mr), snd mr)
  end.
Lemma sact_eq a x : act a x = if Z.odd (s0 - 1 - stime x) then mswap S N K (sbody (mswap S N K a) x) else sbody a x.
Proof. destruct x; reflexivity. Qed.

Lemma peq_swap W a b : (W = nonG \/ W = allv) -> peq W a b -> peq W (mswap S N K a) (mswap S N K b).
Proof.
  intros HW H. apply peq_prrel in H. apply peq_prrel. apply mswap_rel; auto; intros; [apply W_M|apply W_N]; exact HW.
Qed.
Lemma sbody_local W a b x : (W = nonG \/ W = allv) -> saok x -> peq W a b -> peq W (sbody a x) (sbody b x).
Proof.
  intros HW Hx H. apply peq_prrel in H. apply peq_prrel. destruct H as [Hm Hr].
  pose proof (W_X W) as WX. pose proof (W_M W) as WM.
  destruct x as [A t|A t c|A t]; cbn [sbody stime]; split; cbn [fst snd]; auto.
  - apply kput_rel; [exact Hr|]. intros c o1 o2 _ Ho.
    apply (k_rec_rel S N K K eq (oprel_eq K) P W (fun x => WX x HW)); auto.
  - destruct A.
    + apply (bA_cell_rel S N K K eq (oprel_eq K) P P sprel_refl U U HU Sok Nok W (fun x => WX x HW) (fun e => WM e HW) true); auto.
      intros. apply W_Q. exact HW.
    + apply (bB_cell_rel S N K K eq (oprel_eq K) P P sprel_refl U U HU Sok Nok W (fun x => WX x HW) (fun e => WM e HW) false); auto.
      intros. apply W_Q. exact HW.
  - apply (fold_rel S N K K eq P W); [|exact Hm]. intros.
    apply (k_add_rel S N K K eq (oprel_eq K) P W (fun x => WX x HW)); auto. apply F2eq.
Qed.
Lemma sbact_local W a b x : (W = nonG \/ W = allv) -> saok x -> peq W a b -> peq W (act a x) (act b x).
Proof.
  intros HW Hx H. rewrite !sact_eq. destruct (Z.odd _); [|apply sbody_local; auto].
  apply peq_swap; [exact HW|]. apply sbody_local; auto. apply peq_swap; auto.
Qed.
Lemma frame_swap m m' : frame (kswap S N K m) m' -> frame m (kswap S N K m').
Proof.
  intros H v j Hj. destruct v; cbn [kswap].
  - exact (H (VX x) j Hj).
  - pose proof (H (VM e) j Hj) as E1. pose proof (H (VN e) j Hj) as E2. cbn [kswap] in E1, E2. destruct (eA S e); assumption.
  - pose proof (H (VM e) j Hj) as E1. pose proof (H (VN e) j Hj) as E2. cbn [kswap] in E1, E2. destruct (eA S e); assumption.
  - exact (H (VQ q si) j Hj).
  - exact (H (VG m0) j Hj).
Qed.
Lemma sbody_frame a x : saok x -> frame (fst a) (fst (sbody a x)).
Proof.
  intros Hx. destruct x as [A t|A t c|A t]; cbn [sbody fst].
  - apply frame_refl.
  - destruct A; [apply (bA_cell_frame true)|apply (bB_cell_frame false)]; exact Hx.
  - apply frame_fold. intros. apply frame_k_add. exact Hrec.
Qed.
Lemma sbact_frame a x : saok x -> frame (fst a) (fst (act a x)).
Proof.
  intros Hx. rewrite sact_eq. destruct (Z.odd _); [|apply sbody_frame; exact Hx].
  cbn [mswap fst]. apply frame_swap. apply (sbody_frame (mswap S N K a) x Hx).
Qed.
Lemma sbact_len (len : sC S -> nat) a x : (forall c, length (sp_src P c) = len c) ->
  (forall t c, length (snd a t c) = len c) -> forall t c, length (snd (act a x) t c) = len c.
Proof.
  intros Hl Ha.
  assert (B : forall b, (forall t c, length (snd b t c) = len c) -> forall t c, length (snd (sbody b x) t c) = len c).
  { intros b Hb. destruct x as [A t|A t c|A t]; cbn [sbody snd]; auto.
    apply kput_length; [exact Hb|]. intros c old Ho. rewrite record_length; [apply Hl|rewrite Ho, Hl; reflexivity]. }
  rewrite sact_eq. destruct (Z.odd _); [|apply B; exact Ha]. cbn [mswap snd]. apply B. exact Ha.
Qed.
Lemma sbody_add D a b x : saok x -> gadd D (fst a) (fst b) -> gadd D (fst (sbody a x)) (fst (sbody b x)).
Proof.
  intros Hx H. destruct x as [A t|A t c|A t]; cbn [sbody fst].
  - exact H.
  - destruct A; [apply (gadd_bA D true)|apply (gadd_bB D false)]; auto.
  - apply gadd_fold; [|exact H]. intros. apply gadd_k_add; auto.
Qed.
Lemma sbact_add a x : saok x -> forall q i, win i -> fst (act a x) (VG q) i = fst a (VG q) i + fst (act (wipe S N K a) x) (VG q) i.
Proof.
  intros Hx. pose proof (gadd_wipe a) as H.
  assert (G : gadd (fun q => fst a (VG q)) (fst (act a x)) (fst (act (wipe S N K a) x))).
  { rewrite !sact_eq. destruct (Z.odd _); [|apply sbody_add; auto].
    cbn [mswap fst]. apply gadd_swap. apply sbody_add; [exact Hx|]. apply gadd_swap. exact H. }
  apply (proj2 G).
Qed.

Lemma sbprog_aok visA visB nt x :
  (forall c, In c visA -> cellok S N K P true c) -> (forall c, In c visB -> cellok S N K P false c) ->
  In x (sbprog S N visA visB nt s0) -> saok x.
Proof.
  intros HA HB Hx. unfold sbprog in Hx. apply in_flat_map in Hx. destruct Hx as (t & _ & Hx). rewrite !in_app_iff, !in_map_iff in Hx.
  destruct Hx as [[<-|[]]|[(c & <- & Hc)|[[<-|[]]|[(c & <- & Hc)|[<-|[]]]]]]; cbn; auto.
Qed.

Lemma swap_swap a : peq allv (mswap S N K (mswap S N K a)) a.
Proof.
  split; [|reflexivity]. intros v i _ _. cbn [mswap fst]. destruct v; cbn [kswap]; try reflexivity; destruct (eA S e); reflexivity.
Qed.

Lemma fold_sbody A t : forall l a, fold_left sbody (map (SCell A t) l) a =
  (fold_left (fun m c => if A then bA_cell S N K P U (fun q => fm q && (t mod sr =? 0)%Z) sr (t / sr)%Z m c
                         else bB_cell S N K P U (fun q => fm q && (t mod sr =? 0)%Z) sr (t / sr)%Z m c) l (fst a), snd a).
Proof. induction l as [|c l IH]; intros [m r]; [reflexivity|]. cbn [map fold_left]. rewrite IH. reflexivity. Qed.

Definition tprog (visA visB : list cell) (t : Z) : list (sact cell) :=
  [SRec false t] ++ map (SCell true t) visA ++ [SRec true t] ++ map (SCell false t) visB ++ [SInj true t].

Lemma tprog_body visA visB t a :
  peq allv (fold_left sbody (tprog visA visB t) a) (b_body S N K P U visA visB fm sr gr t a).
Proof.
  unfold tprog. rewrite !fold_left_app. cbn [fold_left]. rewrite !fold_sbody. destruct a as [m r].
  cbn [sbody b_body fst snd]. split; [reflexivity|]. intros u c. cbn [snd]. unfold kput.
  destruct (u =? t)%Z; [|reflexivity]. cbn [andb]. destruct (cA S c); reflexivity.
Qed.

Lemma fold_local l : (forall x, In x l -> saok x) -> forall a b, peq allv a b -> peq allv (fold_left act l a) (fold_left act l b).
Proof.
  induction l as [|x l IH]; intros Hl a b H; [exact H|]. cbn [fold_left]. apply IH; [intros; apply Hl; right; assumption|].
  apply sbact_local; auto. apply Hl. left. reflexivity.
Qed.
Lemma fold_local_b l : (forall x, In x l -> saok x) -> forall a b, peq allv a b -> peq allv (fold_left sbody l a) (fold_left sbody l b).
Proof.
  induction l as [|x l IH]; intros Hl a b H; [exact H|]. cbn [fold_left]. apply IH; [intros; apply Hl; right; assumption|].
  apply sbody_local; auto. apply Hl. left. reflexivity.
Qed.

Lemma tprog_time visA visB t x : In x (tprog visA visB t) -> stime x = t.
Proof.
  unfold tprog. rewrite !in_app_iff, !in_map_iff.
  intros [[<-|[]]|[(c & <- & Hc)|[[<-|[]]|[(c & <- & Hc)|[<-|[]]]]]]; reflexivity.
Qed.

Lemma fold_odd t l : (forall x, In x l -> saok x /\ stime x = t) -> forall a,
  peq allv (fold_left act l a)
    (if Z.odd (s0 - 1 - t) then mswap S N K (fold_left sbody l (mswap S N K a)) else fold_left sbody l a).
Proof.
  induction l as [|x l IH]; intros Hl a; cbn [fold_left].
  - destruct (Z.odd _); [apply peq_sym, swap_swap|apply peq_refl].
  - destruct (Hl x (or_introl eq_refl)) as [Hx Ht].
    eapply peq_trans; [apply IH; intros; apply Hl; right; assumption|]. rewrite sact_eq, Ht.
    destruct (Z.odd _); [|apply peq_refl]. apply peq_swap; [right; reflexivity|].
    apply fold_local_b; [intros; apply Hl; right; assumption|]. apply swap_swap.
Qed.

(** The program of one shot is the compiled time loop. *)
Lemma sbprog_backward visA visB nt a :
  (forall c, In c visA -> cellok S N K P true c) -> (forall c, In c visB -> cellok S N K P false c) ->
  peq allv (fold_left act (sbprog S N visA visB nt s0) a) (k_backward S N K P U visA visB fm sr gr nt s0 a).
Proof.
  intros HA HB. unfold sbprog, k_backward. fold tprog. generalize (rev (zrange (s0 - nt) s0)) as ts. intros ts.
  assert (G : forall b, peq allv a b -> peq allv (fold_left act (flat_map (tprog visA visB) ts) a) (fold_left (b_t S N K P U visA visB fm sr gr s0) ts b)).
  2:{ apply G. apply peq_refl. }
  revert a. induction ts as [|t ts IH]; intros a b Hab; [exact Hab|]. cbn [flat_map fold_left].
  rewrite fold_left_app. apply IH.
  assert (Ht : forall x, In x (tprog visA visB t) -> saok x).
  { intros x Hx. unfold tprog in Hx. rewrite !in_app_iff, !in_map_iff in Hx.
    destruct Hx as [[<-|[]]|[(c & <- & Hc)|[[<-|[]]|[(c & <- & Hc)|[<-|[]]]]]]; cbn; auto. }
  eapply peq_trans; [apply fold_local; [exact Ht|exact Hab]|].
  eapply peq_trans; [apply (fold_odd t); intros x Hx; split; [apply Ht; exact Hx|apply (tprog_time visA visB); exact Hx]|].
  unfold b_t. destruct (Z.odd _); [apply peq_swap; [right; reflexivity|]|]; apply tprog_body.
Qed.
End B.

End Acts.
