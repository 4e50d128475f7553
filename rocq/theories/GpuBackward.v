(** * Every backward run on the device gives every shot the gradients the CPU gives it. *)
From Coq Require Import List ZArith QArith Lia Bool Ring Permutation.
From Verif Require Import Ops Sums Grid Stencil ScalarModel ScalarRefine ScalarForward ScalarBackward ScalarFunc Param ShotsModel Shots ShotsRun ShotsThm Threads GpuModel GpuLaunch GpuFwd GpuLocs GpuBwd.
Import ListNotations.
Local Open Scope K_scope.

Section Bwd.
Variable K : ops.
Hypothesis Kr : is_ring K.
Add Ring KRing : Kr.
Variable P0 : par K.
Variable NS : Z.
Variables nsrc nrec : Z.
Variables srcs recs : Z -> Z.
Variable batched : bool.
Notation shape := (p_shape P0).
Notation fd := (fd_pad (p_acc P0)).
Notation nd := (length shape).
Notation n := (prodZ shape).
Notation SP := (shot_par K P0 nsrc nrec srcs recs).
Notation inint p := (interior K P0 p = true).
Notation run := (run loc_eq).
Notation beq := (brelm K K eq P0 (fun _ => True)).
Hypothesis Hnsrc : (0 <= nsrc < 2 ^ 31)%Z.
Hypothesis Hnrec : (0 <= nrec < 2 ^ 31)%Z.
Hypothesis Hsz : sizes_ok fd shape NS.
Hypothesis Hsrc : forall j, (0 <= j < NS * nsrc)%Z -> (srcs j < n)%Z.
Hypothesis Hrec : forall j, (0 <= j < NS * nrec)%Z -> (recs j < n)%Z.
Hypothesis Huniq : distinct NS nrec recs.

(** The cells kernel neither reads nor writes the recorded amplitudes. *)
Definition setf (m : bmem K) (x : Z -> list K) : bmem K :=
  mkbmem K (g_wfc K m) (g_wfp K m) (g_psi K m) (g_psin K m) (g_zeta K m) (g_zetan K m) x (g_v K m).
Lemma dims_setf P v reg p ds : forall w m x,
  fold_left (c_bwd_dim K P v reg p) ds (w, setf m x) = (fst (fold_left (c_bwd_dim K P v reg p) ds (w, m)), setf (snd (fold_left (c_bwd_dim K P v reg p) ds (w, m))) x).
Proof.
  induction ds as [|d ds IH]; intros w m x; [reflexivity|]. cbn [fold_left].
  assert (E : c_bwd_dim K P v reg p (w, setf m x) d = (fst (c_bwd_dim K P v reg p (w, m) d), setf (snd (c_bwd_dim K P v reg p (w, m) d)) x)) by (unfold c_bwd_dim; destruct (_ =? 1)%Z; reflexivity).
  rewrite E, IH. destruct (c_bwd_dim K P v reg p (w, m) d). reflexivity.
Qed.
Lemma dims_f P v reg p ds : forall w m, g_f K (snd (fold_left (c_bwd_dim K P v reg p) ds (w, m))) = g_f K m.
Proof.
  induction ds as [|d ds IH]; intros w m; [reflexivity|]. cbn [fold_left]. destruct (c_bwd_dim K P v reg p (w, m) d) as [w1 m1] eqn:E. rewrite IH.
  unfold c_bwd_dim in E. destruct (_ =? 1)%Z; injection E as _ <-; reflexivity.
Qed.
Lemma cells_setf P v st sto sr si l : forall m x, fold_left (c_bwd_cell K P v st sto sr si) l (setf m x) = setf (fold_left (c_bwd_cell K P v st sto sr si) l m) x.
Proof.
  induction l as [|[reg p] l IH]; intros m x; [reflexivity|]. cbn [fold_left]. rewrite <- IH. f_equal.
  unfold c_bwd_cell. rewrite dims_setf. destruct (fold_left (c_bwd_dim K P v reg p) (dims K P) (0, m)) as [w m1]. reflexivity.
Qed.
Lemma cells_keep P v st sto sr si l : forall m, g_wfc K (fold_left (c_bwd_cell K P v st sto sr si) l m) = g_wfc K m /\ g_f K (fold_left (c_bwd_cell K P v st sto sr si) l m) = g_f K m.
Proof.
  induction l as [|[reg p] l IH]; intros m; [split; reflexivity|]. cbn [fold_left]. destruct (IH (c_bwd_cell K P v st sto sr si m (reg, p))) as [A B]. rewrite A, B.
  unfold c_bwd_cell. destruct (bwd_dims_keep K P v reg p (dims K P) 0 m) as (C & _ & _). pose proof (dims_f P v reg p (dims K P) 0 m) as D. cbv zeta in C.
  destruct (fold_left (c_bwd_dim K P v reg p) (dims K P) (0, m)) as [w m1]. cbn [snd] in *. split; assumption.
Qed.

Section Call.
Variable ga : aname.
Hypothesis Hga : ga = NGrad \/ ga = NGradShot.
Variable store : Z -> arr K.
Variables pml0 pml1 : nat -> Z.
Hypothesis Hpml : forall d, (d < nd)%nat -> (pml0 d <= pml1 d)%Z.
Variables (v2 : arr K) (vrg : bool) (sr : Z) (gr : Z -> arr K).
Notation vk k := (shot_v K P0 batched v2 k).
Notation grk k := (fun t => row (gr t) nrec k).
Notation stk k := (fun s => sh K P0 k (store s)).
Notation gvis := (gvis K P0 NS pml0 pml1).
Notation ginv := (ginv K P0 NS nsrc ga store).
Notation gview := (gview K P0 nsrc ga).

Lemma ns_bound : (0 <= NS < 2 ^ 31)%Z.
Proof. destruct Hsz as (_ & _ & H). exact H. Qed.
Ltac nm sw := destruct Hga; destruct sw; cbn; congruence.

Lemma bstep_inv sw t M M' fam : ginv sw M fam -> gbwd_step K P0 NS nsrc nrec srcs recs batched pml0 pml1 v2 ga vrg sr gr sw t M M' ->
  ginv sw M' (fun k => c_bwd_body K (SP k) (vk k) (gvis k) (stk k) vrg sr (grk k) t (fam k)) /\ (ga = NGradShot -> forall j, M' (NGrad, j) = M (NGrad, j)).
Proof.
  intros [Hi St] (M1 & M2 & H1 & H2 & H3).
  assert (X1 : (forall k, (0 <= k < NS)%Z -> row (fun j => M1 (NAmp t, j)) nsrc k = record_from_wavefield K (fun i => M (qwfc sw, k * n + i)%Z) (row srcs nsrc k) (row (fun j => M (NAmp t, j)) nsrc k)) /\ (forall l, fst l <> NAmp t -> M1 l = M l)).
  { destruct (Z.ltb_spec 0 nsrc) as [Hp|Hp].
    - apply (rec_launch K P0 NS (qwfc sw) nsrc srcs Hnsrc ns_bound t); [intros s; destruct sw; discriminate|exact H1].
    - subst M1. assert (nsrc = 0%Z) by lia. split; [|reflexivity]. intros k Hk. subst nsrc. reflexivity. }
  clear H1. destruct X1 as [A1 A2].
  set (fam1 := fun k => setf (fam k) (fun u => if (u =? t)%Z then record_from_wavefield K (g_wfc K (fam k)) (row srcs nsrc k) (g_f K (fam k) t) else g_f K (fam k) u)).
  assert (I1 : ginv sw M1 fam1).
  { split; [|intros s j; rewrite A2 by (cbn; congruence); apply St]. intros k Hk. destruct (Hi k Hk) as [c1 c2 c3 c4 c5 c6 c7 c8].
    split; cbn in *; intros; try (intros i Hii; rewrite A2 by nm sw; first [apply c1|apply c2|apply c3|apply c4|apply c5|apply c6|apply c8]; assumption).
    specialize (c7 t0 I). destruct (Z.eqb_spec t0 t) as [->|N].
    - rewrite A1 by exact Hk. apply (Forall2_record K K eq n); [apply (SP_src K P0 NS nsrc nrec srcs recs); [lia|exact Hsrc|exact Hk]|exact c1|exact c7].
    - apply Forall2_eq in c7. apply Forall2_eq. rewrite <- c7. apply row_ext. intros j Hj. apply A2. cbn. congruence. }
  destruct (bwd_launch K P0 NS nsrc nrec srcs recs batched ga Hga store pml0 pml1 v2 Hpml Hsz sw _ _ _ M1 M2 fam1 I1 H2) as [[I2 St2] Fr]. clear H2.
  assert (X3 : (forall k i, (0 <= k < NS)%Z -> (0 <= i < n)%Z -> M' (qwfp sw, k * n + i)%Z = add_to_wavefield K (fun i => M2 (qwfp sw, k * n + i)%Z) (row recs nrec k) (row (gr t) nrec k) i) /\ (forall l, fst l <> qwfp sw -> M' l = M2 l)).
  { destruct (Z.ltb_spec 0 nrec) as [Hp|Hp].
    - apply (add_launch K P0 NS (qwfp sw) nrec recs Hnrec ns_bound Hrec (gr t) M2 M' Huniq H3).
    - subst M'. assert (nrec = 0%Z) by lia. split; [|reflexivity]. intros k i Hk Hii. subst nrec. reflexivity. }
  destruct X3 as [B1 B2]. clear H3. split; [split|].
  - intros k Hk. specialize (I2 k Hk). cbv beta in I2. unfold fam1 in I2. rewrite cells_setf in I2. unfold c_bwd_body.
    destruct (cells_keep (SP k) (vk k) (stk k) (vrg && (t mod sr =? 0)%Z) sr (t / sr)%Z (gvis k) (fam k)) as [Kc Kf].
    set (m1 := fold_left _ (gvis k) (fam k)) in *. rewrite <- Kc, <- Kf in I2. destruct I2 as [c1 c2 c3 c4 c5 c6 c7 c8].
    split; cbn in *; intros; try (intros i Hii; rewrite B2 by nm sw; first [apply c1|apply c3|apply c4|apply c5|apply c6|apply c8]; assumption).
    + intros i Hii. rewrite B1 by assumption. apply (arel_add K K eq (oprel_eq K) n); [apply (SP_rec K P0 NS nsrc nrec srcs recs); [lia|exact Hrec|exact Hk]|exact c2|apply Forall2_eq; reflexivity|exact Hii].
    + specialize (c7 t0 I). apply Forall2_eq in c7. apply Forall2_eq. etransitivity; [|exact c7]. apply row_ext. intros j Hj. apply B2. nm sw.
  - intros s j. rewrite B2 by nm sw. apply St2.
  - intros E j. rewrite B2 by nm sw. rewrite Fr, A2; [reflexivity|nm sw|]. intros kp [_ [G|[(d & [G|G])|G]]]; cbn in G; [| | |congruence]; destruct sw; discriminate.
Qed.
Lemma ginv_swap sw M fam : ginv sw M fam -> ginv (negb sw) M (fun k => b_swap K (fam k)).
Proof. intros [H St]. split; [|exact St]. intros k Hk. destruct (H k Hk). destruct sw; split; cbn in *; auto. Qed.
Lemma bloop_inv sw s0 ts : forall t M M' fam, ts = rev (zrange (t - Z.of_nat (length ts)) t) -> ginv sw M fam ->
  gbwd_loop K P0 NS nsrc nrec srcs recs batched pml0 pml1 v2 ga vrg sr gr (if Z.odd (s0 - t) then negb sw else sw) ts M M' ->
  ginv sw M' (fun k => fold_left (c_bwd_t K (SP k) (vk k) (gvis k) (stk k) vrg sr (grk k) s0) ts (fam k)) /\ (ga = NGradShot -> forall j, M' (NGrad, j) = M (NGrad, j)).
Proof.
  induction ts as [|t0 ts IH]; intros t M M' fam Ht Hi Hl; inversion Hl as [|? ? ? ? M1 ? Hs Hl']; subst; [split; [exact Hi|reflexivity]|].
  rewrite zrange_snoc in Ht by (cbn [length]; lia). rewrite rev_app_distr in Ht. cbn [rev app] in Ht. injection Ht as -> Ht.
  destruct (IH (t - 1)%Z M1 M' (fun k => c_bwd_t K (SP k) (vk k) (gvis k) (stk k) vrg sr (grk k) s0 (fam k) (t - 1)%Z)) as [A B].
  - rewrite Ht at 1. do 2 f_equal. cbn [length]. lia.
  - unfold c_bwd_t. replace (s0 - 1 - (t - 1))%Z with (s0 - t)%Z by lia. destruct (Z.odd (s0 - t)).
    + apply ginv_swap in Hi. pose proof (proj1 (bstep_inv (negb sw) (t - 1)%Z M M1 _ Hi Hs)) as H1. apply ginv_swap in H1. rewrite negb_involutive in H1. exact H1.
    + apply (proj1 (bstep_inv sw (t - 1)%Z M M1 fam Hi Hs)).
  - replace (s0 - (t - 1))%Z with (Z.succ (s0 - t)) by lia. rewrite Z.odd_succ, <- Z.negb_odd. destruct (Z.odd (s0 - t)); cbn [negb] in *; [rewrite negb_involutive in Hl'|]; exact Hl'.
  - split; [exact A|]. intros E j. rewrite B by exact E. destruct (Z.odd (s0 - t)).
    + apply ginv_swap in Hi. apply (proj2 (bstep_inv (negb sw) (t - 1)%Z M M1 _ Hi Hs)); exact E.
    + apply (proj2 (bstep_inv sw (t - 1)%Z M M1 fam Hi Hs)); exact E.
Qed.
Lemma bcall_inv sw s cf M M' fam : ginv sw M fam ->
  gbwd_loop K P0 NS nsrc nrec srcs recs batched pml0 pml1 v2 ga vrg sr gr sw (rev (zrange (s * sr - Z.min s cf * sr) (s * sr))) M M' ->
  ginv sw M' (fun k => c_backward K (SP k) (vk k) (gvis k) (stk k) vrg sr (grk k) (Z.min s cf * sr) (s * sr) (fam k)) /\ (ga = NGradShot -> forall j, M' (NGrad, j) = M (NGrad, j)).
Proof.
  intros Hi Hl. unfold c_backward. apply (bloop_inv sw (s * sr)%Z _ (s * sr)%Z M M' fam); [|exact Hi|].
  - rewrite rev_length, zrange_length. destruct (Z_le_gt_dec 0 (Z.min s cf * sr)) as [H|H]; [do 2 f_equal; lia|]. rewrite !zrange_nil by lia. reflexivity.
  - rewrite Z.sub_diag. exact Hl.
Qed.
End Call.

(** ** Adding up the gradients of the shots *)
Lemma combine_cells : flat_map (items_combine fd shape) (threads (launch_combine fd shape)) = map snd (flat_map (items_cells fd shape 1) (threads (launch_cells fd shape 1))).
Proof.
  assert (E : launch_combine fd shape = launch_cells fd shape 1) by (destruct shape as [|n1 [|n2 [|n3 [|n4 s]]]]; reflexivity).
  rewrite E. clear E.
  assert (X : forall l, (forall th, In th l -> snd th = 0%Z \/ length shape = 3%nat \/ length shape = 1%nat) -> (forall th, In th l -> snd (fst th) = 0%Z \/ length shape <> 1%nat) -> flat_map (items_combine fd shape) l = map snd (flat_map (items_cells fd shape 1) l)).
  { induction l as [|[[x y] z] l IH]; intros H H'; [reflexivity|]. cbn [flat_map]. rewrite map_app, <- IH by (intros; first [apply H|apply H']; right; assumption). f_equal.
    specialize (H _ (or_introl eq_refl)). specialize (H' _ (or_introl eq_refl)). cbn in H, H'. unfold items_combine, items_cells. destruct shape as [|n1 [|n2 [|n3 [|n4 s]]]]; try reflexivity.
    - destruct H' as [->|H']; [|cbn in H'; lia]. rewrite andb_true_r. destruct (_ <? _)%Z; reflexivity.
    - destruct H as [->|H]; [|cbn in H; lia]. rewrite andb_true_r. destruct (_ && _)%bool; reflexivity.
    - destruct (_ && _)%bool; reflexivity. }
  apply X; unfold threads, launch_cells; destruct shape as [|n1 [|n2 [|n3 [|n4 s]]]]; cbn [l_grid l_block length]; intros [[x y] z] Hth; auto; try (left; reflexivity); try (right; lia).
  - destruct Hth.
  - left. apply in_flat_map in Hth. destruct Hth as (z' & Hz & Hth). apply in_flat_map in Hth. destruct Hth as (y' & Hy & Hth). apply in_map_iff in Hth. destruct Hth as (x' & E & _). injection E as _ <- <-. change (axis (ceil_div 1 1) 1) with [0%Z] in Hz. cbn. destruct Hz as [<-|[]]. reflexivity.
  - destruct Hth.
  - left. apply in_flat_map in Hth. destruct Hth as (z' & Hz & Hth). apply in_flat_map in Hth. destruct Hth as (y' & Hy & Hth). apply in_map_iff in Hth. destruct Hth as (x' & E & _). injection E as _ <- <-. change (axis (ceil_div 1 1) 1) with [0%Z] in Hy. cbn. destruct Hy as [<-|[]]. reflexivity.
Qed.
Notation citems := (flat_map (items_combine fd shape) (threads (launch_combine fd shape))).
Lemma sizes_1 : sizes_ok fd shape 1.
Proof. destruct Hsz as (A & B & _). split; [exact A|]. split; [exact B|lia]. Qed.
Lemma In_citems p : In p citems <-> inint p.
Proof.
  rewrite combine_cells, in_map_iff. split.
  - intros ([k q] & <- & H). apply (In_cells fd shape 1 (fd_nonneg K P0 NS Hsz) sizes_1) in H. apply H.
  - intros H. exists (0%Z, p). split; [reflexivity|]. apply (In_cells fd shape 1 (fd_nonneg K P0 NS Hsz) sizes_1). split; [lia|exact H].
Qed.
Lemma NoDup_citems : NoDup citems.
Proof.
  rewrite combine_cells. apply NoDup_map_inj; [|apply (NoDup_cells fd shape 1 (fd_nonneg K P0 NS Hsz) sizes_1)].
  intros [k p] [k' q] H H' E. apply (In_cells fd shape 1 (fd_nonneg K P0 NS Hsz) sizes_1) in H, H'. cbn in E. f_equal; [lia|exact E].
Qed.
Definition cown (p : pt) (l : loc) : Prop := l = (NGrad, idx shape p).
Definition cshared (l : loc) : Prop := fst l = NGradShot.
Lemma combine_foot p ks : foot (fun l => cshared l \/ cown p l) (cown p) (combine_shots K P0 ks (idx shape p)).
Proof.
  induction ks as [|k ks IH]; [constructor|]. cbn. apply foot_load; [right; reflexivity|]. intros g. apply foot_load; [left; reflexivity|]. intros x. apply foot_store; [reflexivity|exact IH].
Qed.
Lemma combine_run i ks : forall M : mem loc K, run (combine_shots K P0 ks i) M (NGrad, i) = fold_left (fun x k => x + M (NGradShot, k * n + i)%Z) ks (M (NGrad, i)).
Proof.
  induction ks as [|k ks IH]; intros M; [reflexivity|]. cbn [combine_shots Threads.run fold_left]. rewrite IH, put_eq. set (x := M (NGrad, i) + _). generalize x at 2 3 as y. clearbody x. clear IH. induction ks as [|j ks IHk]; intros y; [reflexivity|]. cbn [fold_left]. rewrite put_name by discriminate. apply IHk.
Qed.
Lemma combine_launch M M' : kexec K (launch_combine fd shape) (combine_thread K P0 NS) M M' ->
  (forall p, inint p -> M' (NGrad, idx shape p) = fold_left (fun x k => x + M (NGradShot, k * n + idx shape p)%Z) (zrange 0 NS) (M (NGrad, idx shape p))) /\
  (forall l, (forall p, inint p -> l <> (NGrad, idx shape p)) -> M' l = M l).
Proof.
  intros [_ He]. set (pr := fun p => combine_shots K P0 (zrange 0 NS) (idx shape p)).
  assert (H1 : forall it, In it citems -> foot (fun l => cshared l \/ cown it l) (cown it) (pr it)) by (intros it _; apply combine_foot).
  assert (H2 : forall it l, In it citems -> cown it l -> ~ cshared l) by (intros it l _ -> E; discriminate E).
  assert (H3 : ForallOrdPairs (fun x y => forall l, cown x l -> ~ cown y l) citems).
  { apply own_pairs; [apply NoDup_citems|]. intros p q Hp Hq N l -> E. injection E as E. apply In_citems in Hp, Hq. apply N. apply (idx_inj shape); [apply (inint_arr K P0); exact Hp|apply (inint_arr K P0); exact Hq|exact E]. }
  assert (E : forall l, M' l = fold_left (fun M it => run (pr it) M) citems M l) by (apply (kernel_seq loc_eq (threads (launch_combine fd shape)) (items_combine fd shape) pr cshared cown H1 H2 H3 M M' He)).
  split.
  - intros p Hp. rewrite E. rewrite (items_item loc_eq pr cshared cown citems H1 H2 H3 M p (NGrad, idx shape p)); [apply combine_run|apply In_citems; exact Hp|reflexivity].
  - intros l Hl. rewrite E. apply (items_keep loc_eq pr cshared cown citems H1). intros p Hp C. apply In_citems in Hp. apply (Hl p Hp C).
Qed.

(** ** The driver *)
Section Driver.
Variable store : Z -> arr K.
Variables pml0 pml1 : nat -> Z.
Hypothesis Hpml : forall d, (d < nd)%nat -> (pml0 d <= pml1 d)%Z.
Variables (v2 : arr K) (vrg : bool) (sr : Z) (gr : Z -> arr K).
Notation vk k := (shot_v K P0 batched v2 k).
Notation grk k := (fun t => row (gr t) nrec k).
Notation stk k := (fun s => sh K P0 k (store s)).
Notation gvis := (gvis K P0 NS pml0 pml1).
Notation gn := (gname NS batched vrg).
Notation ginv := (ginv K P0 NS nsrc gn store).
Lemma gname_or : gn = NGrad \/ gn = NGradShot.
Proof. unfold gname. destruct (gseparate _ _ _); auto. Qed.
Lemma bdriver_inv cf ss : forall sw M sw' M' fam, ginv sw M fam ->
  gbwd_driver K P0 NS nsrc nrec srcs recs batched pml0 pml1 v2 vrg sr gr cf ss sw M sw' M' ->
  ginv sw' M' (fun k => fold_left (bwd_chunk K (SP k) (vk k) (gvis k) (stk k) vrg sr (grk k) cf) ss (fam k)).
Proof.
  induction ss as [|s ss IH]; intros sw M sw' M' fam Hi Hd; inversion Hd as [|? ? ? ? M1 M2 ? ? Hl Hc Hd']; subst; [exact Hi|]. cbn [fold_left].
  refine (IH _ M2 sw' M' (fun k => bwd_chunk K (SP k) (vk k) (gvis k) (stk k) vrg sr (grk k) cf (fam k) s) _ Hd').
  destruct (bcall_inv gn gname_or store pml0 pml1 Hpml v2 vrg sr gr sw s cf M M1 fam Hi Hl) as [C _].
  assert (C2 : ginv sw M2 (fun k => c_backward K (SP k) (vk k) (gvis k) (stk k) vrg sr (grk k) (Z.min s cf * sr) (s * sr) (fam k))).
  { unfold gname in *. destruct (gseparate NS batched vrg); [|subst M2; exact C]. destruct (combine_launch M1 M2 Hc) as [_ Fr].
    destruct C as [C St]. split; [|intros q j; rewrite Fr by (intros p _; congruence); apply St]. intros k Hk. eapply (beq_trans K P0); [|apply (C k Hk)].
    split; cbn; intros; first [apply Forall2_eq; apply row_ext; intros i Hii; apply Fr; intros p _; congruence | intros i Hii; apply Fr; intros p _; destruct sw; cbn; congruence]. }
  unfold bwd_chunk. destruct (_ =? 0)%Z; [exact C2|]. apply ginv_swap. exact C2.
Qed.
End Driver.
Lemma shot_v2 v k : shot_v K P0 batched (fun i => v i * v i * p_dt2 P0) k = (fun i => shot_v K P0 batched v k i * shot_v K P0 batched v k i * p_dt2 (SP k)).
Proof. unfold shot_v, sh. destruct batched; reflexivity. Qed.

Lemma gbd_nil_inv pml0 pml1 v2 vrg sr gr cf sw M sw' M' : gbwd_driver K P0 NS nsrc nrec srcs recs batched pml0 pml1 v2 vrg sr gr cf [] sw M sw' M' -> M' = M.
Proof. intros H. inversion H; subst. reflexivity. Qed.
Lemma gbd_one_inv pml0 pml1 v2 vrg sr gr cf s sw M sw' M' : gbwd_driver K P0 NS nsrc nrec srcs recs batched pml0 pml1 v2 vrg sr gr cf [s] sw M sw' M' ->
  exists M1, gbwd_loop K P0 NS nsrc nrec srcs recs batched pml0 pml1 v2 (gname NS batched vrg) vrg sr gr sw (rev (zrange (s * sr - Z.min s cf * sr) (s * sr))) M M1 /\
  (if gseparate NS batched vrg then kexec K (launch_combine fd shape) (combine_thread K P0 NS) M1 M' else M' = M1).
Proof.
  intros H. inversion H as [|? ? ? ? M1 M2 ? ? Hl Hc Hd']; subst. exists M1. apply gbd_nil_inv in Hd'. subst M2. split; assumption.
Qed.
Lemma range_down_one q : (0 < q)%Z -> range_down q q = [q].
Proof.
  intros Hq. unfold range_down. assert (E : ((q + q - 1) / q = 1)%Z) by (symmetry; apply (Z.div_unique _ _ _ (q - 1)); lia).
  rewrite E. cbn [zrange map]. change (zrange 0 1) with [0%Z]. cbn [map]. f_equal. ring.
Qed.
Section Run.
Variables (pw : nat -> Z * Z) (v : arr K) (store : Z -> arr K) (vrg : bool) (sr : Z) (gr : Z -> arr K) (nt : Z) (cb : option Z) (g : Z -> st K).
Hypothesis Hg : geom_ok K P0 pw.
Hypothesis Hsr : (0 < sr)%Z.
Hypothesis Hcb : cb_ok nt sr cb.
Notation single k vis := (scalar_backward K (SP k) pw (shot_v K P0 batched v k) vis (fun s => sh K P0 k (store s)) vrg sr (fun t => row (gr t) nrec k) nt cb (g k)).
Notation pml0 := (pml_begin K P0 3 pw).
Notation pml1 := (pml_end K P0 3 pw).
Notation gvis := (gvis K P0 NS pml0 pml1).
Lemma pml_le : forall d, (d < nd)%nat -> (pml0 d <= pml1 d)%Z.
Proof. intros d Hd. destruct (geom_bounds K P0 pw Hg 3 ltac:(lia) d Hd). lia. Qed.
Lemma gvis_b k : (0 <= k < NS)%Z -> bvis K P0 pw (gvis k).
Proof. intros Hk. apply gvis_perm; [exact Hsz|exact Hk|]. apply geom_bounds; [exact Hg|lia]. Qed.
Notation N := (nt / sr)%Z.
Notation cf := (match cb with Some c => c | None => (nt / sr)%Z end).
Notation steps := (if (nt <=? 0)%Z then [] else range_down N cf).
Notation M0 := (bmem_of K (bneg K (batch_binit K P0 nsrc nrec srcs recs pw g)) store).
Notation fam0 := (fun k => neg_wfp K (bwd_init K (SP k) pw (g k))).
Lemma single_run k : single k (gvis k) = let m := neg_wfp K (fold_left (bwd_chunk K (SP k) (shot_v K P0 batched (fun i => v i * v i * p_dt2 P0) k) (gvis k) (fun s => sh K P0 k (store s)) vrg sr (fun t => row (gr t) nrec k) cf) steps (fam0 k)) in
  Some (mkst K (crop K (SP k) (g_wfc K m)) (crop K (SP k) (g_wfp K m)) (fun d => crop K (SP k) (g_psi K m d)) (fun d => crop K (SP k) (g_zeta K m d)), g_f K m, g_v K m).
Proof.
  rewrite shot_v2. unfold scalar_backward, bwd_driver. destruct (Z.leb_spec nt 0); [reflexivity|]. destruct (Z.eqb_spec cf 0) as [E0|E0]; [|reflexivity].
  exfalso. destruct cb as [c|]; cbn in Hcb; [lia|]. pose proof (Z.div_str_pos nt sr). lia.
Qed.
Lemma ginv_init ga : ga = NGrad \/ ga = NGradShot -> ginv K P0 NS nsrc ga store false M0 fam0.
Proof.
  intros Hga. split; [|intros s j; reflexivity]. intros k Hk.
  assert (T : forall a i, (0 <= i < n)%Z -> stack K P0 a (k * n + i)%Z = a k i) by (intros a i Hi; apply (stack_sh K P0 k a i Hi)).
  split; cbn -[stack]; intros; try (intros i Hi; cbn -[stack]; rewrite T by exact Hi; reflexivity).
  - apply Forall2_eq. unfold row. rewrite map_map. reflexivity.
  - intros i Hi. destruct Hga as [-> | ->]; reflexivity.
Qed.

Theorem gpu_backward_shot out k : (0 <= k < NS)%Z -> gpu_backward K P0 NS nsrc nrec srcs recs batched pw v store vrg sr gr nt cb g out ->
  exists U1 f1 gv1, single k (gvis k) = Some (U1, f1, gv1) /\ let '(U, f, _) := out in ueq K P0 (U k) U1 /\ (forall t, row (f t) nsrc k = f1 t).
Proof.
  intros Hk (sw & M & Hd & ->). rewrite single_run. do 3 eexists. split; [reflexivity|]. cbv zeta beta iota.
  pose proof (bdriver_inv store pml0 pml1 pml_le _ vrg sr gr cf steps false M0 sw M fam0 (ginv_init _ (gname_or vrg)) Hd) as [C _]. specialize (C k Hk). cbv beta in C.
  set (m := fold_left _ steps _) in *. destruct C as [c1 c2 c3 c4 c5 c6 c7 c8]. split.
  - intros q Hq. pose proof (win_idx K P0 (topad K P0 q)) as W. apply In_upts in Hq. specialize (W Hq).
    cbn. split; [|split]; [apply c1; exact W| |].
    + unfold sh, crop. cbn. f_equal. apply c2. exact W.
    + intros d Hd'. split; [apply (c3 d Hd'); exact W|apply (c5 d Hd'); exact W].
  - intros t. apply Forall2_eq. apply (c7 t I).
Qed.

(** The gradient of the model. *)
Theorem gpu_backward_gv out : (1 <= NS)%Z -> (batched = true \/ NS = 1%Z \/ cb = None) -> vrg = true -> gpu_backward K P0 NS nsrc nrec srcs recs batched pw v store vrg sr gr nt cb g out ->
  (forall k, (0 <= k < NS)%Z -> Forall (loc_ok K (SP k)) (p_src (SP k))) -> (forall k, (0 <= k < NS)%Z -> Forall (loc_ok K (SP k)) (p_rec (SP k))) ->
  let '(_, _, gv) := out in
  if batched then forall k i, (0 <= k < NS)%Z -> (0 <= i < n)%Z -> gv (k * n + i)%Z = gv_of K (single k (gvis k)) i
  else forall i, (0 <= i < n)%Z -> gv i = sumf (zrange 0 NS) (fun k => gv_of K (single k (gvis k)) i).
Proof.
  intros Hns1 Hcase Hv (sw & M & Hd & ->) Ls Lr. cbv zeta beta iota. cbn [B_gv bneg bglob_of].
  assert (G : forall k i, (0 <= k < NS)%Z -> (0 <= i < n)%Z -> M (gname NS batched vrg, k * n + i)%Z = gv_of K (single k (gvis k)) i).
  { intros k i Hk Hi. rewrite single_run. cbn [gv_of].
    pose proof (bdriver_inv store pml0 pml1 pml_le _ vrg sr gr cf steps false M0 sw M fam0 (ginv_init _ (gname_or vrg)) Hd) as [C _]. specialize (C k Hk). destruct C as [c1 c2 c3 c4 c5 c6 c7 c8]. apply (c8 i Hi). }
  assert (A : batched = true -> forall k i, (0 <= k < NS)%Z -> (0 <= i < n)%Z -> M (NGrad, k * n + i)%Z = gv_of K (single k (gvis k)) i).
  { intros Eb k i Hk Hi. rewrite <- G by assumption. unfold gname, gseparate. rewrite Eb. cbn [negb]. rewrite andb_false_r. reflexivity. }
  assert (B : batched = false -> forall i, (0 <= i < n)%Z -> M (NGrad, i) = sumf (zrange 0 NS) (fun k => gv_of K (single k (gvis k)) i)).
  { intros Eb i Hi. unfold gname in *. destruct (gseparate NS batched vrg) eqn:Es.
    + assert (Hns : (1 < NS)%Z) by (unfold gseparate in Es; rewrite !andb_true_iff in Es; destruct Es as [_ Es]; apply Z.ltb_lt in Es; exact Es).
      assert (cb = None) as Ecb by (destruct Hcase as [H|[H|H]]; [congruence|lia|exact H]).
      assert (Hout : forall j k, (0 <= k < NS)%Z -> (forall p, inint p -> idx shape p <> j) -> gv_of K (single k (gvis k)) j = 0).
      { intros j k Hk Hj. destruct (scalar_backward_spec K Kr (SP k) pw Hg (Ls k Hk) (Lr k Hk) (shot_v K P0 batched v k) (gvis k) (fun s => sh K P0 k (store s)) vrg sr (fun t => row (gr t) nrec k) nt cb (g k) (gvis_b k Hk) Hsr Hcb) as (a & b & c & E & _ & _ & _ & _ & Z0). rewrite E. cbn [gv_of]. apply Z0. exact Hj. }
      destruct (Z.leb_spec nt 0) as [Hn|Hn].
      * apply gbd_nil_inv in Hd. rewrite Hd. cbn. symmetry. apply (sumf_zero K Kr). intros k Hk. apply In_zrange in Hk. rewrite <- G by (try exact Hi; lia). rewrite Hd. reflexivity.
      * rewrite Ecb in Hd. assert (HN : (0 < N)%Z) by (pose proof Hcb as HC; rewrite Ecb in HC; cbn in HC; apply Z.div_str_pos; lia).
        assert (R : range_down N N = [N]) by (apply range_down_one; exact HN).
        rewrite R in Hd. apply gbd_one_inv in Hd. destruct Hd as (M1 & Hl & Hc). unfold gname in Hl. rewrite Es in Hl, Hc.
        destruct (bcall_inv NGradShot (or_intror eq_refl) store pml0 pml1 pml_le _ vrg sr gr false N N M0 M1 fam0 (ginv_init _ (or_intror eq_refl)) Hl) as [_ B].
        destruct (combine_launch M1 M Hc) as [C Fr].
        assert (Eg : forall l x, fold_left (fun x k => x + M1 (NGradShot, k * n + i)%Z) l x = x + sumf l (fun k => M1 (NGradShot, k * n + i)%Z)).
        { induction l as [|k l IHl]; intros x; cbn; [ring|]. rewrite IHl. ring. }
        assert (Eq : sumf (zrange 0 NS) (fun k => M1 (NGradShot, k * n + i)%Z) = sumf (zrange 0 NS) (fun k => gv_of K (single k (gvis k)) i)).
        { apply sumf_ext. intros k Hk. apply In_zrange in Hk. rewrite <- G by (try exact Hi; lia). symmetry. apply Fr. intros p _. congruence. }
        destruct (interior K P0 (unidx shape i)) eqn:Ei.
        -- destruct (Z.eq_dec (idx shape (unidx shape i)) i) as [Ej|Ej].
           ++ rewrite <- Ej at 1. rewrite C by exact Ei. rewrite Ej, Eg, Eq, B by reflexivity. cbn. ring.
           ++ rewrite Fr by (intros p Hp E; injection E as E; apply Ej; rewrite E, unidx_idx; [reflexivity|apply (inint_arr K P0); exact Hp]). rewrite B by reflexivity. cbn. symmetry. apply (sumf_zero K Kr). intros k Hk. apply In_zrange in Hk.
              apply Hout; [lia|]. intros p Hp E. apply Ej. rewrite <- E, unidx_idx; [reflexivity|apply (inint_arr K P0); exact Hp].
        -- assert (Ni : forall p, inint p -> idx shape p <> i) by (intros p Hp E; rewrite <- E, unidx_idx in Ei; [congruence|apply (inint_arr K P0); exact Hp]).
           rewrite Fr by (intros p Hp E; injection E as E; apply (Ni p Hp); symmetry; exact E). rewrite B by reflexivity. cbn. symmetry. apply (sumf_zero K Kr). intros k Hk. apply In_zrange in Hk. apply Hout; [lia|exact Ni].
    + assert (Hns : (NS <= 1)%Z) by (unfold gseparate in Es; rewrite Hv, Eb in Es; cbn in Es; apply Z.ltb_ge in Es; exact Es).
      assert (E1 : NS = 1%Z) by lia. assert (Er : zrange 0 NS = [0%Z]) by (rewrite E1; reflexivity). rewrite Er. cbn [sumf map fold_right]. rewrite <- (G 0%Z i) by lia. change (0 * n + i)%Z with i. ring. }
  clear - A B. destruct batched; [apply A|apply B]; reflexivity.
Qed.
End Run.
End Bwd.
