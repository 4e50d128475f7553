(** * The forward kernels on the device do to every shot what the compiled CPU kernel does. *)
From Coq Require Import List ZArith QArith Lia Bool Ring Permutation.
From Verif Require Import Ops Sums Grid Stencil ScalarModel ScalarRefine ScalarForward ScalarBackward ScalarFunc Param ShotsModel Shots Threads GpuModel GpuLaunch.
Import ListNotations.
Local Open Scope K_scope.

(** ** Loads *)
Section Loads.
Variable K : ops.
Variable P0 : par K.
Notation fd := (fd_pad (p_acc P0)).
Lemma run_loads ls : forall (k : list K -> prog loc K) M, run loc_eq (loads K ls k) M = run loc_eq (k (map M ls)) M.
Proof. induction ls as [|l ls IH]; intros k M; [reflexivity|]. cbn. rewrite IH. reflexivity. Qed.
Lemma foot_loads (R W : loc -> Prop) ls : (forall l, In l ls -> R l) -> forall k : list K -> prog loc K, (forall xs, foot R W (k xs)) -> foot R W (loads K ls k).
Proof.
  induction ls as [|l ls IH]; intros Hl k Hk; cbn; [apply Hk|]. constructor; [apply Hl; left; reflexivity|]. intros x. apply IH; [intros l' H'; apply Hl; right; exact H'|]. intros xs. apply Hk.
Qed.
Lemma run_rd_st a i s k (M : mem loc K) : exists W, run loc_eq (rd_st K P0 a i s k) M = run loc_eq (k W) M /\ forall o, (- fd <= o <= fd)%Z -> W o = M (a, i + o * s)%Z.
Proof.
  unfold rd_st. rewrite run_loads. eexists. split; [reflexivity|]. intros o Ho. cbn beta. rewrite map_map.
  rewrite (nth_indep _ _ (M (a, i + 0 * s)%Z)) by (rewrite map_length, zrange_length; lia). rewrite (map_nth (fun o => M (a, i + o * s)%Z)). rewrite nth_zrange by lia.
  replace (- fd + Z.of_nat (Z.to_nat (o + fd)))%Z with o by lia. reflexivity.
Qed.
Lemma foot_rd_st (R W : loc -> Prop) a i s (k : (Z -> K) -> prog loc K) : (forall j, R (a, j)) -> (forall f, foot R W (k f)) -> foot R W (rd_st K P0 a i s k).
Proof. intros Ha Hk. apply foot_loads; [|intros xs; apply Hk]. intros l Hl. apply in_map_iff in Hl. destruct Hl as (o & <- & _). apply Ha. Qed.
End Loads.

Lemma put_eq {K : ops} (M : mem loc K) l x : put loc_eq M l x l = x.
Proof. unfold put. destruct (loc_eq l l); [reflexivity|contradiction]. Qed.
Lemma put_ne {K : ops} (M : mem loc K) l x l' : l <> l' -> put loc_eq M l x l' = M l'.
Proof. intros H. unfold put. destruct (loc_eq l l'); [contradiction|reflexivity]. Qed.
(** Arrays with different names. *)
Lemma put_name {K : ops} (M : mem loc K) a i x b j : a <> b -> put loc_eq M (a, i) x (b, j) = M (b, j).
Proof. intros H. apply put_ne. congruence. Qed.
Lemma put_idx {K : ops} (M : mem loc K) a i x j : put loc_eq M (a, i) x (a, j) = if (j =? i)%Z then x else M (a, j).
Proof. destruct (Z.eqb_spec j i) as [->|N]; [apply put_eq|apply put_ne; congruence]. Qed.

Section Fwd.
Variable K : ops.
Hypothesis Kr : is_ring K.
Add Ring KRing : Kr.
Variable P0 : par K.
Variable NS : Z.
Variables nsrc nrec : Z.
Variables srcs recs : Z -> Z.
Variable batched : bool.
Notation shape := (p_shape P0).
Notation fd := (fd_pad (p_acc P0)).
Notation nd := (length shape).
Notation n := (prodZ shape).
Notation SP := (shot_par K P0 nsrc nrec srcs recs).
Notation inint p := (interior K P0 p = true).
Notation glob := (fglob_of K).
Notation view := (fview K P0 nrec).
Notation run := (run loc_eq).
Notation ceq := (crel K K eq P0 (fun _ => True) (fun _ => True)).
Notation TT := (fun _ : Z => True).
Hypothesis Hnsrc : (0 <= nsrc)%Z.
Hypothesis Hnrec : (0 <= nrec)%Z.
Hypothesis Hsrc : forall j, (0 <= j < NS * nsrc)%Z -> (srcs j < n)%Z.
Hypothesis Hrec : forall j, (0 <= j < NS * nrec)%Z -> (recs j < n)%Z.

(** [m] is what shot [k] sees. *)
Record vq (sw : bool) (k : Z) (M : mem loc K) (m : cmem K) : Prop := {
  vq_wfc : forall i, M (qwfc sw, k * n + i)%Z = m_wfc K m i;
  vq_wfp : forall i, M (qwfp sw, k * n + i)%Z = m_wfp K m i;
  vq_psi : forall d i, M (qpsi sw d, k * n + i)%Z = m_psi K m d i;
  vq_psin : forall d i, M (qpsin sw d, k * n + i)%Z = m_psin K m d i;
  vq_zeta : forall d i, M (NZeta d, k * n + i)%Z = m_zeta K m d i;
  vq_store : forall s i, M (NStore s, k * n + i)%Z = m_store K m s i;
  vq_r : forall t, row (fun j => M (NAmp t, j)) nrec k = m_r K m t
}.
Lemma vq_view sw k M : vq sw k M (view k (glob sw M)).
Proof. split; intros; reflexivity. Qed.
Lemma vq_ceq sw k M m : vq sw k M m -> ceq (view k (glob sw M)) m.
Proof. intros []. split; cbn; intros; first [apply Forall2_eq; auto | intros i Hi; unfold sh; auto]. Qed.

Section Kernel.
Variables pml0 pml1 : nat -> Z.
Variable v : arr K.
Notation vk k := (shot_v K P0 batched v k).

Ltac names sw := destruct sw; cbn; congruence.

Lemma fwd_dims_run sw k reg p ds : (forall d, In d ds -> in1 reg d = negb (gpml pml0 pml1 p d)) -> forall w M m kont, vq sw k M m ->
  exists M', run (fwd_dims K P0 pml0 pml1 sw k p ds w kont) M = run (kont (fst (fold_left (c_fwd_dim K (SP k) reg p) ds (w, m)))) M' /\
             vq sw k M' (snd (fold_left (c_fwd_dim K (SP k) reg p) ds (w, m))).
Proof.
  induction ds as [|d ds IH]; intros Hd w M m kont V; [exists M; split; [reflexivity|exact V]|].
  cbn [fwd_dims fold_left]. specialize (IH (fun e He => Hd e (or_intror He))). pose proof (Hd d (or_introl eq_refl)) as Hr. unfold in1 in Hr.
  set (i := idx shape p). set (s := stride shape d).
  assert (W2 : forall W, (forall o, (- fd <= o <= fd)%Z -> W o = M (qwfc sw, k * n + i + o * s)%Z) -> forall o, (- fd <= o <= fd)%Z -> W o = m_wfc K m (i + o * s)%Z).
  { intros W HW o Ho. rewrite HW by exact Ho. rewrite <- Z.add_assoc. apply (vq_wfc _ _ _ _ V). }
  unfold c_fwd_dim at 2 4. cbn [p_shape p_b p_a p_acc p_rd p_rd2 p_db shot_par]. fold i. fold s. rewrite Hr.
  destruct (gpml pml0 pml1 p d); cbn [negb].
  - match goal with |- context [run (rd_st K P0 (qwfc sw) ?a ?b ?c) M] => destruct (run_rd_st K P0 (qwfc sw) a b c M) as (W & E1 & HW) end.
    rewrite E1. clear E1. specialize (W2 W HW).
    match goal with |- context [run (rd_st K P0 (qpsi sw d) ?a ?b ?c) M] => destruct (run_rd_st K P0 (qpsi sw d) a b c M) as (S & E1 & HS) end. rewrite E1. clear E1.
    assert (S2 : forall o, (- fd <= o <= fd)%Z -> S o = m_psi K m d (i + o * s)%Z) by (intros o Ho; rewrite HS by exact Ho; rewrite <- Z.add_assoc; apply (vq_psi _ _ _ _ V)).
    cbv zeta. cbn [Threads.run].
    rewrite (DIFF1_ext K (p_acc P0) (p_rd P0 d) W (fun k0 => m_wfc K m (i + k0 * s)%Z)) by (intros; apply W2; assumption).
    rewrite (DIFF2_ext K (p_acc P0) (p_rd2 P0 d) W (fun k0 => m_wfc K m (i + k0 * s)%Z)) by (intros; apply W2; assumption).
    rewrite (DIFF1_ext K (p_acc P0) (p_rd P0 d) (fun o => p_a P0 d (coord d p + o)%Z * S o) (fun k0 => p_a P0 d (coord d p + k0)%Z * m_psi K m d (i + k0 * s)%Z)) by (intros; rewrite S2 by assumption; reflexivity).
    rewrite (vq_zeta _ _ _ _ V), (vq_psi _ _ _ _ V). rewrite put_name by names sw. rewrite (vq_zeta _ _ _ _ V).
    apply IH. destruct V. split; cbn [m_wfc m_wfp m_psi m_psin m_zeta m_store m_r]; intros.
    + rewrite 2!put_name by names sw. auto.
    + rewrite 2!put_name by names sw. auto.
    + rewrite 2!put_name by names sw. auto.
    + rewrite put_name by names sw. unfold updd. destruct (Nat.eqb_spec d0 d) as [->|N].
      * rewrite put_idx. unfold upd. destruct (Z.eqb_spec (k * n + i0) (k * n + i)) as [E|E]; destruct (Z.eqb_spec i0 i) as [E'|E']; try lia; auto.
      * rewrite put_name by names sw. auto.
    + unfold updd. destruct (Nat.eqb_spec d0 d) as [->|N].
      * rewrite put_idx. unfold upd. destruct (Z.eqb_spec (k * n + i0) (k * n + i)) as [E|E]; destruct (Z.eqb_spec i0 i) as [E'|E']; try lia; auto. rewrite put_name by names sw. auto.
      * rewrite 2!put_name by names sw. auto.
    + rewrite 2!put_name by names sw. auto.
    + rewrite <- vq_r0. apply row_ext. intros j Hj. rewrite 2!put_name by names sw. reflexivity.
  - match goal with |- context [run (rd_st K P0 (qwfc sw) ?a ?b ?c) M] => destruct (run_rd_st K P0 (qwfc sw) a b c M) as (W & E1 & HW) end. rewrite E1. clear E1. specialize (W2 W HW).
    rewrite (DIFF2_ext K (p_acc P0) (p_rd2 P0 d) W (fun k0 => m_wfc K m (i + k0 * s)%Z)) by (intros; apply W2; assumption).
    apply IH. exact V.
Qed.

Lemma fwd_cell_run sw sto si k reg p M m : (forall d, (d < nd)%nat -> in1 reg d = negb (gpml pml0 pml1 p d)) -> vq sw k M m ->
  vq sw k (run (fwd_cell K P0 batched pml0 pml1 v sw sto si (k, p)) M) (c_fwd_cell K (SP k) (vk k) sto si m (reg, p)).
Proof.
  intros Hr V. unfold fwd_cell, c_fwd_cell. cbn [p_shape shot_par p_dt2]. change (dims K (SP k)) with (gdims K P0).
  match goal with |- context [run (fwd_dims K P0 pml0 pml1 sw k p (gdims K P0) ?z ?c) M] => destruct (fwd_dims_run sw k reg p (gdims K P0)) with (w := z) (M := M) (m := m) (kont := c) as (M' & E & V') end.
  - intros d Hd. apply Hr. unfold gdims in Hd. apply in_seq in Hd. lia.
  - exact V.
  - rewrite E. clear E. destruct (fold_left (c_fwd_dim K (SP k) reg p) (gdims K P0) (0, m)) as [w m1]. cbn [fst snd] in *. set (i := idx shape p).
    assert (Ev : (if batched then v (k * n + i)%Z else v i) = vk k i) by (unfold shot_v, sh; destruct batched; reflexivity). rewrite Ev.
    assert (X : forall M2 st2, vq sw k M2 (mkcmem K (m_wfc K m1) (m_wfp K m1) (m_psi K m1) (m_psin K m1) (m_zeta K m1) st2 (m_r K m1)) ->
      vq sw k (put loc_eq M2 (qwfp sw, (k * n + i)%Z) (vk k i * vk k i * p_dt2 P0 * w + two * M2 (qwfc sw, (k * n + i)%Z) - M2 (qwfp sw, (k * n + i)%Z)))
        (mkcmem K (m_wfc K m1) (upd (m_wfp K m1) i (vk k i * vk k i * p_dt2 P0 * w + two * m_wfc K m1 i - m_wfp K m1 i)) (m_psi K m1) (m_psin K m1) (m_zeta K m1) st2 (m_r K m1))).
    { intros M2 st2 []. cbn [m_wfc m_wfp m_psi m_psin m_zeta m_store m_r] in *. rewrite vq_wfc0, vq_wfp0. split; cbn [m_wfc m_wfp m_psi m_psin m_zeta m_store m_r]; intros.
      - rewrite put_name by names sw. auto.
      - rewrite put_idx. unfold upd. destruct (Z.eqb_spec (k * n + i0) (k * n + i)) as [E|E]; destruct (Z.eqb_spec i0 i) as [E'|E']; try lia; auto.
      - rewrite put_name by names sw. auto.
      - rewrite put_name by names sw. auto.
      - rewrite put_name by names sw. auto.
      - rewrite put_name by names sw. auto.
      - rewrite <- vq_r0. apply row_ext. intros j Hj. rewrite put_name by names sw. reflexivity. }
    destruct sto; cbn [Threads.run]; apply X.
    + destruct V'. split; cbn [m_wfc m_wfp m_psi m_psin m_zeta m_store m_r]; intros; try (rewrite put_name by names sw; auto).
      * destruct (Z.eqb_spec s si) as [->|N]; [|rewrite put_name by congruence; auto]. rewrite put_idx. unfold upd. destruct (Z.eqb_spec (k * n + i0) (k * n + i)) as [E|E]; destruct (Z.eqb_spec i0 i) as [E'|E']; try lia; auto.
      * rewrite <- vq_r0. apply row_ext. intros j Hj. rewrite put_name by names sw. reflexivity.
    + destruct V'. split; auto.
Qed.

(** ** What a cell owns and what is shared *)
Definition fshared (sw : bool) (l : loc) : Prop := fst l = qwfc sw \/ exists d, fst l = qpsi sw d.
Definition fown (sw : bool) (kp : Z * pt) (l : loc) : Prop :=
  snd l = (fst kp * n + idx shape (snd kp))%Z /\ (fst l = qwfp sw \/ (exists d, fst l = qpsin sw d \/ fst l = NZeta d) \/ exists s, fst l = NStore s).
Lemma fwd_dims_foot sw k p ds : forall w kont, (forall x, foot (fun l => fshared sw l \/ fown sw (k, p) l) (fown sw (k, p)) (kont x)) ->
  foot (fun l => fshared sw l \/ fown sw (k, p) l) (fown sw (k, p)) (fwd_dims K P0 pml0 pml1 sw k p ds w kont).
Proof.
  induction ds as [|d ds IH]; intros w kont Hk; [apply Hk|]. cbn [fwd_dims].
  assert (S1 : forall j, fshared sw (qwfc sw, j) \/ fown sw (k, p) (qwfc sw, j)) by (intros j; left; left; reflexivity).
  assert (S2 : forall e j, fshared sw (qpsi sw e, j) \/ fown sw (k, p) (qpsi sw e, j)) by (intros e j; left; right; exists e; reflexivity).
  assert (O1 : forall e, fown sw (k, p) (NZeta e, k * n + idx shape p)%Z) by (intros e; split; [reflexivity|]; right; left; exists e; right; reflexivity).
  destruct (gpml pml0 pml1 p d).
  - apply foot_rd_st; [exact S1|]. intros W. apply foot_rd_st; [apply S2|]. intros S. cbv zeta.
    apply foot_load; [right; apply O1|]. intros z. apply foot_load; [apply S2|]. intros ps. apply foot_store; [split; [reflexivity|right; left; exists d; left; reflexivity]|].
    apply foot_load; [right; apply O1|]. intros z'. apply foot_store; [apply O1|]. apply IH, Hk.
  - apply foot_rd_st; [exact S1|]. intros W. apply IH, Hk.
Qed.
Lemma fwd_cell_foot sw sto si kp : foot (fun l => fshared sw l \/ fown sw kp l) (fown sw kp) (fwd_cell K P0 batched pml0 pml1 v sw sto si kp).
Proof.
  destruct kp as [k p]. unfold fwd_cell. apply fwd_dims_foot. intros w.
  assert (R : forall x, foot (fun l => fshared sw l \/ fown sw (k, p) l) (fown sw (k, p)) (Load (qwfc sw, (k * n + idx shape p)%Z) (fun c => Load (qwfp sw, (k * n + idx shape p)%Z) (fun q => Store (qwfp sw, (k * n + idx shape p)%Z) (x * w + two * c - q) Ret)))).
  { intros x. apply foot_load; [left; left; reflexivity|]. intros c. apply foot_load; [right; split; [reflexivity|left; reflexivity]|]. intros q. apply foot_store; [split; [reflexivity|left; reflexivity]|]. constructor. }
  destruct sto; [|apply R]. apply foot_store; [split; [reflexivity|right; right; exists si; reflexivity]|apply R].
Qed.
Lemma fown_shared sw kp l : fown sw kp l -> ~ fshared sw l.
Proof.
  intros [_ O] [S|(d & S)]; rewrite S in O; destruct O as [E|[(e & [E|E])|(s & E)]]; destruct sw; discriminate.
Qed.
Lemma shot_idx k k' i i' : (0 <= i < n)%Z -> (0 <= i' < n)%Z -> (k * n + i = k' * n + i')%Z -> k = k' /\ i = i'.
Proof. intros H H' E. assert (k = k') by nia. subst. split; [reflexivity|lia]. Qed.
Lemma fown_disjoint sw a b l : inint (snd a) -> inint (snd b) -> a <> b -> fown sw a l -> ~ fown sw b l.
Proof.
  intros Ha Hb N [E _] [E' _]. apply N. rewrite E in E'. destruct (shot_idx _ _ _ _ (win_idx K P0 _ Ha) (win_idx K P0 _ Hb) E') as [E1 E2].
  destruct a as [k p], b as [k' q]. cbn in *. f_equal; [exact E1|]. apply (idx_inj shape); [apply (inint_arr K P0); exact Ha|apply (inint_arr K P0); exact Hb|exact E2].
Qed.

(** ** The launch *)
Notation finv := (finv K P0 NS nrec).
Definition gtag (p : pt) : list Z := map (code pml0 pml1 p) (seq 0 nd).
Lemma gtag_in1 p d : (forall d, (d < nd)%nat -> (pml0 d <= pml1 d)%Z) -> (d < nd)%nat -> in1 (gtag p) d = negb (gpml pml0 pml1 p d).
Proof.
  intros Hb Hd. unfold in1, gtag, gpml. rewrite (nth_indep _ 0%Z (code pml0 pml1 p 0)) by (rewrite map_length, seq_length; exact Hd). rewrite map_nth, seq_nth by exact Hd. cbn [plus]. unfold code. specialize (Hb d Hd).
  destruct (Z.ltb_spec (coord d p) (pml0 d)); cbn; [reflexivity|]. destruct (Z.ltb_spec (coord d p) (pml1 d)); destruct (Z.leb_spec (pml1 d) (coord d p)); try lia; reflexivity.
Qed.
Definition items : list (Z * pt) := flat_map (items_cells fd shape NS) (threads (launch_cells fd shape NS)).
(** The cells of shot [k] in the order of the threads. *)
Definition gvis (k : Z) : list (list Z * pt) := map (fun p => (gtag p, p)) (map snd (filter (fun x => fst x =? k)%Z items)).

Lemma finv_cell sw sto si k p M fam : (forall d, (d < nd)%nat -> (pml0 d <= pml1 d)%Z) -> (0 <= k < NS)%Z -> inint p -> finv (glob sw M) fam ->
  finv (glob sw (run (fwd_cell K P0 batched pml0 pml1 v sw sto si (k, p)) M)) (fset fam k (c_fwd_cell K (SP k) (vk k) sto si (fam k) (gtag p, p))).
Proof.
  intros Hb Hk Hp Hi j Hj. unfold fset. destruct (Z.eqb_spec j k) as [->|N].
  - eapply ceq_trans; [apply vq_ceq; apply (fwd_cell_run sw sto si k (gtag p) p M (view k (glob sw M))); [intros d Hd; apply gtag_in1; assumption|apply vq_view]|].
    apply (ceq_SP K P0 nsrc nrec srcs recs k). apply (crel_cell K K eq (oprel_eq K) (SP k) (SP k) (prel_refl K _) TT TT); auto; [intros i _; reflexivity|]. apply (ceq_SP K P0 nsrc nrec srcs recs k). apply Hi. exact Hj.
  - eapply ceq_trans; [|apply Hi; exact Hj].
    assert (F : forall a i, (0 <= i < n)%Z -> run (fwd_cell K P0 batched pml0 pml1 v sw sto si (k, p)) M (a, j * n + i)%Z = M (a, j * n + i)%Z).
    { intros a i Hii. apply (run_outside loc_eq _ _ _ (fwd_cell_foot sw sto si (k, p))). intros [E _]. cbn [fst snd] in E. destruct (shot_idx _ _ _ _ Hii (win_idx K P0 _ Hp) E) as [E1 _]. contradiction. }
    assert (G : forall t i, run (fwd_cell K P0 batched pml0 pml1 v sw sto si (k, p)) M (NAmp t, i) = M (NAmp t, i)).
    { intros t i. apply (run_outside loc_eq _ _ _ (fwd_cell_foot sw sto si (k, p))). intros [_ [E|[(e & [E|E])|(s & E)]]]; cbn in E; destruct sw; discriminate. }
    split; cbn; intros; try (intros i Hii; apply F; exact Hii). apply Forall2_eq. apply row_ext. intros i Hii. apply G.
Qed.
Lemma finv_ext sw M M' fam : (forall l, M' l = M l) -> finv (glob sw M) fam -> finv (glob sw M') fam.
Proof.
  intros E H k Hk. eapply ceq_trans; [|apply H; exact Hk]. split; cbn; intros; try (intros i Hi; apply E). apply Forall2_eq. apply row_ext. intros j Hj. apply E.
Qed.

Hypothesis Hsz : sizes_ok fd shape NS.
Hypothesis Hpml : forall d, (d < nd)%nat -> (pml0 d <= pml1 d)%Z.
Lemma fd_nonneg : (0 <= fd)%Z.
Proof. destruct (p_acc P0); cbn; lia. Qed.
Lemma In_items k p : In (k, p) items <-> (0 <= k < NS)%Z /\ inint p.
Proof. unfold items. rewrite (In_cells fd shape NS fd_nonneg Hsz). unfold interior. reflexivity. Qed.

Theorem fwd_launch sw sto si M M' fam : finv (glob sw M) fam -> kexec K (launch_cells fd shape NS) (fwd_thread K P0 NS batched pml0 pml1 v sw sto si) M M' ->
  finv (glob sw M') (fun k => fold_left (c_fwd_cell K (SP k) (vk k) sto si) (gvis k) (fam k)).
Proof.
  intros Hi [_ He].
  assert (E : forall l, M' l = fold_left (fun m it => run (fwd_cell K P0 batched pml0 pml1 v sw sto si it) m) items M l).
  { apply (kernel_seq loc_eq (threads (launch_cells fd shape NS)) (items_cells fd shape NS) (fwd_cell K P0 batched pml0 pml1 v sw sto si) (fshared sw) (fown sw)).
    - intros it _. apply fwd_cell_foot.
    - intros it l _. apply fown_shared.
    - apply own_pairs; [apply (NoDup_cells fd shape NS fd_nonneg Hsz)|]. intros a b Ha Hb N l. destruct a as [k p], b as [k' p']. apply In_items in Ha, Hb. apply fown_disjoint; [apply Ha|apply Hb|exact N].
    - exact He. }
  apply (finv_ext sw _ M' _ E).
  pose proof (interleave_inv (fun M it => run (fwd_cell K P0 batched pml0 pml1 v sw sto si it) M) (fun k m p => c_fwd_cell K (SP k) (vk k) sto si m (gtag p, p)) (fun M fam => finv (glob sw M) fam) items M fam) as H.
  assert (F : finv (glob sw (fold_left (fun m it => run (fwd_cell K P0 batched pml0 pml1 v sw sto si it) m) items M))
     (fun k => fold_left (fun m p => c_fwd_cell K (SP k) (vk k) sto si m (gtag p, p)) (map snd (filter (fun x => (fst x =? k)%Z) items)) (fam k))).
  { apply H; [| |exact Hi].
    - intros g fm k p Hin Hg. apply In_items in Hin. apply finv_cell; [exact Hpml|apply Hin|apply Hin|exact Hg].
    - intros g fm fm' Hf Hg k Hk. rewrite <- Hf. apply Hg, Hk. }
  intros k Hk. specialize (F k Hk). unfold gvis. assert (Y : forall l m, fold_left (c_fwd_cell K (SP k) (vk k) sto si) (map (fun p => (gtag p, p)) l) m = fold_left (fun m p => c_fwd_cell K (SP k) (vk k) sto si m (gtag p, p)) l m) by (induction l as [|x l IHl]; intros m; [reflexivity|]; cbn; apply IHl).
  rewrite Y. exact F.
Qed.
(** It is an admissible order for the CPU kernel. *)
Lemma gvis_perm k : (0 <= k < NS)%Z -> bounds_ok K P0 pml0 pml1 -> Permutation (visits K P0 pml0 pml1) (gvis k).
Proof.
  intros Hk Hb. destruct (visits_ok K P0 pml0 pml1 Hb) as (V1 & V2 & V3).
  assert (Hpts : forall p, In p (map snd (filter (fun x => (fst x =? k)%Z) items)) <-> inint p).
  { intros p. rewrite in_map_iff. split.
    - intros ([k' q] & <- & H). apply filter_In in H. destruct H as [H _]. apply In_items in H. apply H.
    - intros Hp. exists (k, p). split; [reflexivity|]. apply filter_In. split; [apply In_items; auto|apply Z.eqb_refl]. }
  assert (Nd : NoDup (map snd (filter (fun x => (fst x =? k)%Z) items))).
  { apply NoDup_map_inj; [|apply NoDup_filter; apply (NoDup_cells fd shape NS fd_nonneg Hsz)].
    intros [a p] [b q] Ha Hb' E. apply filter_In in Ha, Hb'. destruct Ha as [_ Ha], Hb' as [_ Hb']. cbn in *. apply Z.eqb_eq in Ha, Hb'. congruence. }
  apply NoDup_Permutation.
  - apply (NoDup_map_inv snd). exact V1.
  - unfold gvis. apply NoDup_map_inj; [intros x y _ _ E; congruence|exact Nd].
  - assert (Hcode : forall r p, In (r, p) (visits K P0 pml0 pml1) -> r = gtag p).
    { intros r p Hin. apply In_visits in Hin. destruct Hin as (H1 & H2 & H3).
      apply (nth_ext _ _ 0%Z (code pml0 pml1 p 0)).
      - unfold gtag. rewrite map_length, seq_length. exact H1.
      - intros d Hd. rewrite H1 in Hd. unfold gtag. rewrite map_nth, seq_nth by exact Hd. cbn [plus].
        specialize (H3 d Hd). destruct (Hb d Hd) as [B1 B2]. unfold region_bounds in H3.
        unfold code. destruct H3 as [H3 H4].
        destruct (Z.eqb_spec (nth d r 0%Z) 0) as [E|E]; cbn [fst snd] in H4.
        + destruct (Z.ltb_spec (coord d p) (pml0 d)); lia.
        + destruct (Z.eqb_spec (nth d r 0%Z) 1) as [E'|E']; cbn [fst snd] in H4.
          * destruct (Z.ltb_spec (coord d p) (pml0 d)); [lia|].
            destruct (Z.ltb_spec (coord d p) (pml1 d)); lia.
          * destruct (Z.ltb_spec (coord d p) (pml0 d)); [lia|].
            destruct (Z.ltb_spec (coord d p) (pml1 d)); lia. }
    intros [r p]. split; intros Hin.
    + rewrite (Hcode r p Hin). apply in_map_iff. exists p. split; [reflexivity|]. apply Hpts. apply V2. exists r. exact Hin.
    + unfold gvis in Hin. apply in_map_iff in Hin. destruct Hin as (q & E & Hq). injection E as <- <-. apply Hpts in Hq. apply V2 in Hq. destruct Hq as (r & Hr). rewrite <- (Hcode r q Hr). exact Hr.
Qed.
End Kernel.
End Fwd.
