(** * The backward kernels on the device do to every shot what the compiled CPU kernel does. *)
From Coq Require Import List ZArith QArith Lia Bool Ring Permutation.
From Verif Require Import Ops Sums Grid Stencil ScalarModel ScalarRefine ScalarForward ScalarBackward ScalarFunc Param ShotsModel Shots Threads GpuModel GpuLaunch GpuFwd GpuLocs.
Import ListNotations.
Local Open Scope K_scope.

Section Bwd.
Variable K : ops.
Hypothesis Kr : is_ring K.
Add Ring KRing : Kr.
Variable P0 : par K.
Variable NS : Z.
Variables nsrc nrec : Z.
Variables srcs recs : Z -> Z.
Variable batched : bool.
Notation shape := (p_shape P0).
Notation fd := (fd_pad (p_acc P0)).
Notation nd := (length shape).
Notation n := (prodZ shape).
Notation SP := (shot_par K P0 nsrc nrec srcs recs).
Notation inint p := (interior K P0 p = true).
Notation run := (run loc_eq).
Notation beq := (brelm K K eq P0 (fun _ => True)).
Notation TT := (fun _ : Z => True).
Variable ga : aname.
Hypothesis Hga : ga = NGrad \/ ga = NGradShot.
Variable store : Z -> arr K.

(** What shot [k] sees; every shot has a block of the gradient array. *)
Definition gview (sw : bool) (k : Z) (M : mem loc K) : bmem K :=
  mkbmem K (fun i => M (qwfc sw, k * n + i)%Z) (fun i => M (qwfp sw, k * n + i)%Z) (fun d i => M (qpsi sw d, k * n + i)%Z) (fun d i => M (qpsin sw d, k * n + i)%Z)
    (fun d i => M (qzeta sw d, k * n + i)%Z) (fun d i => M (qzetan sw d, k * n + i)%Z) (fun t => row (fun j => M (NAmp t, j)) nsrc k) (fun i => M (ga, k * n + i)%Z).
Record vq (sw : bool) (k : Z) (M : mem loc K) (m : bmem K) : Prop := {
  vq_wfc : forall i, M (qwfc sw, k * n + i)%Z = g_wfc K m i;
  vq_wfp : forall i, M (qwfp sw, k * n + i)%Z = g_wfp K m i;
  vq_psi : forall d i, M (qpsi sw d, k * n + i)%Z = g_psi K m d i;
  vq_psin : forall d i, M (qpsin sw d, k * n + i)%Z = g_psin K m d i;
  vq_zeta : forall d i, M (qzeta sw d, k * n + i)%Z = g_zeta K m d i;
  vq_zetan : forall d i, M (qzetan sw d, k * n + i)%Z = g_zetan K m d i;
  vq_f : forall t, row (fun j => M (NAmp t, j)) nsrc k = g_f K m t;
  vq_v : forall i, M (ga, k * n + i)%Z = g_v K m i
}.
Lemma vq_view sw k M : vq sw k M (gview sw k M).
Proof. split; intros; reflexivity. Qed.
Lemma vq_beq sw k M m : vq sw k M m -> beq (gview sw k M) m.
Proof. intros []. split; cbn; intros; first [apply Forall2_eq; auto | intros i Hi; auto]. Qed.
Definition stored (M : mem loc K) : Prop := forall s j, M (NStore s, j) = store s j.

Section Kernel.
Variables pml0 pml1 : nat -> Z.
Variable v2 : arr K.
Notation vk k := (shot_v K P0 batched v2 k).
Notation stk k := (fun s => sh K P0 k (store s)).
Ltac names sw := destruct Hga; destruct sw; cbn; congruence.
Lemma v2sh_eq k j : v2sh K P0 batched v2 k j = vk k j.
Proof. unfold v2sh, shot_v, sh. destruct batched; reflexivity. Qed.

Lemma bwd_sum_run sw k reg p ds : (forall d, In d ds -> in1 reg d = negb (gpml pml0 pml1 p d)) -> forall w M m kont,
  (forall i, M (qwfc sw, k * n + i)%Z = g_wfc K m i) -> (forall d i, M (qpsi sw d, k * n + i)%Z = g_psi K m d i) -> (forall d i, M (qzeta sw d, k * n + i)%Z = g_zeta K m d i) ->
  run (bwd_sum K P0 batched pml0 pml1 v2 sw k p ds w kont) M = run (kont (fst (fold_left (c_bwd_dim K (SP k) (vk k) reg p) ds (w, m)))) M.
Proof.
  induction ds as [|d ds IH]; intros Hd w M m kont V1 V2 V3; [reflexivity|].
  cbn [bwd_sum fold_left]. specialize (IH (fun e He => Hd e (or_intror He))). pose proof (Hd d (or_introl eq_refl)) as Hr. unfold in1 in Hr.
  set (i := idx shape p). set (s := stride shape d).
  unfold c_bwd_dim at 2. cbn [p_shape p_b p_a p_acc p_rd p_rd2 p_db shot_par]. fold i. fold s. rewrite Hr.
  destruct (gpml pml0 pml1 p d); cbn [negb].
  - match goal with |- context [run (rd_st K P0 (qwfc sw) ?a ?b ?c) M] => destruct (run_rd_st K P0 (qwfc sw) a b c M) as (W & E1 & HW) end. rewrite E1. clear E1.
    match goal with |- context [run (rd_st K P0 (qzeta sw d) ?a ?b ?c) M] => destruct (run_rd_st K P0 (qzeta sw d) a b c M) as (Zt & E1 & HZ) end. rewrite E1. clear E1.
    match goal with |- context [run (rd_st K P0 (qpsi sw d) ?a ?b ?c) M] => destruct (run_rd_st K P0 (qpsi sw d) a b c M) as (S & E1 & HS) end. rewrite E1. clear E1.
    assert (W2 : forall o, (- fd <= o <= fd)%Z -> W o = g_wfc K m (i + o * s)%Z) by (intros o Ho; rewrite HW by exact Ho; rewrite <- Z.add_assoc; apply V1).
    assert (Z2 : forall o, (- fd <= o <= fd)%Z -> Zt o = g_zeta K m d (i + o * s)%Z) by (intros o Ho; rewrite HZ by exact Ho; rewrite <- Z.add_assoc; apply V3).
    assert (S2 : forall o, (- fd <= o <= fd)%Z -> S o = g_psi K m d (i + o * s)%Z) by (intros o Ho; rewrite HS by exact Ho; rewrite <- Z.add_assoc; apply V2).
    cbv zeta.
    match goal with |- Threads.run _ (bwd_sum _ _ _ _ _ _ _ _ _ _ ?x _) _ = Threads.run _ (kont (fst (fold_left _ ds (?x', ?y)))) _ => assert (Ex : x = x'); [|rewrite Ex; apply IH; assumption] end.
    f_equal. f_equal; [f_equal|].
    + apply DIFF1_ext. intros o Ho _. rewrite v2sh_eq, W2, Z2, S2 by exact Ho. reflexivity.
    + apply DIFF2_ext. intros o Ho. rewrite v2sh_eq, W2, Z2 by exact Ho. reflexivity.
  - match goal with |- context [run (rd_st K P0 (qwfc sw) ?a ?b ?c) M] => destruct (run_rd_st K P0 (qwfc sw) a b c M) as (W & E1 & HW) end. rewrite E1. clear E1.
    assert (W2 : forall o, (- fd <= o <= fd)%Z -> W o = g_wfc K m (i + o * s)%Z) by (intros o Ho; rewrite HW by exact Ho; rewrite <- Z.add_assoc; apply V1).
    match goal with |- Threads.run _ (bwd_sum _ _ _ _ _ _ _ _ _ _ ?x _) _ = Threads.run _ (kont (fst (fold_left _ ds (?x', ?y)))) _ => assert (Ex : x = x'); [|rewrite Ex; apply IH; assumption] end.
    f_equal. apply DIFF2_ext. intros o Ho. rewrite v2sh_eq, W2 by exact Ho. reflexivity.
Qed.

Lemma bwd_fields_run sw k reg p ds : (forall d, In d ds -> in1 reg d = negb (gpml pml0 pml1 p d)) -> forall w M m kont, vq sw k M m -> stored M ->
  exists M', run (bwd_fields K P0 batched pml0 pml1 v2 sw k p ds kont) M = run kont M' /\ vq sw k M' (snd (fold_left (c_bwd_dim K (SP k) (vk k) reg p) ds (w, m))) /\ stored M'.
Proof.
  induction ds as [|d ds IH]; intros Hd w M m kont V St; [exists M; split; [reflexivity|split; assumption]|].
  cbn [bwd_fields fold_left]. specialize (IH (fun e He => Hd e (or_intror He))). pose proof (Hd d (or_introl eq_refl)) as Hr. unfold in1 in Hr.
  set (i := idx shape p). set (s := stride shape d).
  unfold c_bwd_dim at 2. cbn [p_shape p_b p_a p_acc p_rd p_rd2 p_db shot_par]. fold i. fold s. rewrite Hr.
  destruct (gpml pml0 pml1 p d); cbn [negb]; [|apply IH; assumption].
  match goal with |- context [run (rd_st K P0 (qwfc sw) ?a ?b ?c) M] => destruct (run_rd_st K P0 (qwfc sw) a b c M) as (W & E1 & HW) end. rewrite E1. clear E1.
  match goal with |- context [run (rd_st K P0 (qzeta sw d) ?a ?b ?c) M] => destruct (run_rd_st K P0 (qzeta sw d) a b c M) as (Zt & E1 & HZ) end. rewrite E1. clear E1.
  assert (W2 : forall o, (- fd <= o <= fd)%Z -> W o = g_wfc K m (i + o * s)%Z) by (intros o Ho; rewrite HW by exact Ho; rewrite <- Z.add_assoc; apply (vq_wfc _ _ _ _ V)).
  assert (Z2 : forall o, (- fd <= o <= fd)%Z -> Zt o = g_zeta K m d (i + o * s)%Z) by (intros o Ho; rewrite HZ by exact Ho; rewrite <- Z.add_assoc; apply (vq_zeta _ _ _ _ V)).
  cbv zeta. cbn [Threads.run].
  match goal with |- context [DIFF1 (p_acc P0) (p_rd P0 d) (fun o => (1 + p_b P0 d (coord d p + o)%Z) * (v2sh K P0 batched v2 k (i + o * s)%Z * W o) + _)] =>
    rewrite (DIFF1_ext K (p_acc P0) (p_rd P0 d) (fun o => (1 + p_b P0 d (coord d p + o)%Z) * (v2sh K P0 batched v2 k (i + o * s)%Z * W o) + p_b P0 d (coord d p + o)%Z * Zt o)
      (fun o => (1 + p_b P0 d (coord d p + o)%Z) * (vk k (i + o * s)%Z * g_wfc K m (i + o * s)%Z) + p_b P0 d (coord d p + o)%Z * g_zeta K m d (i + o * s)%Z)) by (intros o Ho _; rewrite v2sh_eq, W2, Z2 by exact Ho; reflexivity) end.
  rewrite (put_name _ _ _ _ (qwfc sw)) by names sw. rewrite (put_name _ _ _ _ (qzeta sw d)) by names sw. rewrite (vq_psi _ _ _ _ V), (vq_wfc _ _ _ _ V), (vq_zeta _ _ _ _ V), v2sh_eq.
  replace (i + 0 * s)%Z with i by lia.
  apply IH; [|intros q j; rewrite 2!put_name by names sw; apply St].
  destruct V. split; cbn [g_wfc g_wfp g_psi g_psin g_zeta g_zetan g_f g_v]; intros.
  - rewrite 2!put_name by names sw. auto.
  - rewrite 2!put_name by names sw. auto.
  - rewrite 2!put_name by names sw. auto.
  - rewrite put_name by names sw. unfold updd. destruct (Nat.eqb_spec d0 d) as [->|N].
    + rewrite put_idx. unfold upd. destruct (Z.eqb_spec (k * n + i0) (k * n + i)) as [E|E]; destruct (Z.eqb_spec i0 i) as [E'|E']; try lia; auto.
    + rewrite put_name by names sw. auto.
  - rewrite 2!put_name by names sw. auto.
  - unfold updd. destruct (Nat.eqb_spec d0 d) as [->|N].
    + rewrite put_idx. unfold upd. destruct (Z.eqb_spec (k * n + i0) (k * n + i)) as [E|E]; destruct (Z.eqb_spec i0 i) as [E'|E']; try lia; auto. rewrite put_name by names sw. auto.
    + rewrite 2!put_name by names sw. auto.
  - rewrite <- vq_f0. apply row_ext. intros j Hj. rewrite 2!put_name by names sw. reflexivity.
  - rewrite 2!put_name by names sw. auto.
Qed.

Definition setp (m : bmem K) (x : arr K) : bmem K :=
  mkbmem K (g_wfc K m) x (g_psi K m) (g_psin K m) (g_zeta K m) (g_zetan K m) (g_f K m) (g_v K m).
Lemma bwd_dims_setp P v reg p ds : forall w m x,
  fold_left (c_bwd_dim K P v reg p) ds (w, setp m x) = (fst (fold_left (c_bwd_dim K P v reg p) ds (w, m)), setp (snd (fold_left (c_bwd_dim K P v reg p) ds (w, m))) x).
Proof.
  induction ds as [|d ds IH]; intros w m x; [reflexivity|]. cbn [fold_left].
  assert (E : c_bwd_dim K P v reg p (w, setp m x) d = (fst (c_bwd_dim K P v reg p (w, m) d), setp (snd (c_bwd_dim K P v reg p (w, m) d)) x)) by (unfold c_bwd_dim; destruct (_ =? 1)%Z; reflexivity).
  rewrite E, IH. destruct (c_bwd_dim K P v reg p (w, m) d). reflexivity.
Qed.
Lemma bwd_dims_keep P v reg p ds : forall w m, let m1 := snd (fold_left (c_bwd_dim K P v reg p) ds (w, m)) in g_wfc K m1 = g_wfc K m /\ g_wfp K m1 = g_wfp K m /\ g_v K m1 = g_v K m.
Proof.
  induction ds as [|d ds IH]; intros w m; [repeat split|]. cbn [fold_left].
  assert (E : let m1 := snd (c_bwd_dim K P v reg p (w, m) d) in g_wfc K m1 = g_wfc K m /\ g_wfp K m1 = g_wfp K m /\ g_v K m1 = g_v K m) by (unfold c_bwd_dim; destruct (_ =? 1)%Z; repeat split).
  destruct (c_bwd_dim K P v reg p (w, m) d) as [w1 m1]. cbn [snd] in E. destruct (IH w1 m1) as (A & B & C). destruct E as (A' & B' & C'). cbv zeta. rewrite A, B, C. auto.
Qed.

Lemma bwd_cell_run sw sto sr si k reg p M m : (forall d, (d < nd)%nat -> in1 reg d = negb (gpml pml0 pml1 p d)) -> vq sw k M m -> stored M ->
  vq sw k (run (bwd_cell K P0 batched pml0 pml1 v2 ga sw sto sr si (k, p)) M) (c_bwd_cell K (SP k) (vk k) (stk k) sto sr si m (reg, p)).
Proof.
  intros Hr V St. unfold bwd_cell, c_bwd_cell. cbn [p_shape shot_par]. change (dims K (SP k)) with (gdims K P0).
  assert (Hd : forall d, In d (gdims K P0) -> in1 reg d = negb (gpml pml0 pml1 p d)) by (intros d Hd; apply Hr; unfold gdims in Hd; apply in_seq in Hd; lia).
  rewrite (bwd_sum_run sw k reg p (gdims K P0) Hd _ M m) by (apply V).
  destruct (bwd_dims_keep (SP k) (vk k) reg p (gdims K P0) 0 m) as (Kc & Kp & Kv). cbv zeta in *.
  pose proof (bwd_dims_setp (SP k) (vk k) reg p (gdims K P0) 0 m) as Hset.
  destruct (fold_left (c_bwd_dim K (SP k) (vk k) reg p) (gdims K P0) (0, m)) as [w m1]. cbn [fst snd] in *. set (i := idx shape p).
  cbn [Threads.run]. rewrite (vq_wfc _ _ _ _ V), (vq_wfp _ _ _ _ V).
  set (x := upd (g_wfp K m) i (w + two * g_wfc K m i - g_wfp K m i)).
  set (M1 := put loc_eq M (qwfp sw, (k * n + i)%Z) _).
  assert (V1 : vq sw k M1 (setp m x)).
  { unfold M1, x, setp. destruct V. split; cbn [g_wfc g_wfp g_psi g_psin g_zeta g_zetan g_f g_v]; intros; try (rewrite put_name by names sw; auto).
    - rewrite put_idx. unfold upd. destruct (Z.eqb_spec (k * n + i0) (k * n + i)) as [E|E]; destruct (Z.eqb_spec i0 i) as [E'|E']; try lia; auto.
    - rewrite <- vq_f0. apply row_ext. intros j Hj. rewrite put_name by names sw. reflexivity. }
  assert (S1 : stored M1) by (intros q j; unfold M1; rewrite put_name by names sw; apply St).
  match goal with |- context [run (bwd_fields K P0 batched pml0 pml1 v2 sw k p (gdims K P0) ?kont) M1] => destruct (bwd_fields_run sw k reg p (gdims K P0) Hd 0 M1 (setp m x) kont V1 S1) as (M' & E & V' & S') end.
  rewrite E. clear E. rewrite (Hset x) in V'. cbn [snd] in V'. unfold setp in V'. cbn [g_wfc g_wfp g_psi g_psin g_zeta g_zetan g_f g_v] in V'.
  assert (Ex : upd (g_wfp K m1) i (w + two * g_wfc K m1 i - g_wfp K m1 i) = x) by (rewrite Kc, Kp; reflexivity).
  rewrite Ex. destruct sto; cbn [Threads.run]; [|exact V'].
  rewrite (vq_v _ _ _ _ V'), (vq_wfc _ _ _ _ V'), S'. cbn [g_wfc g_v]. destruct V'. split; cbn [g_wfc g_wfp g_psi g_psin g_zeta g_zetan g_f g_v] in *; intros; try (rewrite put_name by names sw; auto).
  - rewrite <- vq_f0. apply row_ext. intros j Hj. rewrite put_name by names sw. reflexivity.
  - rewrite put_idx. unfold upd, sh. destruct (Z.eqb_spec (k * n + i0) (k * n + i)) as [E|E]; destruct (Z.eqb_spec i0 i) as [E'|E']; try lia; auto.
Qed.

(** ** What a cell owns and what is shared *)
Definition bshared (sw : bool) (l : loc) : Prop := fst l = qwfc sw \/ (exists d, fst l = qpsi sw d \/ fst l = qzeta sw d) \/ exists s, fst l = NStore s.
Definition bown (sw : bool) (kp : Z * pt) (l : loc) : Prop :=
  snd l = (fst kp * n + idx shape (snd kp))%Z /\ (fst l = qwfp sw \/ (exists d, fst l = qpsin sw d \/ fst l = qzetan sw d) \/ fst l = ga).
Notation F sw kp := (foot (fun l => bshared sw l \/ bown sw kp l) (bown sw kp)).
Lemma sh_wfc sw kp j : bshared sw (qwfc sw, j) \/ bown sw kp (qwfc sw, j).
Proof. left; left; reflexivity. Qed.
Lemma sh_psi sw kp d j : bshared sw (qpsi sw d, j) \/ bown sw kp (qpsi sw d, j).
Proof. left; right; left; exists d; left; reflexivity. Qed.
Lemma sh_zeta sw kp d j : bshared sw (qzeta sw d, j) \/ bown sw kp (qzeta sw d, j).
Proof. left; right; left; exists d; right; reflexivity. Qed.
Lemma bwd_sum_foot sw k p ds : forall w kont, (forall x, F sw (k, p) (kont x)) -> F sw (k, p) (bwd_sum K P0 batched pml0 pml1 v2 sw k p ds w kont).
Proof.
  induction ds as [|d ds IH]; intros w kont Hk; [apply Hk|]. cbn [bwd_sum]. destruct (gpml pml0 pml1 p d).
  - apply foot_rd_st; [intros j; apply sh_wfc|]. intros W. apply foot_rd_st; [intros j; apply sh_zeta|]. intros Zt. apply foot_rd_st; [intros j; apply sh_psi|]. intros S. apply IH, Hk.
  - apply foot_rd_st; [intros j; apply sh_wfc|]. intros W. apply IH, Hk.
Qed.
Lemma bwd_fields_foot sw k p ds : forall kont, F sw (k, p) kont -> F sw (k, p) (bwd_fields K P0 batched pml0 pml1 v2 sw k p ds kont).
Proof.
  induction ds as [|d ds IH]; intros kont Hk; [apply Hk|]. cbn [bwd_fields]. destruct (gpml pml0 pml1 p d); [|apply IH, Hk].
  apply foot_rd_st; [intros j; apply sh_wfc|]. intros W. apply foot_rd_st; [intros j; apply sh_zeta|]. intros Zt. cbv zeta.
  apply foot_load; [apply sh_psi|]. intros ps. apply foot_store; [split; [reflexivity|right; left; exists d; left; reflexivity]|].
  apply foot_load; [apply sh_wfc|]. intros c. apply foot_load; [apply sh_zeta|]. intros z. apply foot_store; [split; [reflexivity|right; left; exists d; right; reflexivity]|]. apply IH, Hk.
Qed.
Lemma bwd_cell_foot sw sto sr si kp : F sw kp (bwd_cell K P0 batched pml0 pml1 v2 ga sw sto sr si kp).
Proof.
  destruct kp as [k p]. unfold bwd_cell. apply bwd_sum_foot. intros w. apply foot_load; [apply sh_wfc|]. intros c.
  assert (Op : bown sw (k, p) (qwfp sw, (k * n + idx shape p)%Z)) by (split; [reflexivity|left; reflexivity]).
  assert (Og : bown sw (k, p) (ga, (k * n + idx shape p)%Z)) by (split; [reflexivity|right; right; reflexivity]).
  apply foot_load; [right; exact Op|]. intros q. apply foot_store; [exact Op|]. apply bwd_fields_foot. destruct sto; [|constructor].
  apply foot_load; [right; exact Og|]. intros g. apply foot_load; [apply sh_wfc|]. intros c'. apply foot_load; [left; right; right; exists si; reflexivity|]. intros dw. apply foot_store; [exact Og|constructor].
Qed.
Lemma bown_shared sw kp l : bown sw kp l -> ~ bshared sw l.
Proof.
  intros [_ O] [S|[(d & [S|S])|(s & S)]]; rewrite S in O; destruct O as [E|[(e & [E|E])|E]]; destruct Hga as [G|G]; try rewrite G in E; destruct sw; discriminate.
Qed.
Lemma bown_disjoint sw a b l : inint (snd a) -> inint (snd b) -> a <> b -> bown sw a l -> ~ bown sw b l.
Proof.
  intros Ha Hb N [E _] [E' _]. apply N. rewrite E in E'. destruct (shot_idx K P0 _ _ _ _ (win_idx K P0 _ Ha) (win_idx K P0 _ Hb) E') as [E1 E2].
  destruct a as [k p], b as [k' q]. cbn in *. f_equal; [exact E1|]. apply (idx_inj shape); [apply (inint_arr K P0); exact Ha|apply (inint_arr K P0); exact Hb|exact E2].
Qed.

(** ** The launch *)
Definition ginv (sw : bool) (M : mem loc K) (fam : Z -> bmem K) : Prop := (forall k, (0 <= k < NS)%Z -> beq (gview sw k M) (fam k)) /\ stored M.
Lemma beq_trans m1 m2 m3 : beq m1 m2 -> beq m2 m3 -> beq m1 m3.
Proof.
  intros [a1 a2 a3 a4 a5 a6 a7 a8] [b1 b2 b3 b4 b5 b6 b7 b8]. split.
  - intros i Hi. rewrite a1, b1 by exact Hi. reflexivity.
  - intros i Hi. rewrite a2, b2 by exact Hi. reflexivity.
  - intros d Hd i Hi. rewrite a3, b3 by assumption. reflexivity.
  - intros d Hd i Hi. rewrite a4, b4 by assumption. reflexivity.
  - intros d Hd i Hi. rewrite a5, b5 by assumption. reflexivity.
  - intros d Hd i Hi. rewrite a6, b6 by assumption. reflexivity.
  - intros t Ht. specialize (a7 t Ht). specialize (b7 t Ht). apply Forall2_eq in a7, b7. apply Forall2_eq. congruence.
  - intros i Hi. rewrite a8, b8 by exact Hi. reflexivity.
Qed.
Lemma beq_SP' k m1 m2 : beq m1 m2 <-> brelm K K eq (SP k) (fun _ => True) m1 m2.
Proof. split; intros []; split; assumption. Qed.
Hypothesis Hpml : forall d, (d < nd)%nat -> (pml0 d <= pml1 d)%Z.
Notation gtag := (gtag K P0 pml0 pml1).
Notation items := (items K P0 NS).
Notation gvis := (gvis K P0 NS pml0 pml1).

Lemma ginv_cell sw sto sr si k p M fam : (0 <= k < NS)%Z -> inint p -> ginv sw M fam ->
  ginv sw (run (bwd_cell K P0 batched pml0 pml1 v2 ga sw sto sr si (k, p)) M) (fset fam k (c_bwd_cell K (SP k) (vk k) (stk k) sto sr si (fam k) (gtag p, p))).
Proof.
  intros Hk Hp [Hi St].
  assert (Fr : forall l, ~ bown sw (k, p) l -> run (bwd_cell K P0 batched pml0 pml1 v2 ga sw sto sr si (k, p)) M l = M l) by (intros l Hl; apply (run_outside loc_eq _ _ _ (bwd_cell_foot sw sto sr si (k, p))); exact Hl).
  split.
  - intros j Hj. unfold fset. destruct (Z.eqb_spec j k) as [->|N].
    + eapply beq_trans; [apply vq_beq; apply (bwd_cell_run sw sto sr si k (gtag p) p M (gview sw k M)); [intros d Hd; apply gtag_in1; assumption|apply vq_view|exact St]|].
      apply (beq_SP' k). apply (brelm_cell K K eq (oprel_eq K) (SP k) (SP k) (prel_refl K _) TT); auto; [intros i _; reflexivity|intros _ i _; reflexivity|]. apply (beq_SP' k). apply Hi. exact Hj.
    + eapply beq_trans; [|apply Hi; exact Hj].
      assert (G : forall a i, (0 <= i < n)%Z -> run (bwd_cell K P0 batched pml0 pml1 v2 ga sw sto sr si (k, p)) M (a, j * n + i)%Z = M (a, j * n + i)%Z).
      { intros a i Hii. apply Fr. intros [E _]. cbn [fst snd] in E. destruct (shot_idx K P0 _ _ _ _ Hii (win_idx K P0 _ Hp) E) as [E1 _]. contradiction. }
      assert (Hf : forall t i, run (bwd_cell K P0 batched pml0 pml1 v2 ga sw sto sr si (k, p)) M (NAmp t, i) = M (NAmp t, i)).
      { intros t i. apply Fr. intros [_ [E|[(e & [E|E])|E]]]; cbn in E; [| | |destruct Hga; congruence]; destruct sw; discriminate. }
      split; cbn; intros; first [apply Forall2_eq; apply row_ext; intros i Hii; apply Hf | intros i Hii; apply G; exact Hii].
  - intros s j. rewrite Fr; [apply St|]. intros O. apply (bown_shared sw (k, p) (NStore s, j) O). right. right. exists s. reflexivity.
Qed.
Lemma ginv_ext sw M M' fam : (forall l, M' l = M l) -> ginv sw M fam -> ginv sw M' fam.
Proof.
  intros E [H St]. split; [|intros s j; rewrite E; apply St]. intros k Hk. eapply beq_trans; [|apply H; exact Hk].
  split; cbn; intros; first [apply Forall2_eq; apply row_ext; intros i Hii; apply E | intros i Hii; apply E].
Qed.
Hypothesis Hsz : sizes_ok fd shape NS.
Theorem bwd_launch sw sto sr si M M' fam : ginv sw M fam -> kexec K (launch_cells fd shape NS) (bwd_thread K P0 NS batched pml0 pml1 v2 ga sw sto sr si) M M' ->
  ginv sw M' (fun k => fold_left (c_bwd_cell K (SP k) (vk k) (stk k) sto sr si) (gvis k) (fam k)) /\
  (forall l, (forall kp, ~ bown sw kp l) -> M' l = M l).
Proof.
  intros Hi [_ He].
  assert (E : forall l, M' l = fold_left (fun m it => run (bwd_cell K P0 batched pml0 pml1 v2 ga sw sto sr si it) m) items M l).
  { apply (kernel_seq loc_eq (threads (launch_cells fd shape NS)) (items_cells fd shape NS) (bwd_cell K P0 batched pml0 pml1 v2 ga sw sto sr si) (bshared sw) (bown sw)).
    - intros it _. apply bwd_cell_foot.
    - intros it l _. apply bown_shared.
    - apply own_pairs; [apply (NoDup_cells fd shape NS (fd_nonneg K P0 NS Hsz) Hsz)|]. intros a b Ha Hb N l. destruct a as [k p], b as [k' p']. apply (In_items K P0 NS Hsz) in Ha, Hb. apply bown_disjoint; [apply Ha|apply Hb|exact N].
    - exact He. }
  split.
  - apply (ginv_ext sw _ M' _ E).
    pose proof (interleave_inv (fun M it => run (bwd_cell K P0 batched pml0 pml1 v2 ga sw sto sr si it) M) (fun k m p => c_bwd_cell K (SP k) (vk k) (stk k) sto sr si m (gtag p, p)) (fun M fam => ginv sw M fam) items M fam) as H.
    assert (X : ginv sw (fold_left (fun m it => run (bwd_cell K P0 batched pml0 pml1 v2 ga sw sto sr si it) m) items M)
       (fun k => fold_left (fun m p => c_bwd_cell K (SP k) (vk k) (stk k) sto sr si m (gtag p, p)) (map snd (filter (fun x => (fst x =? k)%Z) items)) (fam k))).
    { apply H; [| |exact Hi].
      - intros g fm k p Hin Hg. apply (In_items K P0 NS Hsz) in Hin. apply ginv_cell; [apply Hin|apply Hin|exact Hg].
      - intros g fm fm' Hf [Hg St]. split; [|exact St]. intros k Hk. rewrite <- Hf. apply Hg, Hk. }
    destruct X as [X St]. split; [|exact St]. intros k Hk. specialize (X k Hk). unfold GpuFwd.gvis.
    assert (Y : forall l m, fold_left (c_bwd_cell K (SP k) (vk k) (stk k) sto sr si) (map (fun p => (gtag p, p)) l) m = fold_left (fun m p => c_bwd_cell K (SP k) (vk k) (stk k) sto sr si m (gtag p, p)) l m) by (induction l as [|x l IHl]; intros m; [reflexivity|]; cbn; apply IHl).
    rewrite Y. exact X.
  - intros l Hl. rewrite E. apply (items_keep loc_eq (bwd_cell K P0 batched pml0 pml1 v2 ga sw sto sr si) (bshared sw) (bown sw)); [intros it _; apply bwd_cell_foot|]. intros it _. apply Hl.
Qed.
End Kernel.
End Bwd.
