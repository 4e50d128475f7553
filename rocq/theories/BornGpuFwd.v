(** * The forward kernels of the Born propagator on the device do to every shot what the compiled CPU kernel does. *)
From Coq Require Import List ZArith QArith Lia Bool Permutation.
From Verif Require Import Ops Sums Grid Stencil ScalarModel ScalarRefine ScalarForward ScalarBackward ScalarFunc Param ShotsModel Shots Threads GpuModel GpuLaunch GpuFwd GpuLocs BornModel BornGpuModel BornGpuLift.
Import ListNotations.
Local Open Scope K_scope.

(** ** Stores as seen by a shot *)
Section View.
Variable K : ops.
Variable P0 : par K.
Variable nr : Z.
Notation n := (prodZ (p_shape P0)).
Notation vq := (vq K P0 nr).
Ltac names sw := destruct sw; cbn; congruence.
Lemma vq_ext sw k M M' m : (forall l, M' l = M l) -> vq sw k M m -> vq sw k M' m.
Proof. intros E []. split; intros; rewrite ?E; auto. rewrite <- vq_r. apply row_ext. intros; apply E. Qed.
Lemma vq_pml sw k M m d i x z : vq sw k M m ->
  vq sw k (put loc_eq (put loc_eq M (qpsin sw d, (k * n + i)%Z) x) (NZeta d, (k * n + i)%Z) z)
    (mkcmem K (m_wfc K m) (m_wfp K m) (m_psi K m) (updd (m_psin K m) d (upd (m_psin K m d) i x)) (updd (m_zeta K m) d (upd (m_zeta K m d) i z)) (m_store K m) (m_r K m)).
Proof.
  intros []. split; cbn [m_wfc m_wfp m_psi m_psin m_zeta m_store m_r]; intros.
  - rewrite 2!put_name by names sw. auto.
  - rewrite 2!put_name by names sw. auto.
  - rewrite 2!put_name by names sw. auto.
  - rewrite put_name by names sw. unfold updd. destruct (Nat.eqb_spec d0 d) as [->|N].
    + rewrite put_idx. unfold upd. destruct (Z.eqb_spec (k * n + i0) (k * n + i)) as [E|E]; destruct (Z.eqb_spec i0 i) as [E'|E']; try lia; auto.
    + rewrite put_name by names sw. auto.
  - unfold updd. destruct (Nat.eqb_spec d0 d) as [->|N].
    + rewrite put_idx. unfold upd. destruct (Z.eqb_spec (k * n + i0) (k * n + i)) as [E|E]; destruct (Z.eqb_spec i0 i) as [E'|E']; try lia; auto. rewrite put_name by names sw. auto.
    + rewrite 2!put_name by names sw. auto.
  - rewrite 2!put_name by names sw. auto.
  - rewrite <- vq_r. apply row_ext. intros j Hj. rewrite 2!put_name by names sw. reflexivity.
Qed.
Lemma vq_putwfp sw k M m i x : vq sw k M m ->
  vq sw k (put loc_eq M (qwfp sw, (k * n + i)%Z) x) (mkcmem K (m_wfc K m) (upd (m_wfp K m) i x) (m_psi K m) (m_psin K m) (m_zeta K m) (m_store K m) (m_r K m)).
Proof.
  intros []. split; cbn [m_wfc m_wfp m_psi m_psin m_zeta m_store m_r]; intros; try (rewrite put_name by names sw; auto).
  - rewrite put_idx. unfold upd. destruct (Z.eqb_spec (k * n + i0) (k * n + i)) as [E|E]; destruct (Z.eqb_spec i0 i) as [E'|E']; try lia; auto.
  - rewrite <- vq_r. apply row_ext. intros j Hj. rewrite put_name by names sw. reflexivity.
Qed.
Lemma vq_putstore sw k M m si i x : vq sw k M m ->
  vq sw k (put loc_eq M (NStore si, (k * n + i)%Z) x) (mkcmem K (m_wfc K m) (m_wfp K m) (m_psi K m) (m_psin K m) (m_zeta K m) (store_at K (m_store K m) si i x) (m_r K m)).
Proof.
  intros []. split; cbn [m_wfc m_wfp m_psi m_psin m_zeta m_store m_r]; intros; try (rewrite put_name by names sw; auto).
  - unfold store_at. destruct (Z.eqb_spec s si) as [->|N]; [|rewrite put_name by congruence; auto]. rewrite put_idx. unfold upd. destruct (Z.eqb_spec (k * n + i0) (k * n + i)) as [E|E]; destruct (Z.eqb_spec i0 i) as [E'|E']; try lia; auto.
  - rewrite <- vq_r. apply row_ext. intros j Hj. rewrite put_name by names sw. reflexivity.
Qed.
End View.

(** ** The two wavefields of the CPU kernel *)
Section Split.
Variable K : ops.
Variable P : par K.
Lemma n_dims_split reg p ds : forall w wsc bg sc, fold_left (n_fwd_dim K P reg p) ds (w, wsc, mknmem K bg sc) =
  (fst (fold_left (c_fwd_dim K P reg p) ds (w, bg)), fst (fold_left (c_fwd_dim K P reg p) ds (wsc, sc)),
   mknmem K (snd (fold_left (c_fwd_dim K P reg p) ds (w, bg))) (snd (fold_left (c_fwd_dim K P reg p) ds (wsc, sc)))).
Proof.
  induction ds as [|d ds IH]; intros w wsc bg sc; [reflexivity|]. cbn [fold_left].
  assert (E : n_fwd_dim K P reg p (w, wsc, mknmem K bg sc) d =
    (fst (c_fwd_dim K P reg p (w, bg) d), fst (c_fwd_dim K P reg p (wsc, sc) d), mknmem K (snd (c_fwd_dim K P reg p (w, bg) d)) (snd (c_fwd_dim K P reg p (wsc, sc) d)))).
  { unfold n_fwd_dim, c_fwd_dim. cbn [n_bg n_sc]. destruct (nth d reg 0 =? 1)%Z; reflexivity. }
  rewrite E, IH. destruct (c_fwd_dim K P reg p (w, bg) d), (c_fwd_dim K P reg p (wsc, sc) d). reflexivity.
Qed.
End Split.

Section Fwd.
Variable K : ops.
Variable P0 : par K.
Variable NS : Z.
Variables nsrc nrec nrecsc : Z.
Variables srcs recs recssc : Z -> Z.
Variables vbat sbat : bool.
Notation shape := (p_shape P0).
Notation fd := (fd_pad (p_acc P0)).
Notation nd := (length shape).
Notation n := (prodZ shape).
Notation SP := (shot_par K P0 nsrc nrec srcs recs).
Notation inint p := (interior K P0 p = true).
Notation glob := (fglob_of K).
Notation half := (half K).
Notation mem := (mem nloc K).
Notation nrun := (Threads.run nloc_eq).
Notation ceq := (crel K K eq P0 (fun _ => True) (fun _ => True)).
Notation TT := (fun _ : Z => True).

(** What shot [k] sees of both wavefields. *)
Definition nq (sw : bool) (k : Z) (M : mem) (m : nmem K) : Prop :=
  vq K P0 nrec sw k (half false M) (n_bg K m) /\ vq K P0 nrecsc sw k (half true M) (n_sc K m).
Definition nview (sw : bool) (k : Z) (M : mem) : nmem K :=
  mknmem K (fview K P0 nrec k (glob sw (half false M))) (fview K P0 nrecsc k (glob sw (half true M))).
Definition neq (m1 m2 : nmem K) : Prop := ceq (n_bg K m1) (n_bg K m2) /\ ceq (n_sc K m1) (n_sc K m2).
Definition ninv (sw : bool) (M : mem) (fam : Z -> nmem K) : Prop := forall k, (0 <= k < NS)%Z -> neq (nview sw k M) (fam k).
Lemma neq_trans m1 m2 m3 : neq m1 m2 -> neq m2 m3 -> neq m1 m3.
Proof. intros [A B] [C D]. split; eapply ceq_trans; eassumption. Qed.
Lemma nq_view sw k M : nq sw k M (nview sw k M).
Proof. split; apply vq_view. Qed.
Lemma nq_neq sw k M m : nq sw k M m -> neq (nview sw k M) m.
Proof. intros [A B]. split; cbn; apply vq_ceq; assumption. Qed.
(** Stores of one wavefield leave the other alone. *)
Lemma vq_other nr sw k b b' M l x m : b <> b' -> vq K P0 nr sw k (half b M) m -> vq K P0 nr sw k (half b (put nloc_eq M (b', l) x)) m.
Proof. intros N. apply vq_ext. intros l'. apply half_put_other. exact N. Qed.

Section Kernel.
Variables pml0 pml1 : nat -> Z.
Variables v scatter : arr K.
Notation vk k := (shot_v K P0 vbat v k).
Notation sk k := (shot_v K P0 sbat scatter k).
Notation cell := (nfwd_cell K P0 vbat sbat pml0 pml1 v scatter).
Ltac names sw := destruct sw; cbn; congruence.

Lemma nfwd_dims_run sw k reg p ds : (forall d, In d ds -> in1 reg d = negb (gpml pml0 pml1 p d)) -> forall w wsc M m kont, nq sw k M m ->
  exists M', nrun (nfwd_dims K P0 pml0 pml1 sw k p ds w wsc kont) M =
               nrun (kont (fst (fold_left (c_fwd_dim K (SP k) reg p) ds (w, n_bg K m))) (fst (fold_left (c_fwd_dim K (SP k) reg p) ds (wsc, n_sc K m)))) M' /\
             nq sw k M' (mknmem K (snd (fold_left (c_fwd_dim K (SP k) reg p) ds (w, n_bg K m))) (snd (fold_left (c_fwd_dim K (SP k) reg p) ds (wsc, n_sc K m)))).
Proof.
  induction ds as [|d ds IH]; intros Hd w wsc M m kont V; [exists M; split; [reflexivity|destruct V; split; assumption]|].
  cbn [nfwd_dims fold_left]. specialize (IH (fun e He => Hd e (or_intror He))). pose proof (Hd d (or_introl eq_refl)) as Hr. unfold in1 in Hr.
  set (i := idx shape p). set (s := stride shape d). destruct m as [bg sc]. destruct V as [V1 V2]. cbn [n_bg n_sc] in *.
  assert (W1 : forall W, (forall o, (- fd <= o <= fd)%Z -> W o = half false M (qwfc sw, k * n + i + o * s)%Z) -> forall o, (- fd <= o <= fd)%Z -> W o = m_wfc K bg (i + o * s)%Z).
  { intros W HW o Ho. rewrite HW by exact Ho. rewrite <- Z.add_assoc. apply (vq_wfc _ _ _ _ _ _ _ V1). }
  assert (W2 : forall W, (forall o, (- fd <= o <= fd)%Z -> W o = half true M (qwfc sw, k * n + i + o * s)%Z) -> forall o, (- fd <= o <= fd)%Z -> W o = m_wfc K sc (i + o * s)%Z).
  { intros W HW o Ho. rewrite HW by exact Ho. rewrite <- Z.add_assoc. apply (vq_wfc _ _ _ _ _ _ _ V2). }
  destruct (gpml pml0 pml1 p d) eqn:Hg; cbn [negb] in Hr.
  - match goal with |- context [nrun (nrd_st K P0 false (qwfc sw) ?a ?b ?c) M] => destruct (run_nrd_st K P0 false (qwfc sw) a b c M) as (A & E1 & HA) end. rewrite E1. clear E1. specialize (W1 A HA).
    match goal with |- context [nrun (nrd_st K P0 false (qpsi sw d) ?a ?b ?c) M] => destruct (run_nrd_st K P0 false (qpsi sw d) a b c M) as (B & E1 & HB) end. rewrite E1. clear E1.
    match goal with |- context [nrun (nrd_st K P0 true (qwfc sw) ?a ?b ?c) M] => destruct (run_nrd_st K P0 true (qwfc sw) a b c M) as (C & E1 & HC) end. rewrite E1. clear E1. specialize (W2 C HC).
    match goal with |- context [nrun (nrd_st K P0 true (qpsi sw d) ?a ?b ?c) M] => destruct (run_nrd_st K P0 true (qpsi sw d) a b c M) as (D & E1 & HD) end. rewrite E1. clear E1.
    assert (B2 : forall o, (- fd <= o <= fd)%Z -> B o = m_psi K bg d (i + o * s)%Z) by (intros o Ho; rewrite HB by exact Ho; rewrite <- Z.add_assoc; apply (vq_psi _ _ _ _ _ _ _ V1)).
    assert (D2 : forall o, (- fd <= o <= fd)%Z -> D o = m_psi K sc d (i + o * s)%Z) by (intros o Ho; rewrite HD by exact Ho; rewrite <- Z.add_assoc; apply (vq_psi _ _ _ _ _ _ _ V2)).
    cbv zeta. cbn [Threads.run].
    rewrite (DIFF1_ext K (p_acc P0) (p_rd P0 d) A (fun k0 => m_wfc K bg (i + k0 * s)%Z)) by (intros; apply W1; assumption).
    rewrite (DIFF2_ext K (p_acc P0) (p_rd2 P0 d) A (fun k0 => m_wfc K bg (i + k0 * s)%Z)) by (intros; apply W1; assumption).
    rewrite (DIFF1_ext K (p_acc P0) (p_rd P0 d) (fun o => p_a P0 d (coord d p + o)%Z * B o) (fun k0 => p_a P0 d (coord d p + k0)%Z * m_psi K bg d (i + k0 * s)%Z)) by (intros; rewrite B2 by assumption; reflexivity).
    rewrite (DIFF1_ext K (p_acc P0) (p_rd P0 d) C (fun k0 => m_wfc K sc (i + k0 * s)%Z)) by (intros; apply W2; assumption).
    rewrite (DIFF2_ext K (p_acc P0) (p_rd2 P0 d) C (fun k0 => m_wfc K sc (i + k0 * s)%Z)) by (intros; apply W2; assumption).
    rewrite (DIFF1_ext K (p_acc P0) (p_rd P0 d) (fun o => p_a P0 d (coord d p + o)%Z * D o) (fun k0 => p_a P0 d (coord d p + k0)%Z * m_psi K sc d (i + k0 * s)%Z)) by (intros; rewrite D2 by assumption; reflexivity).
    pose proof (vq_zeta _ _ _ _ _ _ _ V1 d i) as Z1. pose proof (vq_psi _ _ _ _ _ _ _ V1 d i) as S1.
    pose proof (vq_zeta _ _ _ _ _ _ _ V2 d i) as Z2. pose proof (vq_psi _ _ _ _ _ _ _ V2 d i) as S2. unfold BornGpuModel.half in Z1, S1, Z2, S2.
    rewrite !(nput_ne K _ _ _ (true, _)) by discriminate. rewrite !(nput_ne K _ (false, (qpsin sw d, _)) _ (false, (NZeta d, _))) by (destruct sw; discriminate).
    rewrite !(nput_ne K _ (true, (qpsin sw d, _)) _ (true, (NZeta d, _))) by (destruct sw; discriminate). rewrite !(nput_ne K _ (false, _) _ (true, _)) by discriminate.
    repeat match goal with |- context [M ?l] =>
      lazymatch l with
      | (false, (NZeta d, _)) => rewrite (Z1 : M l = _) | (true, (NZeta d, _)) => rewrite (Z2 : M l = _)
      | (false, (qpsi sw d, _)) => rewrite (S1 : M l = _) | (true, (qpsi sw d, _)) => rewrite (S2 : M l = _)
      end end.
    match goal with |- context [nrun (nfwd_dims K P0 pml0 pml1 sw k p ds ?w1 ?w2 kont) ?M1] => set (w1' := w1); set (w2' := w2); set (M1' := M1) end.
    destruct (IH w1' w2' M1' (mknmem K (snd (c_fwd_dim K (SP k) reg p (w, bg) d)) (snd (c_fwd_dim K (SP k) reg p (wsc, sc) d))) kont) as (M' & E & V').
    + unfold c_fwd_dim. cbn [p_shape p_b p_a p_acc p_rd p_rd2 p_db shot_par]. fold i. fold s. rewrite Hr. split; cbn [n_bg n_sc snd]; unfold M1'.
      * do 2 (apply vq_other; [discriminate|]). eapply vq_ext; [|apply vq_pml; exact V1]. intros l. rewrite half_put. apply put_cong. intros l'. apply half_put.
      * eapply vq_ext; [|apply vq_pml; exact V2]. intros l. rewrite half_put. apply put_cong. intros l'. rewrite half_put. apply put_cong. intros l2. rewrite 2!half_put_other by discriminate. reflexivity.
    + exists M'. assert (F1 : c_fwd_dim K (SP k) reg p (w, bg) d = (w1', snd (c_fwd_dim K (SP k) reg p (w, bg) d))).
      { unfold c_fwd_dim, w1'. cbn [p_shape p_b p_a p_acc p_rd p_rd2 p_db shot_par]. fold i. fold s. rewrite Hr. reflexivity. }
      assert (F2 : c_fwd_dim K (SP k) reg p (wsc, sc) d = (w2', snd (c_fwd_dim K (SP k) reg p (wsc, sc) d))).
      { unfold c_fwd_dim, w2'. cbn [p_shape p_b p_a p_acc p_rd p_rd2 p_db shot_par]. fold i. fold s. rewrite Hr. reflexivity. }
      rewrite F1, F2. split; assumption.
  - match goal with |- context [nrun (nrd_st K P0 false (qwfc sw) ?a ?b ?c) M] => destruct (run_nrd_st K P0 false (qwfc sw) a b c M) as (A & E1 & HA) end. rewrite E1. clear E1. specialize (W1 A HA).
    match goal with |- context [nrun (nrd_st K P0 true (qwfc sw) ?a ?b ?c) M] => destruct (run_nrd_st K P0 true (qwfc sw) a b c M) as (C & E1 & HC) end. rewrite E1. clear E1. specialize (W2 C HC).
    rewrite (DIFF2_ext K (p_acc P0) (p_rd2 P0 d) A (fun k0 => m_wfc K bg (i + k0 * s)%Z)) by (intros; apply W1; assumption).
    rewrite (DIFF2_ext K (p_acc P0) (p_rd2 P0 d) C (fun k0 => m_wfc K sc (i + k0 * s)%Z)) by (intros; apply W2; assumption).
    unfold c_fwd_dim at 2 4 6 8. cbn [p_shape p_b p_a p_acc p_rd p_rd2 p_db shot_par]. fold i. fold s. rewrite Hr.
    apply (IH _ _ M (mknmem K bg sc)). split; assumption.
Qed.

Lemma nfwd_cell_run sw stw stv si k reg p M m : (forall d, (d < nd)%nat -> in1 reg d = negb (gpml pml0 pml1 p d)) -> nq sw k M m ->
  nq sw k (nrun (cell sw stw stv si (k, p)) M) (n_fwd_cell K (SP k) (vk k) (sk k) stw stv si m (reg, p)).
Proof.
  intros Hr V. unfold nfwd_cell, n_fwd_cell. cbn [p_shape shot_par p_dt2]. change (dims K (SP k)) with (gdims K P0). destruct m as [bg sc]. rewrite n_dims_split.
  match goal with |- context [nrun (nfwd_dims K P0 pml0 pml1 sw k p (gdims K P0) ?z ?z' ?c) M] => destruct (nfwd_dims_run sw k reg p (gdims K P0)) with (w := z) (wsc := z') (M := M) (m := mknmem K bg sc) (kont := c) as (M' & E & V') end.
  - intros d Hd. apply Hr. unfold gdims in Hd. apply in_seq in Hd. lia.
  - exact V.
  - rewrite E. clear E V. cbn [n_bg n_sc] in *. destruct (fold_left (c_fwd_dim K (SP k) reg p) (gdims K P0) (0, bg)) as [w b1]. destruct (fold_left (c_fwd_dim K (SP k) reg p) (gdims K P0) (0, sc)) as [wsc s1]. cbn [fst snd] in *. set (i := idx shape p).
    assert (Ev : vsh K P0 vbat v k i = vk k i) by (unfold vsh, shot_v, sh; destruct vbat; reflexivity).
    assert (Es : vsh K P0 sbat scatter k i = sk k i) by (unfold vsh, shot_v, sh; destruct sbat; reflexivity). rewrite Ev, Es.
    destruct V' as [V1 V2]. cbn [n_bg n_sc] in *. cbn [Threads.run].
    pose proof (vq_wfc _ _ _ _ _ _ _ V1 i) as A1. pose proof (vq_wfp _ _ _ _ _ _ _ V1 i) as A2. pose proof (vq_wfc _ _ _ _ _ _ _ V2 i) as A3. pose proof (vq_wfp _ _ _ _ _ _ _ V2 i) as A4.
    unfold BornGpuModel.half in A1, A2, A3, A4. rewrite !(nput_ne K _ (false, _) _ (true, _)) by discriminate.
    repeat match goal with |- context [M' ?l] =>
      lazymatch l with
      | (false, (qwfc sw, _)) => rewrite (A1 : M' l = _) | (true, (qwfc sw, _)) => rewrite (A3 : M' l = _)
      | (false, (qwfp sw, _)) => rewrite (A2 : M' l = _) | (true, (qwfp sw, _)) => rewrite (A4 : M' l = _)
      end end.
    set (X := vk k i * vk k i * p_dt2 P0 * w + two * m_wfc K b1 i - m_wfp K b1 i). set (Y := vk k i * vk k i * p_dt2 P0 * wsc + two * m_wfc K s1 i - m_wfp K s1 i + two * vk k i * sk k i * p_dt2 P0 * w).
    set (M1 := put nloc_eq M' (false, (qwfp sw, (k * n + i)%Z)) X). set (M2 := put nloc_eq M1 (true, (qwfp sw, (k * n + i)%Z)) Y).
    pose proof (vq_putwfp K P0 nrec sw k _ _ i X V1) as U1. pose proof (vq_putwfp K P0 nrecsc sw k _ _ i Y V2) as U2.
    assert (T1 : vq K P0 nrec sw k (half false M2) (mkcmem K (m_wfc K b1) (upd (m_wfp K b1) i X) (m_psi K b1) (m_psin K b1) (m_zeta K b1) (m_store K b1) (m_r K b1))).
    { apply vq_other; [discriminate|]. eapply vq_ext; [|exact U1]. intros l. apply half_put. }
    assert (T2 : vq K P0 nrecsc sw k (half true M2) (mkcmem K (m_wfc K s1) (upd (m_wfp K s1) i Y) (m_psi K s1) (m_psin K s1) (m_zeta K s1) (m_store K s1) (m_r K s1))).
    { eapply vq_ext; [|exact U2]. intros l. unfold M2. rewrite half_put. apply put_cong. intros l'. apply half_put_other. discriminate. }
    pose proof (vq_putstore K P0 nrec sw k _ _ si i w T1) as S1. pose proof (vq_putstore K P0 nrecsc sw k _ _ si i wsc T2) as S2. cbn [m_wfc m_wfp m_psi m_psin m_zeta m_store m_r] in S1, S2.
    assert (S1' : vq K P0 nrec sw k (half false (put nloc_eq M2 (false, (NStore si, (k * n + i)%Z)) w)) (mkcmem K (m_wfc K b1) (upd (m_wfp K b1) i X) (m_psi K b1) (m_psin K b1) (m_zeta K b1) (store_at K (m_store K b1) si i w) (m_r K b1))).
    { eapply vq_ext; [|exact S1]. intros l. apply half_put. }
    assert (S2' : forall M3, (forall l, half true M3 l = half true M2 l) -> vq K P0 nrecsc sw k (half true (put nloc_eq M3 (true, (NStore si, (k * n + i)%Z)) wsc)) (mkcmem K (m_wfc K s1) (upd (m_wfp K s1) i Y) (m_psi K s1) (m_psin K s1) (m_zeta K s1) (store_at K (m_store K s1) si i wsc) (m_r K s1))).
    { intros M3 EM. eapply vq_ext; [|exact S2]. intros l. rewrite half_put. apply put_cong. exact EM. }
    destruct stw, stv; cbn [bind Threads.run]; split; cbn [n_bg n_sc].
    + apply vq_other; [discriminate|]. exact S1'.
    + apply S2'. intros l. apply half_put_other. discriminate.
    + exact S1'.
    + apply vq_other; [discriminate|]. exact T2.
    + apply vq_other; [discriminate|]. exact T1.
    + apply S2'. reflexivity.
    + exact T1.
    + exact T2.
Qed.

(** ** What a cell owns and what is shared *)
Definition nshared (sw : bool) (l : nloc) : Prop := fshared sw (snd l).
Definition nown (sw : bool) (kp : Z * pt) (l : nloc) : Prop := fown K P0 sw kp (snd l).
Lemma nfwd_dims_foot sw k p ds : forall w wsc kont, (forall x y, foot (fun l => nshared sw l \/ nown sw (k, p) l) (nown sw (k, p)) (kont x y)) ->
  foot (fun l => nshared sw l \/ nown sw (k, p) l) (nown sw (k, p)) (nfwd_dims K P0 pml0 pml1 sw k p ds w wsc kont).
Proof.
  induction ds as [|d ds IH]; intros w wsc kont Hk; [apply Hk|]. cbn [nfwd_dims].
  assert (S1 : forall b j, nshared sw (b, (qwfc sw, j)) \/ nown sw (k, p) (b, (qwfc sw, j))) by (intros b j; left; left; reflexivity).
  assert (S2 : forall b e j, nshared sw (b, (qpsi sw e, j)) \/ nown sw (k, p) (b, (qpsi sw e, j))) by (intros b e j; left; right; exists e; reflexivity).
  assert (O1 : forall b e, nown sw (k, p) (b, (NZeta e, k * n + idx shape p)%Z)) by (intros b e; split; [reflexivity|]; right; left; exists e; right; reflexivity).
  assert (O2 : forall b e, nown sw (k, p) (b, (qpsin sw e, k * n + idx shape p)%Z)) by (intros b e; split; [reflexivity|]; right; left; exists e; left; reflexivity).
  destruct (gpml pml0 pml1 p d).
  - apply foot_nrd_st; [apply S1|]. intros W. apply foot_nrd_st; [apply S2|]. intros S. apply foot_nrd_st; [apply S1|]. intros W'. apply foot_nrd_st; [apply S2|]. intros S'. cbv zeta.
    apply foot_load; [right; apply O1|]. intros z. apply foot_load; [right; apply O1|]. intros zsc.
    apply foot_load; [apply S2|]. intros ps. apply foot_store; [apply O2|].
    apply foot_load; [right; apply O1|]. intros z'. apply foot_store; [apply O1|].
    apply foot_load; [apply S2|]. intros ps'. apply foot_store; [apply O2|].
    apply foot_load; [right; apply O1|]. intros z2. apply foot_store; [apply O1|]. apply IH, Hk.
  - apply foot_nrd_st; [apply S1|]. intros W. apply foot_nrd_st; [apply S1|]. intros W'. apply IH, Hk.
Qed.
Lemma nfwd_cell_foot sw stw stv si kp : foot (fun l => nshared sw l \/ nown sw kp l) (nown sw kp) (cell sw stw stv si kp).
Proof.
  destruct kp as [k p]. unfold nfwd_cell. apply nfwd_dims_foot. intros w wsc.
  assert (O : forall b, nown sw (k, p) (b, (qwfp sw, (k * n + idx shape p)%Z))) by (intros b; split; [reflexivity|left; reflexivity]).
  assert (O' : forall b, nown sw (k, p) (b, (NStore si, (k * n + idx shape p)%Z))) by (intros b; split; [reflexivity|right; right; exists si; reflexivity]).
  apply foot_load; [left; left; reflexivity|]. intros c. apply foot_load; [right; apply O|]. intros q. apply foot_store; [apply O|].
  apply foot_load; [left; left; reflexivity|]. intros c'. apply foot_load; [right; apply O|]. intros q'. apply foot_store; [apply O|].
  destruct stw, stv; cbn [bind]; repeat first [apply foot_store; [apply O'|]|constructor].
Qed.
Lemma nown_shared sw kp l : nown sw kp l -> ~ nshared sw l.
Proof. apply fown_shared. Qed.
Lemma nown_disjoint sw a b l : inint (snd a) -> inint (snd b) -> a <> b -> nown sw a l -> ~ nown sw b l.
Proof. apply fown_disjoint. Qed.

(** ** The launch *)
Notation gtag := (gtag K P0 pml0 pml1).
Notation gvis := (gvis K P0 NS pml0 pml1).
Notation items := (items K P0 NS).
Lemma n_cell_eq k stw stv si m1 m2 reg p : inint p -> neq m1 m2 ->
  neq (n_fwd_cell K (SP k) (vk k) (sk k) stw stv si m1 (reg, p)) (n_fwd_cell K (SP k) (vk k) (sk k) stw stv si m2 (reg, p)).
Proof.
  intros Hp [H1 H2]. destruct m1 as [b1 s1], m2 as [b2 s2]. cbn [n_bg n_sc] in *. unfold n_fwd_cell. rewrite !n_dims_split. change (dims K (SP k)) with (gdims K P0).
  assert (Hd : forall d, In d (gdims K P0) -> (d < nd)%nat) by (intros d Hd; unfold gdims in Hd; apply in_seq in Hd; lia).
  destruct (crel_dims K K eq (oprel_eq K) (SP k) (SP k) (prel_refl K _) TT TT reg p (gdims K P0) 0 0 b1 b2 Hp Hd eq_refl) as [A1 A2]; [apply (ceq_SP K P0 nsrc nrec srcs recs k); exact H1|].
  destruct (crel_dims K K eq (oprel_eq K) (SP k) (SP k) (prel_refl K _) TT TT reg p (gdims K P0) 0 0 s1 s2 Hp Hd eq_refl) as [B1 B2]; [apply (ceq_SP K P0 nsrc nrec srcs recs k); exact H2|].
  rewrite A1, B1. pose proof (win_idx K P0 p Hp) as Hi. cbn [p_shape shot_par p_dt2].
  destruct A2 as [c1 c2 c3 c4 c5 c6 c7], B2 as [e1 e2 e3 e4 e5 e6 e7]. split; cbn [n_bg n_sc]; split; cbn [m_wfc m_wfp m_psi m_psin m_zeta m_store m_r]; auto.
  - rewrite (c1 _ Hi), (c2 _ Hi). intros j Hj. unfold upd. destruct (j =? idx shape p)%Z; [reflexivity|apply c2; exact Hj].
  - intros t Ht j Hj. destruct stw; [|apply c6; assumption]. unfold store_at. destruct (Z.eqb_spec t si) as [->|N]; [|apply c6; assumption]. unfold upd. destruct (j =? idx shape p)%Z; [reflexivity|apply c6; assumption].
  - rewrite (e1 _ Hi), (e2 _ Hi). intros j Hj. unfold upd. destruct (j =? idx shape p)%Z; [reflexivity|apply e2; exact Hj].
  - intros t Ht j Hj. destruct stv; [|apply e6; assumption]. unfold store_at. destruct (Z.eqb_spec t si) as [->|N]; [|apply e6; assumption]. unfold upd. destruct (j =? idx shape p)%Z; [reflexivity|apply e6; assumption].
Qed.
Lemma view_other nr sw k b M M' : (forall a i, (0 <= i < n)%Z -> half b M' (a, k * n + i)%Z = half b M (a, k * n + i)%Z) -> (forall t i, half b M' (NAmp t, i) = half b M (NAmp t, i)) ->
  ceq (fview K P0 nr k (glob sw (half b M'))) (fview K P0 nr k (glob sw (half b M))).
Proof. intros F G. split; cbn; intros; try (intros i Hii; apply F; exact Hii). apply Forall2_eq. apply row_ext. intros i Hii. apply G. Qed.
Lemma ninv_cell sw stw stv si k p M fam : (forall d, (d < nd)%nat -> (pml0 d <= pml1 d)%Z) -> (0 <= k < NS)%Z -> inint p -> ninv sw M fam ->
  ninv sw (nrun (cell sw stw stv si (k, p)) M) (fset fam k (n_fwd_cell K (SP k) (vk k) (sk k) stw stv si (fam k) (gtag p, p))).
Proof.
  intros Hb Hk Hp Hi j Hj. unfold fset. destruct (Z.eqb_spec j k) as [->|N].
  - eapply neq_trans; [apply nq_neq; apply (nfwd_cell_run sw stw stv si k (gtag p) p M (nview sw k M)); [intros d Hd; apply gtag_in1; assumption|apply nq_view]|]. apply n_cell_eq; [exact Hp|]. apply Hi. exact Hj.
  - eapply neq_trans; [|apply Hi; exact Hj].
    assert (F : forall b a i, (0 <= i < n)%Z -> half b (nrun (cell sw stw stv si (k, p)) M) (a, j * n + i)%Z = half b M (a, j * n + i)%Z).
    { intros b a i Hii. apply (run_outside nloc_eq _ _ _ (nfwd_cell_foot sw stw stv si (k, p))). intros [E _]. cbn [fst snd] in E. destruct (shot_idx K P0 _ _ _ _ Hii (win_idx K P0 _ Hp) E) as [E1 _]. contradiction. }
    assert (G : forall b t i, half b (nrun (cell sw stw stv si (k, p)) M) (NAmp t, i) = half b M (NAmp t, i)).
    { intros b t i. apply (run_outside nloc_eq _ _ _ (nfwd_cell_foot sw stw stv si (k, p))). intros [_ [E|[(e & [E|E])|(s & E)]]]; cbn in E; destruct sw; discriminate. }
    split; cbn; apply view_other; auto.
Qed.
Lemma ninv_ext sw M M' fam : (forall l, M' l = M l) -> ninv sw M fam -> ninv sw M' fam.
Proof. intros E H k Hk. eapply neq_trans; [|apply H; exact Hk]. split; cbn; apply view_other; intros; apply E. Qed.

Hypothesis Hsz : sizes_ok fd shape NS.
Hypothesis Hpml : forall d, (d < nd)%nat -> (pml0 d <= pml1 d)%Z.
Theorem nfwd_launch sw stw stv si M M' fam : ninv sw M fam -> nkexec K (launch_cells fd shape NS) (nfwd_thread K P0 NS vbat sbat pml0 pml1 v scatter sw stw stv si) M M' ->
  ninv sw M' (fun k => fold_left (n_fwd_cell K (SP k) (vk k) (sk k) stw stv si) (gvis k) (fam k)).
Proof.
  intros Hi [_ He].
  assert (E : forall l, M' l = fold_left (fun m it => nrun (cell sw stw stv si it) m) items M l).
  { apply (kernel_seq nloc_eq (threads (launch_cells fd shape NS)) (items_cells fd shape NS) (cell sw stw stv si) (nshared sw) (nown sw)).
    - intros it _. apply nfwd_cell_foot.
    - intros it l _. apply nown_shared.
    - apply own_pairs; [apply (NoDup_cells fd shape NS (fd_nonneg K P0 NS Hsz) Hsz)|]. intros a b Ha Hb N l. destruct a as [k p], b as [k' p']. apply (In_items K P0 NS Hsz) in Ha, Hb. apply nown_disjoint; [apply Ha|apply Hb|exact N].
    - exact He. }
  apply (ninv_ext sw _ M' _ E).
  pose proof (interleave_inv (fun M it => nrun (cell sw stw stv si it) M) (fun k m p => n_fwd_cell K (SP k) (vk k) (sk k) stw stv si m (gtag p, p)) (fun M fam => ninv sw M fam) items M fam) as H.
  assert (F : ninv sw (fold_left (fun m it => nrun (cell sw stw stv si it) m) items M)
     (fun k => fold_left (fun m p => n_fwd_cell K (SP k) (vk k) (sk k) stw stv si m (gtag p, p)) (map snd (filter (fun x => (fst x =? k)%Z) items)) (fam k))).
  { apply H; [| |exact Hi].
    - intros g fm k p Hin Hg. apply (In_items K P0 NS Hsz) in Hin. apply ninv_cell; [exact Hpml|apply Hin|apply Hin|exact Hg].
    - intros g fm fm' Hf Hg k Hk. rewrite <- Hf. apply Hg, Hk. }
  intros k Hk. specialize (F k Hk). unfold GpuFwd.gvis. assert (Y : forall l m, fold_left (n_fwd_cell K (SP k) (vk k) (sk k) stw stv si) (map (fun p => (gtag p, p)) l) m = fold_left (fun m p => n_fwd_cell K (SP k) (vk k) (sk k) stw stv si m (gtag p, p)) l m) by (induction l as [|x l IHl]; intros m; [reflexivity|]; cbn; apply IHl).
  rewrite Y. exact F.
Qed.
End Kernel.
End Fwd.
