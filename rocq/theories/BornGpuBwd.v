(** * The backward kernel of the Born propagator on the device does to every shot what the compiled CPU kernel does. *)
From Coq Require Import List ZArith QArith Lia Bool Permutation.
From Verif Require Import Ops Sums Grid Stencil ScalarModel ScalarRefine ScalarForward ScalarBackward ScalarFunc Param ShotsModel Shots Threads GpuModel GpuLaunch GpuFwd GpuLocs GpuBwd BornModel BornGpuModel BornGpuLift.
Import ListNotations.
Local Open Scope K_scope.

(** ** Stores as seen by a shot *)
Section View.
Variable K : ops.
Variable P0 : par K.
Variable nsrc : Z.
Variable ga : aname.
Hypothesis Hga : ga = NGrad \/ ga = NGradShot.
Notation n := (prodZ (p_shape P0)).
Notation vq := (GpuBwd.vq K P0 nsrc ga).
Ltac names sw := destruct Hga; destruct sw; cbn; congruence.
Lemma gq_ext sw k M M' m : (forall l, M' l = M l) -> vq sw k M m -> vq sw k M' m.
Proof. intros E []. split; intros; rewrite ?E; auto. rewrite <- vq_f. apply row_ext. intros; apply E. Qed.
Lemma gq_pml sw k M m d i x z : vq sw k M m ->
  vq sw k (put loc_eq (put loc_eq M (qpsin sw d, (k * n + i)%Z) x) (qzetan sw d, (k * n + i)%Z) z)
    (mkbmem K (g_wfc K m) (g_wfp K m) (g_psi K m) (updd (g_psin K m) d (upd (g_psin K m d) i x)) (g_zeta K m) (updd (g_zetan K m) d (upd (g_zetan K m d) i z)) (g_f K m) (g_v K m)).
Proof.
  intros []. split; cbn [g_wfc g_wfp g_psi g_psin g_zeta g_zetan g_f g_v]; intros.
  - rewrite 2!put_name by names sw. auto.
  - rewrite 2!put_name by names sw. auto.
  - rewrite 2!put_name by names sw. auto.
  - rewrite put_name by names sw. unfold updd. destruct (Nat.eqb_spec d0 d) as [->|N].
    + rewrite put_idx. unfold upd. destruct (Z.eqb_spec (k * n + i0) (k * n + i)) as [E|E]; destruct (Z.eqb_spec i0 i) as [E'|E']; try lia; auto.
    + rewrite put_name by names sw. auto.
  - rewrite 2!put_name by names sw. auto.
  - unfold updd. destruct (Nat.eqb_spec d0 d) as [->|N].
    + rewrite put_idx. unfold upd. destruct (Z.eqb_spec (k * n + i0) (k * n + i)) as [E|E]; destruct (Z.eqb_spec i0 i) as [E'|E']; try lia; auto. rewrite put_name by names sw. auto.
    + rewrite 2!put_name by names sw. auto.
  - rewrite <- vq_f. apply row_ext. intros j Hj. rewrite 2!put_name by names sw. reflexivity.
  - rewrite 2!put_name by names sw. auto.
Qed.
Lemma gq_putwfp sw k M m i x : vq sw k M m -> vq sw k (put loc_eq M (qwfp sw, (k * n + i)%Z) x) (setp K m (upd (g_wfp K m) i x)).
Proof.
  intros []. unfold setp. split; cbn [g_wfc g_wfp g_psi g_psin g_zeta g_zetan g_f g_v]; intros; try (rewrite put_name by names sw; auto).
  - rewrite put_idx. unfold upd. destruct (Z.eqb_spec (k * n + i0) (k * n + i)) as [E|E]; destruct (Z.eqb_spec i0 i) as [E'|E']; try lia; auto.
  - rewrite <- vq_f. apply row_ext. intros j Hj. rewrite put_name by names sw. reflexivity.
Qed.
Lemma gq_putgv sw k M m i x : vq sw k M m -> vq sw k (put loc_eq M (ga, (k * n + i)%Z) x)
  (mkbmem K (g_wfc K m) (g_wfp K m) (g_psi K m) (g_psin K m) (g_zeta K m) (g_zetan K m) (g_f K m) (upd (g_v K m) i x)).
Proof.
  intros []. split; cbn [g_wfc g_wfp g_psi g_psin g_zeta g_zetan g_f g_v]; intros; try (rewrite put_name by names sw; auto).
  - rewrite <- vq_f. apply row_ext. intros j Hj. rewrite put_name by names sw. reflexivity.
  - rewrite put_idx. unfold upd. destruct (Z.eqb_spec (k * n + i0) (k * n + i)) as [E|E]; destruct (Z.eqb_spec i0 i) as [E'|E']; try lia; auto.
Qed.
End View.

Section Bwd.
Variable K : ops.
Variable P0 : par K.
Variable NS : Z.
Variables nsrc nrec : Z.
Variables srcs recs : Z -> Z.
Variables vbat sbat : bool.
Notation shape := (p_shape P0).
Notation fd := (fd_pad (p_acc P0)).
Notation nd := (length shape).
Notation n := (prodZ shape).
Notation SP := (shot_par K P0 nsrc nrec srcs recs).
Notation inint p := (interior K P0 p = true).
Notation half := (half K).
Notation mem := (mem nloc K).
Notation nrun := (Threads.run nloc_eq).
Notation beq := (brelm K K eq P0 (fun _ => True)).
Variables gav gas : aname.
Hypothesis Hgav : gav = NGrad \/ gav = NGradShot.
Hypothesis Hgas : gas = NGrad \/ gas = NGradShot.
Variables sw_ swsc_ : Z -> arr K.   (* snapshots of the two wavefields *)

(** What shot [k] sees of both wavefields. *)
Definition hq (sw : bool) (k : Z) (M : mem) (m : hmem K) : Prop :=
  GpuBwd.vq K P0 nsrc gav sw k (half false M) (h_bg K m) /\ GpuBwd.vq K P0 nsrc gas sw k (half true M) (h_sc K m).
Definition hview (sw : bool) (k : Z) (M : mem) : hmem K :=
  mkhmem K (gview K P0 nsrc gav sw k (half false M)) (gview K P0 nsrc gas sw k (half true M)).
Definition heq (m1 m2 : hmem K) : Prop := beq (h_bg K m1) (h_bg K m2) /\ beq (h_sc K m1) (h_sc K m2).
Definition hstored (M : mem) : Prop := stored K sw_ (half false M) /\ stored K swsc_ (half true M).
Definition hinv (sw : bool) (M : mem) (fam : Z -> hmem K) : Prop := (forall k, (0 <= k < NS)%Z -> heq (hview sw k M) (fam k)) /\ hstored M.
Lemma heq_trans m1 m2 m3 : heq m1 m2 -> heq m2 m3 -> heq m1 m3.
Proof. intros [A B] [C D]. split; eapply (beq_trans K P0); eassumption. Qed.
Lemma hq_view sw k M : hq sw k M (hview sw k M).
Proof. split; apply GpuBwd.vq_view. Qed.
Lemma hq_heq sw k M m : hq sw k M m -> heq (hview sw k M) m.
Proof. intros [A B]. split; cbn; apply GpuBwd.vq_beq; assumption. Qed.

(** ** The two wavefields of the CPU kernel *)
Definition hsetp (m : hmem K) (x y : arr K) : hmem K := mkhmem K (setp K (h_bg K m) x) (setp K (h_sc K m) y).
Lemma h_dims_setp P v sc reg p ds : forall w wsc m x y,
  fold_left (h_bwd_dim K P v sc reg p) ds (w, wsc, hsetp m x y) = (fst (fold_left (h_bwd_dim K P v sc reg p) ds (w, wsc, m)), hsetp (snd (fold_left (h_bwd_dim K P v sc reg p) ds (w, wsc, m))) x y).
Proof.
  induction ds as [|d ds IH]; intros w wsc m x y; [reflexivity|]. cbn [fold_left].
  assert (E : h_bwd_dim K P v sc reg p (w, wsc, hsetp m x y) d = (fst (h_bwd_dim K P v sc reg p (w, wsc, m) d), hsetp (snd (h_bwd_dim K P v sc reg p (w, wsc, m) d)) x y)) by (unfold h_bwd_dim; destruct (_ =? 1)%Z; reflexivity).
  rewrite E. destruct (h_bwd_dim K P v sc reg p (w, wsc, m) d) as [[w1 w2] m1]. cbn [fst snd]. apply IH.
Qed.
Definition same3 (m1 m : bmem K) : Prop := g_wfc K m1 = g_wfc K m /\ g_wfp K m1 = g_wfp K m /\ g_v K m1 = g_v K m /\ g_f K m1 = g_f K m.
Lemma h_dims_keep P v sc reg p ds : forall w wsc m, same3 (h_bg K (snd (fold_left (h_bwd_dim K P v sc reg p) ds (w, wsc, m)))) (h_bg K m) /\ same3 (h_sc K (snd (fold_left (h_bwd_dim K P v sc reg p) ds (w, wsc, m)))) (h_sc K m).
Proof.
  induction ds as [|d ds IH]; intros w wsc m; [repeat split|]. cbn [fold_left].
  assert (E : same3 (h_bg K (snd (h_bwd_dim K P v sc reg p (w, wsc, m) d))) (h_bg K m) /\ same3 (h_sc K (snd (h_bwd_dim K P v sc reg p (w, wsc, m) d))) (h_sc K m)) by (unfold h_bwd_dim; destruct (_ =? 1)%Z; repeat split).
  destruct (h_bwd_dim K P v sc reg p (w, wsc, m) d) as [[w1 w2] m1]. cbn [snd] in E. destruct (IH w1 w2 m1) as [(A & B & C & D) (A' & B' & C' & D')]. destruct E as [(E1 & E2 & E3 & E4) (E5 & E6 & E7 & E8)].
  unfold same3. rewrite A, B, C, D, A', B', C', D'. repeat split; assumption.
Qed.

Section Kernel.
Variables pml0 pml1 : nat -> Z.
Variables v scatter : arr K.
Notation vk k := (shot_v K P0 vbat v k).
Notation sk k := (shot_v K P0 sbat scatter k).
Notation stk k := (fun s => sh K P0 k (sw_ s)).
Notation stsck k := (fun s => sh K P0 k (swsc_ s)).
Notation cell := (nbwd_cell K P0 vbat sbat pml0 pml1 v scatter gav gas).
Notation hdim k reg p := (h_bwd_dim K (SP k) (vk k) (sk k) reg p).
Lemma vsh_v k j : vsh K P0 vbat v k j = vk k j.
Proof. unfold vsh, shot_v, sh. destruct vbat; reflexivity. Qed.
Lemma vsh_s k j : vsh K P0 sbat scatter k j = sk k j.
Proof. unfold vsh, shot_v, sh. destruct sbat; reflexivity. Qed.
Ltac rdst X H := match goal with |- context [Threads.run nloc_eq (nrd_st K P0 ?b ?a ?i ?s ?c) ?M] => let E := fresh in destruct (run_nrd_st K P0 b a i s c M) as (X & E & H); rewrite E; clear E end.

(** The arrays the kernel only reads. *)
Definition hrd (sw : bool) (k : Z) (M : mem) (m : hmem K) : Prop := forall i,
  half false M (qwfc sw, k * n + i)%Z = g_wfc K (h_bg K m) i /\ half true M (qwfc sw, k * n + i)%Z = g_wfc K (h_sc K m) i /\
  forall d, half false M (qpsi sw d, k * n + i)%Z = g_psi K (h_bg K m) d i /\ half true M (qpsi sw d, k * n + i)%Z = g_psi K (h_sc K m) d i /\
            half false M (qzeta sw d, k * n + i)%Z = g_zeta K (h_bg K m) d i /\ half true M (qzeta sw d, k * n + i)%Z = g_zeta K (h_sc K m) d i.
Lemma hq_hrd sw k M m : hq sw k M m -> hrd sw k M m.
Proof. intros [[] []] i. split; [auto|split; [auto|]]. intros d. auto. Qed.
Lemma nbwd_sum_run sw k reg p ds : (forall d, In d ds -> in1 reg d = negb (gpml pml0 pml1 p d)) -> forall w wsc M m kont, hrd sw k M m ->
  nrun (nbwd_sum K P0 vbat sbat pml0 pml1 v scatter sw k p ds w wsc kont) M =
  nrun (kont (fst (fst (fold_left (hdim k reg p) ds (w, wsc, m)))) (snd (fst (fold_left (hdim k reg p) ds (w, wsc, m))))) M.
Proof.
  induction ds as [|d ds IH]; intros Hd w wsc M m kont R; [reflexivity|].
  cbn [nbwd_sum fold_left]. specialize (IH (fun e He => Hd e (or_intror He))). pose proof (Hd d (or_introl eq_refl)) as Hr. unfold in1 in Hr.
  pose proof (eq_refl (hdim k reg p (w, wsc, m) d)) as Ed. unfold h_bwd_dim in Ed at 2. cbn [p_shape p_b p_a p_acc p_rd p_rd2 p_db p_dt2 shot_par] in Ed. cbv zeta in Ed. rewrite Hr in Ed.
  set (i := idx shape p) in *. set (s := stride shape d) in *.
  assert (R1 : forall W, (forall o, (- fd <= o <= fd)%Z -> W o = half false M (qwfc sw, k * n + i + o * s)%Z) -> forall o, (- fd <= o <= fd)%Z -> W o = g_wfc K (h_bg K m) (i + o * s)%Z) by (intros W H o Ho; rewrite H by exact Ho; rewrite <- Z.add_assoc; apply R).
  assert (R2 : forall W, (forall o, (- fd <= o <= fd)%Z -> W o = half true M (qwfc sw, k * n + i + o * s)%Z) -> forall o, (- fd <= o <= fd)%Z -> W o = g_wfc K (h_sc K m) (i + o * s)%Z) by (intros W H o Ho; rewrite H by exact Ho; rewrite <- Z.add_assoc; apply R).
  destruct (gpml pml0 pml1 p d); cbn [negb] in Ed; rewrite Ed; clear Ed.
  - rdst A HA. rdst B HB. rdst C HC. rdst D HD. rdst E HE. rdst F HF. cbv zeta.
    assert (HC' : forall o, (- fd <= o <= fd)%Z -> C o = g_zeta K (h_bg K m) d (i + o * s)%Z) by (intros o Ho; rewrite HC by exact Ho; rewrite <- Z.add_assoc; apply R).
    assert (HD' : forall o, (- fd <= o <= fd)%Z -> D o = g_psi K (h_bg K m) d (i + o * s)%Z) by (intros o Ho; rewrite HD by exact Ho; rewrite <- Z.add_assoc; apply R).
    assert (HE' : forall o, (- fd <= o <= fd)%Z -> E o = g_zeta K (h_sc K m) d (i + o * s)%Z) by (intros o Ho; rewrite HE by exact Ho; rewrite <- Z.add_assoc; apply R).
    assert (HF' : forall o, (- fd <= o <= fd)%Z -> F o = g_psi K (h_sc K m) d (i + o * s)%Z) by (intros o Ho; rewrite HF by exact Ho; rewrite <- Z.add_assoc; apply R).
    specialize (R1 A HA). specialize (R2 B HB).
    match goal with |- Threads.run _ (nbwd_sum _ _ _ _ _ _ _ _ _ _ _ _ ?x ?y _) _ = Threads.run _ (kont (fst (fst (fold_left _ ds (?x', ?y', _)))) _) _ => assert (Ex : x = x'); [|assert (Ey : y = y'); [|rewrite Ex, Ey; apply IH; exact R]] end.
    + f_equal. f_equal; [f_equal|].
      * apply DIFF1_ext. intros o Ho _. unfold nv2w. rewrite vsh_v, vsh_s, R1, R2, HC', HD' by exact Ho. reflexivity.
      * apply DIFF2_ext. intros o Ho. unfold nv2w. rewrite vsh_v, vsh_s, R1, R2, HC' by exact Ho. reflexivity.
    + f_equal. f_equal; [f_equal|].
      * apply DIFF1_ext. intros o Ho _. unfold nv2wsc. rewrite vsh_v, R2, HE', HF' by exact Ho. reflexivity.
      * apply DIFF2_ext. intros o Ho. unfold nv2wsc. rewrite vsh_v, R2, HE' by exact Ho. reflexivity.
  - rdst A HA. rdst B HB. specialize (R1 A HA). specialize (R2 B HB).
    match goal with |- Threads.run _ (nbwd_sum _ _ _ _ _ _ _ _ _ _ _ _ ?x ?y _) _ = Threads.run _ (kont (fst (fst (fold_left _ ds (?x', ?y', _)))) _) _ => assert (Ex : x = x'); [|assert (Ey : y = y'); [|rewrite Ex, Ey; apply IH; exact R]] end.
    + f_equal. apply DIFF2_ext. intros o Ho. unfold nv2w. rewrite vsh_v, vsh_s, R1, R2 by exact Ho. reflexivity.
    + f_equal. apply DIFF2_ext. intros o Ho. unfold nv2wsc. rewrite vsh_v, R2 by exact Ho. reflexivity.
Qed.

(** Stores of one wavefield. *)
Lemma hq_sc sw k M m d i x z : hq sw k M m ->
  hq sw k (put nloc_eq (put nloc_eq M (true, (qpsin sw d, (k * n + i)%Z)) x) (true, (qzetan sw d, (k * n + i)%Z)) z)
    (mkhmem K (h_bg K m) (mkbmem K (g_wfc K (h_sc K m)) (g_wfp K (h_sc K m)) (g_psi K (h_sc K m)) (updd (g_psin K (h_sc K m)) d (upd (g_psin K (h_sc K m) d) i x)) (g_zeta K (h_sc K m)) (updd (g_zetan K (h_sc K m)) d (upd (g_zetan K (h_sc K m) d) i z)) (g_f K (h_sc K m)) (g_v K (h_sc K m)))).
Proof.
  intros [A B]. split; cbn [h_bg h_sc].
  - eapply gq_ext; [|exact A]. intros l. rewrite 2!half_put_other by discriminate. reflexivity.
  - eapply gq_ext; [|apply (gq_pml K P0 nsrc gas Hgas); exact B]. intros l. rewrite half_put. apply put_cong. intros l'. apply half_put.
Qed.
Lemma hq_bg sw k M m d i x z : hq sw k M m ->
  hq sw k (put nloc_eq (put nloc_eq M (false, (qpsin sw d, (k * n + i)%Z)) x) (false, (qzetan sw d, (k * n + i)%Z)) z)
    (mkhmem K (mkbmem K (g_wfc K (h_bg K m)) (g_wfp K (h_bg K m)) (g_psi K (h_bg K m)) (updd (g_psin K (h_bg K m)) d (upd (g_psin K (h_bg K m) d) i x)) (g_zeta K (h_bg K m)) (updd (g_zetan K (h_bg K m)) d (upd (g_zetan K (h_bg K m) d) i z)) (g_f K (h_bg K m)) (g_v K (h_bg K m))) (h_sc K m)).
Proof.
  intros [A B]. split; cbn [h_bg h_sc].
  - eapply gq_ext; [|apply (gq_pml K P0 nsrc gav Hgav); exact A]. intros l. rewrite half_put. apply put_cong. intros l'. apply half_put.
  - eapply gq_ext; [|exact B]. intros l. rewrite 2!half_put_other by discriminate. reflexivity.
Qed.
Lemma hstored_put M b a j x : (forall s, a <> NStore s) -> hstored M -> hstored (put nloc_eq M (b, (a, j)) x).
Proof.
  intros N [A B]. split; intros s i; unfold BornGpuModel.half; rewrite nput_ne by (intros E; injection E as _ E _; apply (N s E)); [apply A|apply B].
Qed.
Lemma nbwd_fields_run sw k reg p ds : (forall d, In d ds -> in1 reg d = negb (gpml pml0 pml1 p d)) -> forall w wsc M m kont, hq sw k M m -> hstored M ->
  exists M', nrun (nbwd_fields K P0 vbat sbat pml0 pml1 v scatter sw k p ds kont) M = nrun kont M' /\ hq sw k M' (snd (fold_left (hdim k reg p) ds (w, wsc, m))) /\ hstored M'.
Proof.
  induction ds as [|d ds IH]; intros Hd w wsc M m kont V St; [exists M; split; [reflexivity|split; assumption]|].
  cbn [nbwd_fields fold_left]. specialize (IH (fun e He => Hd e (or_intror He))). pose proof (Hd d (or_introl eq_refl)) as Hr. unfold in1 in Hr.
  pose proof (eq_refl (hdim k reg p (w, wsc, m) d)) as Ed. unfold h_bwd_dim in Ed at 2. cbn [p_shape p_b p_a p_acc p_rd p_rd2 p_db p_dt2 shot_par] in Ed. cbv zeta in Ed. rewrite Hr in Ed.
  set (i := idx shape p) in *. set (s := stride shape d) in *.
  destruct (gpml pml0 pml1 p d); cbn [negb] in Ed; rewrite Ed; clear Ed; [|apply IH; assumption].
  pose proof (hq_hrd _ _ _ _ V) as R.
  rdst A HA. rdst B HB. cbv zeta. cbn [Threads.run].
  assert (A2 : forall o, (- fd <= o <= fd)%Z -> A o = g_wfc K (h_sc K m) (i + o * s)%Z) by (intros o Ho; rewrite HA by exact Ho; rewrite <- Z.add_assoc; apply R).
  assert (B2 : forall o, (- fd <= o <= fd)%Z -> B o = g_zeta K (h_sc K m) d (i + o * s)%Z) by (intros o Ho; rewrite HB by exact Ho; rewrite <- Z.add_assoc; apply R).
  destruct (R i) as (Rc & Rcs & Rd). destruct (Rd d) as (Rp & Rps & Rz & Rzs). unfold BornGpuModel.half in Rc, Rcs, Rp, Rps, Rz, Rzs.
  rewrite !(nput_ne K _ (true, (qpsin sw d, _)) _ (true, (qwfc sw, _))) by (destruct sw; discriminate). rewrite !(nput_ne K _ (true, (qpsin sw d, _)) _ (true, (qzeta sw d, _))) by (destruct sw; discriminate).
  repeat match goal with |- context [M ?l] =>
    lazymatch l with
    | (true, (qwfc sw, _)) => rewrite (Rcs : M l = _) | (true, (qpsi sw d, _)) => rewrite (Rps : M l = _) | (true, (qzeta sw d, _)) => rewrite (Rzs : M l = _)
    end end.
  match goal with |- context [put nloc_eq (put nloc_eq M (true, (qpsin sw d, _)) ?x) (true, (qzetan sw d, _)) ?z] => set (x1 := x); set (z1 := z) end.
  pose proof (hq_sc sw k M m d i x1 z1 V) as V1. set (M1 := put nloc_eq (put nloc_eq M _ x1) _ z1) in *.
  assert (S1 : hstored M1) by (unfold M1; apply hstored_put; [intros; destruct sw; discriminate|]; apply hstored_put; [intros; destruct sw; discriminate|exact St]).
  set (m1 := mkhmem K (h_bg K m) _) in V1. pose proof (hq_hrd _ _ _ _ V1) as R1.
  rdst C HC. rdst D HD. rdst E HE. cbn [Threads.run].
  assert (C2 : forall o, (- fd <= o <= fd)%Z -> C o = g_wfc K (h_bg K m) (i + o * s)%Z) by (intros o Ho; rewrite HC by exact Ho; rewrite <- Z.add_assoc; apply (R1 (i + o * s)%Z)).
  assert (D2 : forall o, (- fd <= o <= fd)%Z -> D o = g_wfc K (h_sc K m) (i + o * s)%Z) by (intros o Ho; rewrite HD by exact Ho; rewrite <- Z.add_assoc; apply (R1 (i + o * s)%Z)).
  assert (E2 : forall o, (- fd <= o <= fd)%Z -> E o = g_zeta K (h_bg K m) d (i + o * s)%Z) by (intros o Ho; rewrite HE by exact Ho; rewrite <- Z.add_assoc; apply (R1 (i + o * s)%Z)).
  clear Rc Rcs Rd Rp Rps Rz Rzs. destruct (R1 i) as (Rc & Rcs & Rd). destruct (Rd d) as (Rp & Rps & Rz & Rzs). unfold BornGpuModel.half in Rc, Rcs, Rp, Rps, Rz, Rzs.
  unfold m1 in Rc, Rcs, Rp, Rps, Rz, Rzs. cbn [h_bg h_sc g_wfc g_psi g_zeta] in Rc, Rcs, Rp, Rps, Rz, Rzs.
  rewrite !(nput_ne K M1 (false, (qpsin sw d, _)) _ (true, (qwfc sw, _))) by discriminate. rewrite !(nput_ne K M1 (false, (qpsin sw d, _)) _ (false, (qzeta sw d, _))) by (destruct sw; discriminate). rewrite !(nput_ne K M1 (false, (qpsin sw d, _)) _ (false, (qwfc sw, _))) by (destruct sw; discriminate).
  repeat match goal with |- context [M1 ?l] =>
    lazymatch l with
    | (true, (qwfc sw, _)) => rewrite (Rcs : M1 l = _) | (false, (qwfc sw, _)) => rewrite (Rc : M1 l = _) | (false, (qpsi sw d, _)) => rewrite (Rp : M1 l = _) | (false, (qzeta sw d, _)) => rewrite (Rz : M1 l = _)
    end end.
  match goal with |- context [put nloc_eq (put nloc_eq M1 (false, (qpsin sw d, _)) ?x) (false, (qzetan sw d, _)) ?z] => set (x2 := x); set (z2 := z) end.
  pose proof (hq_bg sw k M1 m1 d i x2 z2 V1) as V2. set (M2 := put nloc_eq (put nloc_eq M1 _ x2) _ z2) in *.
  assert (S2 : hstored M2) by (unfold M2; apply hstored_put; [intros; destruct sw; discriminate|]; apply hstored_put; [intros; destruct sw; discriminate|exact S1]).
  match goal with |- exists _, _ /\ hq _ _ _ (snd (fold_left _ ds (_, _, ?m'))) /\ _ => assert (V3 : hq sw k M2 m'); [|exact (IH _ _ M2 m' kont V3 S2)] end.
  unfold m1 in V2. cbn [h_bg h_sc] in V2.
  assert (X1 : x1 = (- p_a P0 d (coord d p)) * DIFF1 (p_acc P0) (p_rd P0 d) (fun k0 => (1 + p_b P0 d (coord d p + k0)%Z) * (vk k (i + k0 * s)%Z * vk k (i + k0 * s)%Z * p_dt2 P0 * g_wfc K (h_sc K m) (i + k0 * s)%Z) + p_b P0 d (coord d p + k0)%Z * g_zeta K (h_sc K m) d (i + k0 * s)%Z) + p_a P0 d (coord d p) * g_psi K (h_sc K m) d i).
  { unfold x1. f_equal. f_equal. apply DIFF1_ext. intros o Ho _. unfold nv2wsc. rewrite vsh_v, A2, B2 by exact Ho. reflexivity. }
  assert (X2 : x2 = (- p_a P0 d (coord d p)) * DIFF1 (p_acc P0) (p_rd P0 d) (fun k0 => (1 + p_b P0 d (coord d p + k0)%Z) * (vk k (i + k0 * s)%Z * vk k (i + k0 * s)%Z * p_dt2 P0 * g_wfc K (h_bg K m) (i + k0 * s)%Z + two * (vk k (i + k0 * s)%Z * p_dt2 P0) * sk k (i + k0 * s)%Z * g_wfc K (h_sc K m) (i + k0 * s)%Z) + p_b P0 d (coord d p + k0)%Z * g_zeta K (h_bg K m) d (i + k0 * s)%Z) + p_a P0 d (coord d p) * g_psi K (h_bg K m) d i).
  { unfold x2. f_equal. f_equal. apply DIFF1_ext. intros o Ho _. unfold nv2w. rewrite vsh_v, vsh_s, C2, D2, E2 by exact Ho. reflexivity. }
  assert (I0 : (i + 0 * s)%Z = i) by lia.
  rewrite I0. rewrite <- X1, <- X2. unfold z1, z2 in V2. rewrite vsh_v, vsh_s in V2. exact V2.
Qed.

Lemma nbwd_cell_run sw stv sts sr si k reg p M m : (forall d, (d < nd)%nat -> in1 reg d = negb (gpml pml0 pml1 p d)) -> hq sw k M m -> hstored M ->
  hq sw k (nrun (cell sw stv sts sr si (k, p)) M) (h_bwd_cell K (SP k) (vk k) (sk k) (stk k) (stsck k) stv sts sr si m (reg, p)).
Proof.
  intros Hr V St. unfold nbwd_cell, h_bwd_cell. cbn [p_shape shot_par p_dt2]. change (dims K (SP k)) with (gdims K P0).
  assert (Hd : forall d, In d (gdims K P0) -> in1 reg d = negb (gpml pml0 pml1 p d)) by (intros d Hd; apply Hr; unfold gdims in Hd; apply in_seq in Hd; lia).
  rewrite (nbwd_sum_run sw k reg p (gdims K P0) Hd _ _ M m) by (apply hq_hrd; exact V).
  destruct (h_dims_keep (SP k) (vk k) (sk k) reg p (gdims K P0) 0 0 m) as [(Kc & Kp & Kv & _) (Kc' & Kp' & Kv' & _)].
  pose proof (h_dims_setp (SP k) (vk k) (sk k) reg p (gdims K P0) 0 0 m) as Hset.
  destruct (fold_left (hdim k reg p) (gdims K P0) (0, 0, m)) as [[w wsc] m1]. cbn [fst snd] in *. set (i := idx shape p). rewrite vsh_v, vsh_s.
  cbn [Threads.run]. destruct (hq_hrd _ _ _ _ V i) as (Rc & Rcs & _). pose proof (GpuBwd.vq_wfp _ _ _ _ _ _ _ _ (proj1 V) i) as Rp. pose proof (GpuBwd.vq_wfp _ _ _ _ _ _ _ _ (proj2 V) i) as Rps. unfold BornGpuModel.half in Rc, Rcs, Rp, Rps.
  rewrite !(nput_ne K _ (false, _) _ (true, _)) by discriminate.
  repeat match goal with |- context [M ?l] =>
    lazymatch l with
    | (true, (qwfc sw, _)) => rewrite (Rcs : M l = _) | (false, (qwfc sw, _)) => rewrite (Rc : M l = _) | (true, (qwfp sw, _)) => rewrite (Rps : M l = _) | (false, (qwfp sw, _)) => rewrite (Rp : M l = _)
    end end.
  match goal with |- context [put nloc_eq (put nloc_eq M (false, (qwfp sw, _)) ?x) (true, (qwfp sw, _)) ?y] => set (X := x); set (Y := y) end.
  set (M1 := put nloc_eq (put nloc_eq M _ X) _ Y).
  assert (V1 : hq sw k M1 (hsetp m (upd (g_wfp K (h_bg K m)) i X) (upd (g_wfp K (h_sc K m)) i Y))).
  { destruct V as [A B]. split; cbn [h_bg h_sc hsetp].
    - eapply gq_ext; [|apply (gq_putwfp K P0 nsrc gav Hgav); exact A]. intros l. unfold M1. rewrite half_put_other by discriminate. apply half_put.
    - eapply gq_ext; [|apply (gq_putwfp K P0 nsrc gas Hgas); exact B]. intros l. unfold M1. rewrite half_put. apply put_cong. intros l'. apply half_put_other. discriminate. }
  assert (S1 : hstored M1) by (unfold M1; apply hstored_put; [intros; destruct sw; discriminate|]; apply hstored_put; [intros; destruct sw; discriminate|exact St]).
  match goal with |- context [Threads.run nloc_eq (nbwd_fields K P0 vbat sbat pml0 pml1 v scatter sw k p (gdims K P0) ?kont) M1] => destruct (nbwd_fields_run sw k reg p (gdims K P0) Hd 0 0 M1 _ kont V1 S1) as (M' & E & V' & S') end.
  rewrite E. clear E. rewrite Hset in V'. cbn [snd] in V'. unfold hsetp, setp in V'. cbn [h_bg h_sc] in V'.
  assert (EX : upd (g_wfp K (h_bg K m1)) i (w + two * g_wfc K (h_bg K m1) i - g_wfp K (h_bg K m1) i) = upd (g_wfp K (h_bg K m)) i X) by (rewrite Kc, Kp; reflexivity).
  assert (EY : upd (g_wfp K (h_sc K m1)) i (wsc + two * g_wfc K (h_sc K m1) i - g_wfp K (h_sc K m1) i) = upd (g_wfp K (h_sc K m)) i Y) by (rewrite Kc', Kp'; reflexivity).
  rewrite EX, EY. clear EX EY. destruct V' as [A B]. cbn [h_bg h_sc] in A, B.
  pose proof (GpuBwd.vq_wfc _ _ _ _ _ _ _ _ A i) as Ac. pose proof (GpuBwd.vq_wfc _ _ _ _ _ _ _ _ B i) as Bc. pose proof (GpuBwd.vq_v _ _ _ _ _ _ _ _ A i) as Av. pose proof (GpuBwd.vq_v _ _ _ _ _ _ _ _ B i) as Bv.
  destruct S' as [Sa Sb]. specialize (Sa si (k * n + i)%Z). specialize (Sb si (k * n + i)%Z).
  unfold BornGpuModel.half in Ac, Bc, Av, Bv, Sa, Sb. cbn [g_wfc g_v] in Ac, Bc, Av, Bv.
  pose proof (fun x => gq_putgv K P0 nsrc gav Hgav sw k _ _ i x A) as Pa. pose proof (fun x => gq_putgv K P0 nsrc gas Hgas sw k _ _ i x B) as Pb. cbn [g_wfc g_wfp g_psi g_psin g_zeta g_zetan g_f g_v] in Pa, Pb.
  assert (FA : gav <> qwfc sw /\ gas <> qwfc sw) by (destruct Hgav as [-> | ->], Hgas as [-> | ->], sw; split; discriminate).
  assert (FS : gav <> NStore si) by (destruct Hgav as [-> | ->]; discriminate). unfold sh.
  destruct stv, sts; cbn [bind Threads.run]; rewrite ?(nput_ne K _ (false, (gav, _)) _ (true, _)) by discriminate; rewrite ?(nput_ne K _ (false, (gav, _)) _ (false, (NStore si, _))) by congruence;
    repeat match goal with |- context [M' ?l] =>
      lazymatch l with
      | (true, (qwfc sw, _)) => rewrite (Bc : M' l = _) | (false, (qwfc sw, _)) => rewrite (Ac : M' l = _) | (false, (gav, _)) => rewrite (Av : M' l = _) | (true, (gas, _)) => rewrite (Bv : M' l = _)
      | (false, (NStore si, _)) => rewrite (Sa : M' l = _) | (true, (NStore si, _)) => rewrite (Sb : M' l = _)
      end end; split; cbn [h_bg h_sc].
  - eapply gq_ext; [|apply Pa]. intros l. rewrite half_put_other by discriminate. apply half_put.
  - eapply gq_ext; [|apply Pb]. intros l. rewrite half_put. apply put_cong. intros l'. apply half_put_other. discriminate.
  - eapply gq_ext; [|apply Pa]. intros l. apply half_put.
  - eapply gq_ext; [|exact B]. intros l. apply half_put_other. discriminate.
  - eapply gq_ext; [|exact A]. intros l. apply half_put_other. discriminate.
  - eapply gq_ext; [|apply Pb]. intros l. apply half_put.
  - exact A.
  - exact B.
Qed.

(** ** What a cell owns and what is shared *)
Definition hga (l : nloc) : aname := if fst l then gas else gav.
Definition hshared (sw : bool) (l : nloc) : Prop := bshared sw (snd l).
Definition hown (sw : bool) (kp : Z * pt) (l : nloc) : Prop := bown K P0 (hga l) sw kp (snd l).
Notation F sw kp := (foot (fun l => hshared sw l \/ hown sw kp l) (hown sw kp)).
Lemma hs_wfc sw kp b j : hshared sw (b, (qwfc sw, j)) \/ hown sw kp (b, (qwfc sw, j)).
Proof. left; left; reflexivity. Qed.
Lemma hs_psi sw kp b d j : hshared sw (b, (qpsi sw d, j)) \/ hown sw kp (b, (qpsi sw d, j)).
Proof. left; right; left; exists d; left; reflexivity. Qed.
Lemma hs_zeta sw kp b d j : hshared sw (b, (qzeta sw d, j)) \/ hown sw kp (b, (qzeta sw d, j)).
Proof. left; right; left; exists d; right; reflexivity. Qed.
Lemma hs_store sw kp b s j : hshared sw (b, (NStore s, j)) \/ hown sw kp (b, (NStore s, j)).
Proof. left; right; right; exists s; reflexivity. Qed.
Lemma nbwd_sum_foot sw k p ds : forall w wsc kont, (forall x y, F sw (k, p) (kont x y)) -> F sw (k, p) (nbwd_sum K P0 vbat sbat pml0 pml1 v scatter sw k p ds w wsc kont).
Proof.
  induction ds as [|d ds IH]; intros w wsc kont Hk; [apply Hk|]. cbn [nbwd_sum]. destruct (gpml pml0 pml1 p d).
  - do 2 (apply foot_nrd_st; [intros j; apply hs_wfc|]; intros ?). apply foot_nrd_st; [intros j; apply hs_zeta|]. intros ?. apply foot_nrd_st; [intros j; apply hs_psi|]. intros ?.
    apply foot_nrd_st; [intros j; apply hs_zeta|]. intros ?. apply foot_nrd_st; [intros j; apply hs_psi|]. intros ?. apply IH, Hk.
  - do 2 (apply foot_nrd_st; [intros j; apply hs_wfc|]; intros ?). apply IH, Hk.
Qed.
Lemma nbwd_fields_foot sw k p ds : forall kont, F sw (k, p) kont -> F sw (k, p) (nbwd_fields K P0 vbat sbat pml0 pml1 v scatter sw k p ds kont).
Proof.
  induction ds as [|d ds IH]; intros kont Hk; [apply Hk|]. cbn [nbwd_fields]. destruct (gpml pml0 pml1 p d); [|apply IH, Hk].
  assert (O1 : forall b, hown sw (k, p) (b, (qpsin sw d, (k * n + idx shape p)%Z))) by (intros b; split; [reflexivity|right; left; exists d; left; reflexivity]).
  assert (O2 : forall b, hown sw (k, p) (b, (qzetan sw d, (k * n + idx shape p)%Z))) by (intros b; split; [reflexivity|right; left; exists d; right; reflexivity]).
  apply foot_nrd_st; [intros j; apply hs_wfc|]. intros ?. apply foot_nrd_st; [intros j; apply hs_zeta|]. intros ?. cbv zeta.
  apply foot_load; [apply hs_psi|]. intros ?. apply foot_store; [apply O1|]. apply foot_load; [apply hs_wfc|]. intros ?. apply foot_load; [apply hs_zeta|]. intros ?. apply foot_store; [apply O2|].
  do 2 (apply foot_nrd_st; [intros j; apply hs_wfc|]; intros ?). apply foot_nrd_st; [intros j; apply hs_zeta|]. intros ?.
  apply foot_load; [apply hs_psi|]. intros ?. apply foot_store; [apply O1|]. do 2 (apply foot_load; [apply hs_wfc|]; intros ?). apply foot_load; [apply hs_zeta|]. intros ?. apply foot_store; [apply O2|]. apply IH, Hk.
Qed.
Lemma nbwd_cell_foot sw stv sts sr si kp : F sw kp (cell sw stv sts sr si kp).
Proof.
  destruct kp as [k p]. unfold nbwd_cell. apply nbwd_sum_foot. intros w wsc.
  assert (Op : forall b, hown sw (k, p) (b, (qwfp sw, (k * n + idx shape p)%Z))) by (intros b; split; [reflexivity|left; reflexivity]).
  assert (Ov : hown sw (k, p) (false, (gav, (k * n + idx shape p)%Z))) by (split; [reflexivity|right; right; reflexivity]).
  assert (Os : hown sw (k, p) (true, (gas, (k * n + idx shape p)%Z))) by (split; [reflexivity|right; right; reflexivity]).
  apply foot_load; [apply hs_wfc|]. intros ?. apply foot_load; [right; apply Op|]. intros ?. apply foot_store; [apply Op|].
  apply foot_load; [apply hs_wfc|]. intros ?. apply foot_load; [right; apply Op|]. intros ?. apply foot_store; [apply Op|]. apply nbwd_fields_foot.
  destruct stv, sts; cbn [bind]; repeat first [apply foot_load; [first [right; exact Ov|right; exact Os|apply hs_wfc|apply hs_store]|]; intros ?|apply foot_store; [first [exact Ov|exact Os]|]|constructor].
Qed.
Lemma hown_shared sw kp l : hown sw kp l -> ~ hshared sw l.
Proof. apply bown_shared. unfold hga. destruct (fst l); assumption. Qed.
Lemma hown_disjoint sw a b l : inint (snd a) -> inint (snd b) -> a <> b -> hown sw a l -> ~ hown sw b l.
Proof. apply bown_disjoint. Qed.

(** ** The CPU cell is local *)
Lemma updd_eq (a b : nat -> arr K) d i x e : (forall e, (e < nd)%nat -> forall j, (0 <= j < n)%Z -> a e j = b e j) -> (d < nd)%nat -> (e < nd)%nat -> forall j, (0 <= j < n)%Z -> updd a d (upd (a d) i x) e j = updd b d (upd (b d) i x) e j.
Proof. intros H Hd He j Hj. unfold updd. destruct (Nat.eqb_spec e d) as [->|N]; [|apply H; assumption]. unfold upd. destruct (j =? i)%Z; [reflexivity|apply H; assumption]. Qed.
Lemma h_dim_eq k reg p d w wsc m1 m2 : inint p -> (d < nd)%nat -> heq m1 m2 ->
  fst (hdim k reg p (w, wsc, m1) d) = fst (hdim k reg p (w, wsc, m2) d) /\ heq (snd (hdim k reg p (w, wsc, m1) d)) (snd (hdim k reg p (w, wsc, m2) d)).
Proof.
  intros Hp Hd [H1 H2]. unfold h_bwd_dim. cbn [p_shape p_b p_a p_acc p_rd p_rd2 p_db p_dt2 shot_par]. cbv zeta.
  pose proof (win_idx K P0 p Hp) as Hi. set (i := idx shape p) in *. set (s := stride shape d).
  assert (Hs : forall o, (- fd <= o <= fd)%Z -> (0 <= i + o * s < n)%Z) by (intros o Ho; apply (win_shift K P0 p d o Hp Hd Ho)).
  assert (A1 : forall o, (- fd <= o <= fd)%Z -> g_wfc K (h_bg K m1) (i + o * s)%Z = g_wfc K (h_bg K m2) (i + o * s)%Z) by (intros o Ho; apply (br_wfc _ _ _ _ _ _ _ H1); apply Hs; exact Ho).
  assert (A2 : forall o, (- fd <= o <= fd)%Z -> g_wfc K (h_sc K m1) (i + o * s)%Z = g_wfc K (h_sc K m2) (i + o * s)%Z) by (intros o Ho; apply (br_wfc _ _ _ _ _ _ _ H2); apply Hs; exact Ho).
  assert (A3 : forall o, (- fd <= o <= fd)%Z -> g_zeta K (h_bg K m1) d (i + o * s)%Z = g_zeta K (h_bg K m2) d (i + o * s)%Z) by (intros o Ho; apply (br_zeta _ _ _ _ _ _ _ H1 d Hd); apply Hs; exact Ho).
  assert (A4 : forall o, (- fd <= o <= fd)%Z -> g_zeta K (h_sc K m1) d (i + o * s)%Z = g_zeta K (h_sc K m2) d (i + o * s)%Z) by (intros o Ho; apply (br_zeta _ _ _ _ _ _ _ H2 d Hd); apply Hs; exact Ho).
  assert (A5 : forall o, (- fd <= o <= fd)%Z -> g_psi K (h_bg K m1) d (i + o * s)%Z = g_psi K (h_bg K m2) d (i + o * s)%Z) by (intros o Ho; apply (br_psi _ _ _ _ _ _ _ H1 d Hd); apply Hs; exact Ho).
  assert (A6 : forall o, (- fd <= o <= fd)%Z -> g_psi K (h_sc K m1) d (i + o * s)%Z = g_psi K (h_sc K m2) d (i + o * s)%Z) by (intros o Ho; apply (br_psi _ _ _ _ _ _ _ H2 d Hd); apply Hs; exact Ho).
  destruct (nth d reg 0 =? 1)%Z; cbn [fst snd].
  - split; [|split; assumption]. f_equal; f_equal; apply DIFF2_ext; intros o Ho; rewrite ?A1, ?A2 by exact Ho; reflexivity.
  - split.
    + f_equal; f_equal; f_equal; [f_equal; apply DIFF1_ext; intros o Ho _|apply DIFF2_ext; intros o Ho|f_equal; apply DIFF1_ext; intros o Ho _|apply DIFF2_ext; intros o Ho]; rewrite ?A1, ?A2, ?A3, ?A4, ?A5, ?A6 by exact Ho; reflexivity.
    + match goal with |- heq (mkhmem _ (mkbmem _ _ _ _ (updd _ _ (upd _ _ ?x1)) _ (updd _ _ (upd _ _ ?y1)) _ _) (mkbmem _ _ _ _ (updd _ _ (upd _ _ ?z1)) _ (updd _ _ (upd _ _ ?t1)) _ _))
          (mkhmem _ (mkbmem _ _ _ _ (updd _ _ (upd _ _ ?x2)) _ (updd _ _ (upd _ _ ?y2)) _ _) (mkbmem _ _ _ _ (updd _ _ (upd _ _ ?z2)) _ (updd _ _ (upd _ _ ?t2)) _ _)) =>
        assert (X : x1 = x2); [|assert (Y : y1 = y2); [|assert (Z_ : z1 = z2); [|assert (T : t1 = t2); [|rewrite X, Y, Z_, T; clear X Y Z_ T]]]] end.
      * f_equal; [|f_equal; apply (br_psi _ _ _ _ _ _ _ H1 d Hd); exact Hi]. f_equal. apply DIFF1_ext. intros o Ho _. rewrite A1, A2, A3 by exact Ho. reflexivity.
      * rewrite (br_wfc _ _ _ _ _ _ _ H1 i Hi), (br_wfc _ _ _ _ _ _ _ H2 i Hi), (br_zeta _ _ _ _ _ _ _ H1 d Hd i Hi). reflexivity.
      * f_equal; [|f_equal; apply (br_psi _ _ _ _ _ _ _ H2 d Hd); exact Hi]. f_equal. apply DIFF1_ext. intros o Ho _. rewrite A2, A4 by exact Ho. reflexivity.
      * rewrite (br_wfc _ _ _ _ _ _ _ H2 i Hi), (br_zeta _ _ _ _ _ _ _ H2 d Hd i Hi). reflexivity.
      * destruct H1 as [c1 c2 c3 c4 c5 c6 c7 c8], H2 as [e1 e2 e3 e4 e5 e6 e7 e8].
        split; cbn [h_bg h_sc]; split; cbn [g_wfc g_wfp g_psi g_psin g_zeta g_zetan g_f g_v]; auto; intros e He; intros j Hj; apply updd_eq; assumption.
Qed.
Lemma h_dims_eq k reg p ds : inint p -> (forall d, In d ds -> (d < nd)%nat) -> forall a m1 m2, heq m1 m2 ->
  fst (fold_left (hdim k reg p) ds (a, m1)) = fst (fold_left (hdim k reg p) ds (a, m2)) /\ heq (snd (fold_left (hdim k reg p) ds (a, m1))) (snd (fold_left (hdim k reg p) ds (a, m2))).
Proof.
  intros Hp. induction ds as [|d ds IH]; intros Hd [w wsc] m1 m2 H; [split; [reflexivity|exact H]|]. cbn [fold_left].
  destruct (h_dim_eq k reg p d w wsc m1 m2 Hp (Hd d (or_introl eq_refl)) H) as [A B].
  destruct (hdim k reg p (w, wsc, m1) d) as [a1 q1], (hdim k reg p (w, wsc, m2) d) as [a2 q2]. cbn [fst snd] in A, B. subst a2. apply IH; [|exact B]. intros e He. apply Hd. right. exact He.
Qed.
Lemma h_cell_eq k stv sts sr si m1 m2 reg p : inint p -> heq m1 m2 ->
  heq (h_bwd_cell K (SP k) (vk k) (sk k) (stk k) (stsck k) stv sts sr si m1 (reg, p)) (h_bwd_cell K (SP k) (vk k) (sk k) (stk k) (stsck k) stv sts sr si m2 (reg, p)).
Proof.
  intros Hp H. unfold h_bwd_cell. change (dims K (SP k)) with (gdims K P0). cbn [p_shape p_dt2 shot_par].
  assert (Hd : forall d, In d (gdims K P0) -> (d < nd)%nat) by (intros d Hd; unfold gdims in Hd; apply in_seq in Hd; lia).
  destruct (h_dims_eq k reg p (gdims K P0) Hp Hd (0, 0) m1 m2 H) as [A B].
  destruct (fold_left (hdim k reg p) (gdims K P0) (0, 0, m1)) as [[w wsc] q1], (fold_left (hdim k reg p) (gdims K P0) (0, 0, m2)) as [[w' wsc'] q2]. cbn [fst snd] in A, B. injection A as <- <-.
  pose proof (win_idx K P0 p Hp) as Hi. destruct B as [B1 B2].
  rewrite (br_wfc _ _ _ _ _ _ _ B1 _ Hi), (br_wfp _ _ _ _ _ _ _ B1 _ Hi), (br_v _ _ _ _ _ _ _ B1 _ Hi), (br_wfc _ _ _ _ _ _ _ B2 _ Hi), (br_wfp _ _ _ _ _ _ _ B2 _ Hi), (br_v _ _ _ _ _ _ _ B2 _ Hi).
  destruct B1 as [c1 c2 c3 c4 c5 c6 c7 c8], B2 as [e1 e2 e3 e4 e5 e6 e7 e8].
  split; cbn [h_bg h_sc]; split; cbn [g_wfc g_wfp g_psi g_psin g_zeta g_zetan g_f g_v]; auto.
  - intros j Hj. unfold upd. destruct (j =? _)%Z; [reflexivity|apply c2; exact Hj].
  - destruct stv; [|exact c8]. intros j Hj. unfold upd. destruct (j =? _)%Z; [reflexivity|apply c8; exact Hj].
  - intros j Hj. unfold upd. destruct (j =? _)%Z; [reflexivity|apply e2; exact Hj].
  - destruct sts; [|exact e8]. intros j Hj. unfold upd. destruct (j =? _)%Z; [reflexivity|apply e8; exact Hj].
Qed.

(** ** The launch *)
Notation gtag := (gtag K P0 pml0 pml1).
Notation gvis := (gvis K P0 NS pml0 pml1).
Notation items := (items K P0 NS).
Notation ccell k stv sts sr si := (h_bwd_cell K (SP k) (vk k) (sk k) (stk k) (stsck k) stv sts sr si).
Lemma hview_other ga sw k b M M' : (forall a i, (0 <= i < n)%Z -> half b M' (a, k * n + i)%Z = half b M (a, k * n + i)%Z) -> (forall t i, half b M' (NAmp t, i) = half b M (NAmp t, i)) ->
  beq (gview K P0 nsrc ga sw k (half b M')) (gview K P0 nsrc ga sw k (half b M)).
Proof. intros E G. split; cbn; intros; try (intros i Hii; apply E; exact Hii). apply Forall2_eq. apply row_ext. intros i Hii. apply G. Qed.
Lemma hown_amp sw kp b t i : ~ hown sw kp (b, (NAmp t, i)).
Proof. intros [_ [E|[(e & [E|E])|E]]]; cbn in E; [| | |unfold hga in E; cbn in E; destruct b, Hgav, Hgas; congruence]; destruct sw; discriminate. Qed.
Lemma hinv_cell sw stv sts sr si k p M fam : (forall d, (d < nd)%nat -> (pml0 d <= pml1 d)%Z) -> (0 <= k < NS)%Z -> inint p -> hinv sw M fam ->
  hinv sw (nrun (cell sw stv sts sr si (k, p)) M) (fset fam k (ccell k stv sts sr si (fam k) (gtag p, p))).
Proof.
  intros Hb Hk Hp [Hi St].
  assert (Fr : forall l, ~ hown sw (k, p) l -> nrun (cell sw stv sts sr si (k, p)) M l = M l) by (intros l Hl; apply (run_outside nloc_eq _ _ _ (nbwd_cell_foot sw stv sts sr si (k, p))); exact Hl).
  split.
  - intros j Hj. unfold fset. destruct (Z.eqb_spec j k) as [->|N].
    + eapply heq_trans; [apply hq_heq; apply (nbwd_cell_run sw stv sts sr si k (gtag p) p M (hview sw k M)); [intros d Hd; apply gtag_in1; assumption|apply hq_view|exact St]|]. apply h_cell_eq; [exact Hp|]. apply Hi. exact Hj.
    + eapply heq_trans; [|apply Hi; exact Hj].
      assert (E : forall b a i, (0 <= i < n)%Z -> half b (nrun (cell sw stv sts sr si (k, p)) M) (a, j * n + i)%Z = half b M (a, j * n + i)%Z).
      { intros b a i Hii. apply Fr. intros [E _]. cbn [fst snd] in E. destruct (shot_idx K P0 _ _ _ _ Hii (win_idx K P0 _ Hp) E) as [E1 _]. contradiction. }
      assert (G : forall b t i, half b (nrun (cell sw stv sts sr si (k, p)) M) (NAmp t, i) = half b M (NAmp t, i)) by (intros b t i; apply Fr; apply hown_amp).
      split; cbn; apply hview_other; auto.
  - assert (X : forall b s j, half b (nrun (cell sw stv sts sr si (k, p)) M) (NStore s, j) = half b M (NStore s, j)).
    { intros b s j. apply Fr. intros O. apply (hown_shared _ _ _ O). right. right. exists s. reflexivity. }
    destruct St as [S1 S2]. split; intros s j; rewrite X; [apply S1|apply S2].
Qed.
Lemma hinv_ext sw M M' fam : (forall l, M' l = M l) -> hinv sw M fam -> hinv sw M' fam.
Proof.
  intros E [H [S1 S2]]. split; [|split; intros s j; unfold BornGpuModel.half; rewrite E; [apply S1|apply S2]].
  intros k Hk. eapply heq_trans; [|apply H; exact Hk]. split; cbn; apply hview_other; intros; apply E.
Qed.
Hypothesis Hsz : sizes_ok fd shape NS.
Hypothesis Hpml : forall d, (d < nd)%nat -> (pml0 d <= pml1 d)%Z.
Theorem nbwd_launch sw stv sts sr si M M' fam : hinv sw M fam -> nkexec K (launch_cells fd shape NS) (nbwd_thread K P0 NS vbat sbat pml0 pml1 v scatter gav gas sw stv sts sr si) M M' ->
  hinv sw M' (fun k => fold_left (ccell k stv sts sr si) (gvis k) (fam k)) /\ (forall l, (forall kp, ~ hown sw kp l) -> M' l = M l).
Proof.
  intros Hi [_ He].
  assert (E : forall l, M' l = fold_left (fun m it => nrun (cell sw stv sts sr si it) m) items M l).
  { apply (kernel_seq nloc_eq (threads (launch_cells fd shape NS)) (items_cells fd shape NS) (cell sw stv sts sr si) (hshared sw) (hown sw)).
    - intros it _. apply nbwd_cell_foot.
    - intros it l _. apply hown_shared.
    - apply own_pairs; [apply (NoDup_cells fd shape NS (fd_nonneg K P0 NS Hsz) Hsz)|]. intros a b Ha Hb N l. destruct a as [k p], b as [k' p']. apply (In_items K P0 NS Hsz) in Ha, Hb. apply hown_disjoint; [apply Ha|apply Hb|exact N].
    - exact He. }
  split.
  - apply (hinv_ext sw _ M' _ E).
    pose proof (interleave_inv (fun M it => nrun (cell sw stv sts sr si it) M) (fun k m p => ccell k stv sts sr si m (gtag p, p)) (fun M fam => hinv sw M fam) items M fam) as H.
    assert (X : hinv sw (fold_left (fun m it => nrun (cell sw stv sts sr si it) m) items M)
       (fun k => fold_left (fun m p => ccell k stv sts sr si m (gtag p, p)) (map snd (filter (fun x => (fst x =? k)%Z) items)) (fam k))).
    { apply H; [| |exact Hi].
      - intros g fm k p Hin Hg. apply (In_items K P0 NS Hsz) in Hin. apply hinv_cell; [exact Hpml|apply Hin|apply Hin|exact Hg].
      - intros g fm fm' Hf [Hg St]. split; [|exact St]. intros k Hk. rewrite <- Hf. apply Hg, Hk. }
    destruct X as [X St]. split; [|exact St]. intros k Hk. specialize (X k Hk). unfold GpuFwd.gvis.
    assert (Y : forall l m, fold_left (ccell k stv sts sr si) (map (fun p => (gtag p, p)) l) m = fold_left (fun m p => ccell k stv sts sr si m (gtag p, p)) l m) by (induction l as [|x l IHl]; intros m; [reflexivity|]; cbn; apply IHl).
    rewrite Y. exact X.
  - intros l Hl. rewrite E. apply (items_keep nloc_eq (cell sw stv sts sr si) (hshared sw) (hown sw)); [intros it _; apply nbwd_cell_foot|]. intros it _. apply Hl.
Qed.
End Kernel.
End Bwd.
