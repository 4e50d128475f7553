(** * Every backward run of the Born propagator on the device gives every shot the gradients the CPU gives it. *)
From Coq Require Import List ZArith QArith Lia Bool Ring Permutation.
From Verif Require Import Ops Sums Grid Stencil ScalarModel ScalarRefine ScalarForward ScalarBackward ScalarFunc Param ShotsModel Shots ShotsRun ShotsThm Threads GpuModel GpuLaunch GpuFwd GpuLocs GpuBwd GpuBackward BornModel BornGpuModel BornGpuLift BornGpuBwd.
Import ListNotations.
Local Open Scope K_scope.

Section Bwd.
Variable K : ops.
Variable P0 : par K.
Variable NS : Z.
Variables nsrc nrec nrecsc : Z.
Variables srcs recs recssc : Z -> Z.
Variables vbat sbat : bool.
Notation shape := (p_shape P0).
Notation fd := (fd_pad (p_acc P0)).
Notation nd := (length shape).
Notation n := (prodZ shape).
Notation SP := (shot_par K P0 nsrc nrec srcs recs).
Notation inint p := (interior K P0 p = true).
Notation half := (half K).
Notation beq := (brelm K K eq P0 (fun _ => True)).
Hypothesis Hnsrc : (0 <= nsrc < 2 ^ 31)%Z.
Hypothesis Hnrec : (0 <= nrec < 2 ^ 31)%Z.
Hypothesis Hnrecsc : (0 <= nrecsc < 2 ^ 31)%Z.
Hypothesis Hsz : sizes_ok fd shape NS.
Hypothesis Hsrc : forall j, (0 <= j < NS * nsrc)%Z -> (srcs j < n)%Z.
Hypothesis Hrec : forall j, (0 <= j < NS * nrec)%Z -> (recs j < n)%Z.
Hypothesis Hrecsc : forall j, (0 <= j < NS * nrecsc)%Z -> (recssc j < n)%Z.
Hypothesis Huniq : distinct NS nrec recs.
Hypothesis Huniqsc : distinct NS nrecsc recssc.
Lemma nsb : (0 <= NS < 2 ^ 31)%Z.
Proof. destruct Hsz as (_ & _ & H). exact H. Qed.

(** ** One wavefield *)
Section Half.
Variable ga : aname.
Hypothesis Hga : ga = NGrad \/ ga = NGradShot.
Notation gview := (gview K P0 nsrc ga).
Ltac nm sw := destruct Hga; destruct sw; cbn; congruence.
Lemma bhalf_rec sw t (H H1 : mem loc K) k m : (0 <= k < NS)%Z -> beq (gview sw k H) m ->
  (forall k, (0 <= k < NS)%Z -> row (fun j => H1 (NAmp t, j)) nsrc k = record_from_wavefield K (fun i => H (qwfc sw, k * n + i)%Z) (row srcs nsrc k) (row (fun j => H (NAmp t, j)) nsrc k)) ->
  (forall l, fst l <> NAmp t -> H1 l = H l) ->
  beq (gview sw k H1) (setf K m (fun u => if (u =? t)%Z then record_from_wavefield K (g_wfc K m) (row srcs nsrc k) (g_f K m t) else g_f K m u)).
Proof.
  intros Hk [c1 c2 c3 c4 c5 c6 c7 c8] A1 A2.
  split; cbn in *; intros; try (intros i Hii; rewrite A2 by nm sw; first [apply c1|apply c2|apply c3|apply c4|apply c5|apply c6|apply c8]; assumption).
  specialize (c7 t0 I). destruct (Z.eqb_spec t0 t) as [->|N].
  - rewrite A1 by exact Hk. apply (Forall2_record K K eq n); [apply (SP_src K P0 NS nsrc nrec srcs recs); [lia|exact Hsrc|exact Hk]|exact c1|exact c7].
  - apply Forall2_eq in c7. apply Forall2_eq. rewrite <- c7. apply row_ext. intros j Hj. apply A2. cbn. congruence.
Qed.
Lemma bhalf_add nr rs (g : arr K) sw (H H1 : mem loc K) k m : (0 <= nr)%Z -> (forall j, (0 <= j < NS * nr)%Z -> (rs j < n)%Z) -> (0 <= k < NS)%Z -> beq (gview sw k H) m ->
  (forall k i, (0 <= k < NS)%Z -> (0 <= i < n)%Z -> H1 (qwfp sw, k * n + i)%Z = add_to_wavefield K (fun i => H (qwfp sw, k * n + i)%Z) (row rs nr k) (row g nr k) i) ->
  (forall l, fst l <> qwfp sw -> H1 l = H l) ->
  beq (gview sw k H1) (setp K m (add_to_wavefield K (g_wfp K m) (row rs nr k) (row g nr k))).
Proof.
  intros Hnr Hrs Hk [c1 c2 c3 c4 c5 c6 c7 c8] B1 B2.
  split; cbn in *; intros; try (intros i Hii; rewrite B2 by nm sw; first [apply c1|apply c3|apply c4|apply c5|apply c6|apply c8]; assumption).
  - intros i Hii. rewrite B1 by assumption. apply (arel_add K K eq (oprel_eq K) n); [apply (SP_rec K P0 NS nsrc nr srcs rs); [lia|exact Hrs|exact Hk]|exact c2|apply Forall2_eq; reflexivity|exact Hii].
  - specialize (c7 t I). apply Forall2_eq in c7. apply Forall2_eq. etransitivity; [|exact c7]. apply row_ext. intros j Hj. apply B2. nm sw.
Qed.
Lemma bhalf_ext sw (H H1 : mem loc K) k m : (forall l, H1 l = H l) -> beq (gview sw k H) m -> beq (gview sw k H1) m.
Proof. intros E. apply (beq_trans K P0). split; cbn; intros; first [apply Forall2_eq; apply row_ext; intros; apply E | intros i Hi; apply E]. Qed.
End Half.

(** The cells kernel neither reads nor writes the recorded amplitudes. *)
Definition hsetf (m : hmem K) (x y : Z -> list K) : hmem K := mkhmem K (setf K (h_bg K m) x) (setf K (h_sc K m) y).
Lemma h_dims_setf P v sc reg p ds : forall w wsc m x y,
  fold_left (h_bwd_dim K P v sc reg p) ds (w, wsc, hsetf m x y) = (fst (fold_left (h_bwd_dim K P v sc reg p) ds (w, wsc, m)), hsetf (snd (fold_left (h_bwd_dim K P v sc reg p) ds (w, wsc, m))) x y).
Proof.
  induction ds as [|d ds IH]; intros w wsc m x y; [reflexivity|]. cbn [fold_left].
  assert (E : h_bwd_dim K P v sc reg p (w, wsc, hsetf m x y) d = (fst (h_bwd_dim K P v sc reg p (w, wsc, m) d), hsetf (snd (h_bwd_dim K P v sc reg p (w, wsc, m) d)) x y)) by (unfold h_bwd_dim; destruct (_ =? 1)%Z; reflexivity).
  rewrite E. destruct (h_bwd_dim K P v sc reg p (w, wsc, m) d) as [[w1 w2] m1]. cbn [fst snd]. apply IH.
Qed.
Lemma h_cells_setf P v sc w_ wsc_ stv sts sr si l : forall m x y, fold_left (h_bwd_cell K P v sc w_ wsc_ stv sts sr si) l (hsetf m x y) = hsetf (fold_left (h_bwd_cell K P v sc w_ wsc_ stv sts sr si) l m) x y.
Proof.
  induction l as [|[reg p] l IH]; intros m x y; [reflexivity|]. cbn [fold_left]. rewrite <- IH. f_equal.
  unfold h_bwd_cell. rewrite h_dims_setf. destruct (fold_left (h_bwd_dim K P v sc reg p) (dims K P) (0, 0, m)) as [[w wsc] m1]. reflexivity.
Qed.
Lemma h_cells_keep P v sc w_ wsc_ stv sts sr si l : forall m, let m1 := fold_left (h_bwd_cell K P v sc w_ wsc_ stv sts sr si) l m in
  g_wfc K (h_bg K m1) = g_wfc K (h_bg K m) /\ g_f K (h_bg K m1) = g_f K (h_bg K m) /\ g_wfc K (h_sc K m1) = g_wfc K (h_sc K m) /\ g_f K (h_sc K m1) = g_f K (h_sc K m).
Proof.
  induction l as [|[reg p] l IH]; intros m; [repeat split|]. cbn [fold_left]. destruct (IH (h_bwd_cell K P v sc w_ wsc_ stv sts sr si m (reg, p))) as (A & B & C & D). cbv zeta. rewrite A, B, C, D.
  unfold h_bwd_cell. destruct (h_dims_keep K P v sc reg p (dims K P) 0 0 m) as [(E1 & _ & _ & E2) (E3 & _ & _ & E4)].
  destruct (fold_left (h_bwd_dim K P v sc reg p) (dims K P) (0, 0, m)) as [[w wsc] m1]. cbn [snd h_bg h_sc g_wfc g_f] in *. auto.
Qed.

Section Call.
Variables gav gas : aname.
Hypothesis Hgav : gav = NGrad \/ gav = NGradShot.
Hypothesis Hgas : gas = NGrad \/ gas = NGradShot.
Variables w_ wsc_ : Z -> arr K.
Variables pml0 pml1 : nat -> Z.
Hypothesis Hpml : forall d, (d < nd)%nat -> (pml0 d <= pml1 d)%Z.
Variables (v scatter : arr K) (vrg srg : bool) (sr : Z) (gr grsc : Z -> arr K).
Notation vk k := (shot_v K P0 vbat v k).
Notation sk k := (shot_v K P0 sbat scatter k).
Notation grk k := (fun t => row (gr t) nrec k).
Notation grsck k := (fun t => row (grsc t) nrecsc k).
Notation rsck k := (row recssc nrecsc k).
Notation stk k := (fun s => sh K P0 k (w_ s)).
Notation stsck k := (fun s => sh K P0 k (wsc_ s)).
Notation gvis := (gvis K P0 NS pml0 pml1).
Notation hinv := (hinv K P0 NS nsrc gav gas w_ wsc_).
Definition gkeep (M M' : mem nloc K) : Prop := (gav = NGradShot -> forall j, M' (false, (NGrad, j)) = M (false, (NGrad, j))) /\ (gas = NGradShot -> forall j, M' (true, (NGrad, j)) = M (true, (NGrad, j))).
Lemma gkeep_refl M : gkeep M M.
Proof. split; reflexivity. Qed.
Lemma gkeep_trans M1 M2 M3 : gkeep M1 M2 -> gkeep M2 M3 -> gkeep M1 M3.
Proof. intros [A B] [C D]. split; intros E j; [rewrite C, A by exact E|rewrite D, B by exact E]; reflexivity. Qed.

Lemma hstep_inv sw t M M' fam : hinv sw M fam -> nbwd_step K P0 NS nsrc nrec nrecsc srcs recs recssc vbat sbat pml0 pml1 v scatter gav gas vrg srg sr gr grsc sw t M M' ->
  hinv sw M' (fun k => h_bwd_body K (SP k) (rsck k) (vk k) (sk k) (gvis k) (stk k) (stsck k) vrg srg sr (grk k) (grsck k) t (fam k)) /\ gkeep M M'.
Proof.
  intros [Hi [S1 S2]] (M1 & M2 & M3 & M4 & H1 & H2 & H3 & H4 & H5).
  assert (Nw : forall s, qwfc sw <> NAmp s) by (intros s; destruct sw; discriminate).
  destruct (nrec_launch K P0 NS nsrc srcs Hnsrc nsb Hsrc false (qwfc sw) t M M1 Nw H1) as (A1 & A2 & A3).
  destruct (nrec_launch K P0 NS nsrc srcs Hnsrc nsb Hsrc true (qwfc sw) t M1 M2 Nw H2) as (B1 & B2 & B3). clear H1 H2.
  set (ff := fun k u => if (u =? t)%Z then record_from_wavefield K (g_wfc K (h_bg K (fam k))) (row srcs nsrc k) (g_f K (h_bg K (fam k)) t) else g_f K (h_bg K (fam k)) u).
  set (fsc := fun k u => if (u =? t)%Z then record_from_wavefield K (g_wfc K (h_sc K (fam k))) (row srcs nsrc k) (g_f K (h_sc K (fam k)) t) else g_f K (h_sc K (fam k)) u).
  assert (F1 : forall l, half false M2 l = half false M1 l) by (intros l; apply B3; discriminate).
  assert (F2 : forall l, half true M1 l = half true M l) by (intros l; apply A3; discriminate).
  assert (I1 : hinv sw M2 (fun k => hsetf (fam k) (ff k) (fsc k))).
  { split.
    - intros k Hk. destruct (Hi k Hk) as [C1 C2]. split; cbn [h_bg h_sc hview hsetf].
      + apply (bhalf_ext gav sw (half false M1)); [exact F1|]. apply (bhalf_rec gav Hgav sw t (half false M)); assumption.
      + apply (bhalf_rec gas Hgas sw t (half true M1)); [exact Hk| |exact B1|exact B2]. apply (bhalf_ext gas sw (half true M)); assumption.
    - split; intros s j; [rewrite F1, A2 by (cbn; congruence); apply S1|rewrite B2 by (cbn; congruence); rewrite F2; apply S2]. }
  destruct (nbwd_launch K P0 NS nsrc nrec srcs recs vbat sbat gav gas Hgav Hgas w_ wsc_ pml0 pml1 v scatter Hsz Hpml sw _ _ _ _ M2 M3 _ I1 H3) as [[I2 [T1 T2]] Fr]. clear H3.
  destruct (nadd1_launch K P0 NS nrec recs Hnrec nsb Hrec false (qwfp sw) (gr t) M3 M4 Huniq H4) as (D1 & D2 & D3).
  destruct (nadd1_launch K P0 NS nrecsc recssc Hnrecsc nsb Hrecsc true (qwfp sw) (grsc t) M4 M' Huniqsc H5) as (E1 & E2 & E3). clear H4 H5.
  assert (G1 : forall l, half false M' l = half false M4 l) by (intros l; apply E3; discriminate).
  assert (G2 : forall l, half true M4 l = half true M3 l) by (intros l; apply D3; discriminate).
  split; [split|].
  - intros k Hk. specialize (I2 k Hk). cbv beta in I2. rewrite h_cells_setf in I2. unfold h_bwd_body.
    replace ((t mod sr =? 0)%Z && (vrg || srg) && vrg)%bool with (vrg && (t mod sr =? 0)%Z)%bool in I2 by (destruct vrg, srg, (t mod sr =? 0)%Z; reflexivity).
    replace ((t mod sr =? 0)%Z && (vrg || srg) && srg)%bool with (srg && (t mod sr =? 0)%Z)%bool in I2 by (destruct vrg, srg, (t mod sr =? 0)%Z; reflexivity).
    destruct (h_cells_keep (SP k) (vk k) (sk k) (stk k) (stsck k) (vrg && (t mod sr =? 0)%Z) (srg && (t mod sr =? 0)%Z) sr (t / sr)%Z (gvis k) (fam k)) as (Kc & Kf & Kc' & Kf').
    unfold ff, fsc in I2. set (m1 := fold_left _ (gvis k) (fam k)) in *. rewrite <- Kc, <- Kf, <- Kc', <- Kf' in I2. destruct I2 as [C1 C2]. split; cbn [h_bg h_sc hview].
    + apply (bhalf_ext gav sw (half false M4)); [exact G1|]. apply (bhalf_add gav Hgav nrec recs (gr t) sw (half false M3) (half false M4) k _ (proj1 Hnrec) Hrec Hk C1 D1 D2).
    + apply (bhalf_add gas Hgas nrecsc recssc (grsc t) sw (half true M4) (half true M') k (setf K (h_sc K m1) _) (proj1 Hnrecsc) Hrecsc Hk); [|exact E1|exact E2]. apply (bhalf_ext gas sw (half true M3)); [exact G2|exact C2].
  - split; intros s j; [rewrite G1, D2 by (destruct sw; cbn; congruence); apply T1|rewrite E2 by (destruct sw; cbn; congruence); rewrite G2; apply T2].
  - assert (Q : forall b j, (if b : bool then gas else gav) = NGradShot -> M3 (b, (NGrad, j)) = M2 (b, (NGrad, j))).
    { intros b j Eg. apply Fr. intros kp [_ [G|[(d & [G|G])|G]]]; cbn in G; [| | |unfold hga in G; cbn in G; congruence]; destruct sw; discriminate. }
    split; intros Eg j.
    + change (half false M' (NGrad, j) = half false M (NGrad, j)). rewrite G1, D2 by (destruct sw; cbn; congruence). transitivity (half false M2 (NGrad, j)); [exact (Q false j Eg)|]. rewrite F1, A2 by (cbn; congruence). reflexivity.
    + change (half true M' (NGrad, j) = half true M (NGrad, j)). rewrite E2 by (destruct sw; cbn; congruence). rewrite G2. transitivity (half true M2 (NGrad, j)); [exact (Q true j Eg)|]. rewrite B2 by (cbn; congruence). apply F2.
Qed.
Lemma hinv_swap sw M fam : hinv sw M fam -> hinv (negb sw) M (fun k => h_swap K (fam k)).
Proof. intros [H St]. split; [|exact St]. intros k Hk. destruct (H k Hk) as [[] []]. destruct sw; split; split; cbn in *; auto. Qed.
Lemma hloop_inv sw s0 ts : forall t M M' fam, ts = rev (zrange (t - Z.of_nat (length ts)) t) -> hinv sw M fam ->
  nbwd_loop K P0 NS nsrc nrec nrecsc srcs recs recssc vbat sbat pml0 pml1 v scatter gav gas vrg srg sr gr grsc (if Z.odd (s0 - t) then negb sw else sw) ts M M' ->
  hinv sw M' (fun k => fold_left (h_bwd_t K (SP k) (rsck k) (vk k) (sk k) (gvis k) (stk k) (stsck k) vrg srg sr (grk k) (grsck k) s0) ts (fam k)) /\ gkeep M M'.
Proof.
  induction ts as [|t0 ts IH]; intros t M M' fam Ht Hi Hl; inversion Hl as [|? ? ? ? M1 ? Hs Hl']; subst; [split; [exact Hi|apply gkeep_refl]|].
  rewrite zrange_snoc in Ht by (cbn [length]; lia). rewrite rev_app_distr in Ht. cbn [rev app] in Ht. injection Ht as -> Ht.
  destruct (IH (t - 1)%Z M1 M' (fun k => h_bwd_t K (SP k) (rsck k) (vk k) (sk k) (gvis k) (stk k) (stsck k) vrg srg sr (grk k) (grsck k) s0 (fam k) (t - 1)%Z)) as [A B].
  - rewrite Ht at 1. do 2 f_equal. cbn [length]. lia.
  - unfold h_bwd_t. replace (s0 - 1 - (t - 1))%Z with (s0 - t)%Z by lia. destruct (Z.odd (s0 - t)).
    + apply hinv_swap in Hi. pose proof (proj1 (hstep_inv (negb sw) (t - 1)%Z M M1 _ Hi Hs)) as H1. apply hinv_swap in H1. rewrite negb_involutive in H1. exact H1.
    + apply (proj1 (hstep_inv sw (t - 1)%Z M M1 fam Hi Hs)).
  - replace (s0 - (t - 1))%Z with (Z.succ (s0 - t)) by lia. rewrite Z.odd_succ, <- Z.negb_odd. destruct (Z.odd (s0 - t)); cbn [negb] in *; [rewrite negb_involutive in Hl'|]; exact Hl'.
  - split; [exact A|]. apply (gkeep_trans M M1 M'); [|exact B]. destruct (Z.odd (s0 - t)).
    + apply hinv_swap in Hi. apply (proj2 (hstep_inv (negb sw) (t - 1)%Z M M1 _ Hi Hs)).
    + apply (proj2 (hstep_inv sw (t - 1)%Z M M1 fam Hi Hs)).
Qed.
Lemma hcall_inv sw s cf M M' fam : hinv sw M fam ->
  nbwd_loop K P0 NS nsrc nrec nrecsc srcs recs recssc vbat sbat pml0 pml1 v scatter gav gas vrg srg sr gr grsc sw (rev (zrange (s * sr - Z.min s cf * sr) (s * sr))) M M' ->
  hinv sw M' (fun k => h_backward K (SP k) (rsck k) (vk k) (sk k) (gvis k) (stk k) (stsck k) vrg srg sr (grk k) (grsck k) (Z.min s cf * sr) (s * sr) (fam k)) /\ gkeep M M'.
Proof.
  intros Hi Hl. unfold h_backward. apply (hloop_inv sw (s * sr)%Z _ (s * sr)%Z M M' fam); [|exact Hi|].
  - rewrite rev_length, zrange_length. destruct (Z_le_gt_dec 0 (Z.min s cf * sr)) as [H|H]; [do 2 f_equal; lia|]. rewrite !zrange_nil by lia. reflexivity.
  - rewrite Z.sub_diag. exact Hl.
Qed.
End Call.

(** ** Adding up the gradients of the shots *)
Lemma ncombine_spec b sep M M' : ncombine K P0 NS b sep M M' ->
  (if sep then (forall p, inint p -> M' (b, (NGrad, idx shape p)) = fold_left (fun x k => x + M (b, (NGradShot, (k * n + idx shape p)%Z))) (zrange 0 NS) (M (b, (NGrad, idx shape p)))) else forall l, M' l = M l) /\
  (forall l, (forall p, inint p -> l <> (b, (NGrad, idx shape p))) -> M' l = M l).
Proof.
  unfold ncombine. destruct sep; [|intros ->; split; reflexivity]. intros H. apply lift_launch in H. destruct H as [(M1 & H1 & H2) H3].
  destruct (combine_launch K P0 NS nsrc nrec srcs recs Hsz Hsrc Hrec _ _ H1) as [C Fr]. split.
  - intros p Hp. change (half b M' (NGrad, idx shape p) = fold_left (fun x k => x + half b M (NGradShot, (k * n + idx shape p)%Z)) (zrange 0 NS) (half b M (NGrad, idx shape p))). rewrite <- H2. apply C. exact Hp.
  - intros [b' l] Hl. destruct (bool_dec b' b) as [->|N].
    + change (half b M' l = half b M l). rewrite <- H2. apply Fr. intros p Hp E. apply (Hl p Hp). rewrite E. reflexivity.
    + change (half b' M' l = half b' M l). apply H3. exact N.
Qed.

(** ** The driver *)
Section Driver.
Variables w_ wsc_ : Z -> arr K.
Variables pml0 pml1 : nat -> Z.
Hypothesis Hpml : forall d, (d < nd)%nat -> (pml0 d <= pml1 d)%Z.
Variables (v scatter : arr K) (vrg srg : bool) (sr : Z) (gr grsc : Z -> arr K).
Notation vk k := (shot_v K P0 vbat v k).
Notation sk k := (shot_v K P0 sbat scatter k).
Notation grk k := (fun t => row (gr t) nrec k).
Notation grsck k := (fun t => row (grsc t) nrecsc k).
Notation rsck k := (row recssc nrecsc k).
Notation stk k := (fun s => sh K P0 k (w_ s)).
Notation stsck k := (fun s => sh K P0 k (wsc_ s)).
Notation gvis := (gvis K P0 NS pml0 pml1).
Notation gnv := (gname NS vbat vrg).
Notation gns := (gname NS sbat srg).
Notation hinv := (hinv K P0 NS nsrc gnv gns w_ wsc_).
Lemma gn_or b r : gname NS b r = NGrad \/ gname NS b r = NGradShot.
Proof. unfold gname. destruct (gseparate _ _ _); auto. Qed.
Lemma gn_sep b r : gseparate NS b r = true -> gname NS b r = NGradShot.
Proof. unfold gname. intros ->. reflexivity. Qed.
Lemma hinv_combine b bt r sw M M' fam : (if b : bool then gns else gnv) = gname NS bt r -> ncombine K P0 NS b (gseparate NS bt r) M M' -> hinv sw M fam -> hinv sw M' fam.
Proof.
  intros Eb Hc [H [S1 S2]]. destruct (ncombine_spec b _ M M' Hc) as [C Fr].
  assert (Q : forall b' a i, a <> NGrad -> M' (b', (a, i)) = M (b', (a, i))) by (intros b' a i N; apply Fr; intros p _; congruence).
  assert (G : forall (b' : bool) i, M' (b', ((if b' then gns else gnv), i)) = M (b', ((if b' then gns else gnv), i))).
  { intros b' i. destruct (bool_dec b' b) as [->|N]; [|apply Fr; intros p _; congruence]. destruct (gseparate NS bt r) eqn:Es; [|apply C].
    apply Q. rewrite Eb, gn_sep by exact Es. discriminate. }
  split; [|split; intros s j; unfold BornGpuModel.half; rewrite Q by discriminate; [apply S1|apply S2]].
  intros k Hk. eapply heq_trans; [|apply (H k Hk)]. clear H.
  split; cbn [h_bg h_sc hview]; split; cbn [g_wfc g_wfp g_psi g_psin g_zeta g_zetan g_f g_v gview]; intros;
    first [apply Forall2_eq; apply row_ext; intros j Hj; unfold BornGpuModel.half; apply Q; discriminate
          | intros i Hi; unfold BornGpuModel.half; first [apply (G false)|apply (G true)|apply Q; destruct sw; discriminate]].
Qed.
Lemma hdriver_inv cf ss : forall sw M sw' M' fam, hinv sw M fam ->
  nbwd_driver K P0 NS nsrc nrec nrecsc srcs recs recssc vbat sbat pml0 pml1 v scatter vrg srg sr gr grsc cf ss sw M sw' M' ->
  hinv sw' M' (fun k => fold_left (h_bwd_chunk K (SP k) (rsck k) (vk k) (sk k) (gvis k) (stk k) (stsck k) vrg srg sr (grk k) (grsck k) cf) ss (fam k)).
Proof.
  induction ss as [|s ss IH]; intros sw M sw' M' fam Hi Hd; inversion Hd as [|? ? ? ? M1 M2 M3 ? ? Hl Hc Hc' Hd']; subst; [exact Hi|]. cbn [fold_left].
  refine (IH _ M3 sw' M' (fun k => h_bwd_chunk K (SP k) (rsck k) (vk k) (sk k) (gvis k) (stk k) (stsck k) vrg srg sr (grk k) (grsck k) cf (fam k) s) _ Hd').
  destruct (hcall_inv gnv gns (gn_or _ _) (gn_or _ _) w_ wsc_ pml0 pml1 Hpml v scatter vrg srg sr gr grsc sw s cf M M1 fam Hi Hl) as [C _].
  apply (hinv_combine false vbat vrg sw M1 M2 _ eq_refl Hc) in C. apply (hinv_combine true sbat srg sw M2 M3 _ eq_refl Hc') in C.
  unfold h_bwd_chunk. destruct (_ =? 0)%Z; [exact C|]. apply hinv_swap. exact C.
Qed.
End Driver.

Section Run.
Variables (pw : nat -> Z * Z) (v scatter : arr K) (w_ wsc_ : Z -> arr K) (vrg srg : bool) (sr : Z) (gr grsc : Z -> arr K) (nt : Z) (cb : option Z) (g gsc : Z -> st K).
Hypothesis Hg : geom_ok K P0 pw.
Hypothesis Hsr : (0 < sr)%Z.
Hypothesis Hcb : cb_ok nt sr cb.
Notation pml0 := (pml_begin K P0 3 pw).
Notation pml1 := (pml_end K P0 3 pw).
Notation gvis := (gvis K P0 NS pml0 pml1).
Notation rsck k := (row recssc nrecsc k).
Notation single k vis := (born_backward K (SP k) (rsck k) pw (shot_v K P0 vbat v k) (shot_v K P0 sbat scatter k) vis (fun s => sh K P0 k (w_ s)) (fun s => sh K P0 k (wsc_ s)) vrg srg sr (fun t => row (gr t) nrec k) (fun t => row (grsc t) nrecsc k) nt cb (g k) (gsc k)).
Lemma hpml_le : forall d, (d < nd)%nat -> (pml0 d <= pml1 d)%Z.
Proof. intros d Hd. destruct (geom_bounds K P0 pw Hg 3 ltac:(lia) d Hd). lia. Qed.
Lemma hvis_b k : (0 <= k < NS)%Z -> bvis K P0 pw (gvis k).
Proof. intros Hk. apply gvis_perm; [exact Hsz|exact Hk|]. apply geom_bounds; [exact Hg|lia]. Qed.
Notation N := (nt / sr)%Z.
Notation cf := (match cb with Some c => c | None => (nt / sr)%Z end).
Notation steps := (if (nt <=? 0)%Z then [] else range_down N cf).
Definition hM0 : mem nloc K := fun l => if fst l then bmem_of K (bneg K (batch_binit K P0 nsrc nrecsc srcs recssc pw gsc)) wsc_ (snd l)
                                        else bmem_of K (bneg K (batch_binit K P0 nsrc nrec srcs recs pw g)) w_ (snd l).
Notation fam0 := (fun k => h_neg K (mkhmem K (bwd_init K (SP k) pw (g k)) (bwd_init K (SP k) pw (gsc k)))).
Notation chunk k := (h_bwd_chunk K (SP k) (rsck k) (shot_v K P0 vbat v k) (shot_v K P0 sbat scatter k) (gvis k) (fun s => sh K P0 k (w_ s)) (fun s => sh K P0 k (wsc_ s)) vrg srg sr (fun t => row (gr t) nrec k) (fun t => row (grsc t) nrecsc k) cf).
Lemma hsingle k : single k (gvis k) = let m := h_neg K (fold_left (chunk k) steps (fam0 k)) in
  Some (mkborn_grad K (crop_bst K (SP k) (h_bg K m)) (crop_bst K (SP k) (h_sc K m)) (g_f K (h_bg K m)) (g_f K (h_sc K m)) (g_v K (h_bg K m)) (g_v K (h_sc K m))).
Proof.
  unfold born_backward, h_bwd_driver. destruct (Z.leb_spec nt 0); [reflexivity|]. destruct (Z.eqb_spec cf 0) as [E0|E0]; [|reflexivity].
  exfalso. destruct cb as [c|]; cbn in Hcb; [lia|]. pose proof (Z.div_str_pos nt sr). lia.
Qed.
Lemma hinv_init gav gas : gav = NGrad \/ gav = NGradShot -> gas = NGrad \/ gas = NGradShot -> hinv K P0 NS nsrc gav gas w_ wsc_ false hM0 fam0.
Proof.
  intros Hv Hs. destruct (ginv_init K P0 NS nsrc nrec srcs recs pw w_ g gav Hv) as [A A']. destruct (ginv_init K P0 NS nsrc nrecsc srcs recssc pw wsc_ gsc gas Hs) as [B B'].
  split; [|split; [exact A'|exact B']]. intros k Hk. split; cbn [h_bg h_sc hview h_neg]; [apply (A k Hk)|]. apply (B k Hk).
Qed.
Notation bwd out := (gpu_born_backward K P0 NS nsrc nrec nrecsc srcs recs recssc vbat sbat pw v scatter w_ wsc_ vrg srg sr gr grsc nt cb g gsc out).
Lemma hrun out : bwd out -> exists sw M, hinv K P0 NS nsrc (gname NS vbat vrg) (gname NS sbat srg) w_ wsc_ sw M (fun k => fold_left (chunk k) steps (fam0 k)) /\
  nbwd_driver K P0 NS nsrc nrec nrecsc srcs recs recssc vbat sbat pml0 pml1 v scatter vrg srg sr gr grsc cf steps false hM0 sw M /\
  out = let G := bneg K (bglob_of K (gname NS vbat vrg) sw (half false M)) in let Gsc := bneg K (bglob_of K (gname NS sbat srg) sw (half true M)) in
        mkgborn_grad K (gbcrop K P0 G) (gbcrop K P0 Gsc) (B_f K G) (B_f K Gsc) (B_gv K G) (B_gv K Gsc).
Proof.
  intros (sw & M & Hd & E). exists sw, M. split; [|split; [exact Hd|exact E]].
  exact (hdriver_inv w_ wsc_ pml0 pml1 hpml_le v scatter vrg srg sr gr grsc cf steps false hM0 sw M fam0 (hinv_init _ _ (gn_or _ _) (gn_or _ _)) Hd).
Qed.

Theorem gpu_born_backward_shot out k : (0 <= k < NS)%Z -> bwd out ->
  exists o, single k (gvis k) = Some o /\
    ueq K P0 (gg_u K out k) (bg_u K o) /\ ueq K P0 (gg_usc K out k) (bg_usc K o) /\
    (forall t, row (gg_f K out t) nsrc k = bg_f K o t) /\ (forall t, row (gg_fsc K out t) nsrc k = bg_fsc K o t).
Proof.
  intros Hk H. destruct (hrun out H) as (sw & M & [C _] & _ & ->). rewrite hsingle. eexists. split; [reflexivity|]. specialize (C k Hk). cbv beta in C.
  set (m := fold_left _ steps _) in *. destruct C as [[c1 c2 c3 c4 c5 c6 c7 c8] [e1 e2 e3 e4 e5 e6 e7 e8]].
  cbn [gg_u gg_usc gg_f gg_fsc bg_u bg_usc bg_f bg_fsc]. split; [|split; [|split]].
  - intros q Hq. pose proof (win_idx K P0 (topad K P0 q)) as W. apply In_upts in Hq. specialize (W Hq).
    cbn. split; [|split]; [apply c1; exact W| |].
    + unfold sh, crop. cbn. f_equal. apply c2. exact W.
    + intros d Hd'. split; [apply (c3 d Hd'); exact W|apply (c5 d Hd'); exact W].
  - intros q Hq. pose proof (win_idx K P0 (topad K P0 q)) as W. apply In_upts in Hq. specialize (W Hq).
    cbn. split; [|split]; [apply e1; exact W| |].
    + unfold sh, crop. cbn. f_equal. apply e2. exact W.
    + intros d Hd'. split; [apply (e3 d Hd'); exact W|apply (e5 d Hd'); exact W].
  - intros t. apply Forall2_eq. apply (c7 t I).
  - intros t. apply Forall2_eq. apply (e7 t I).
Qed.
End Run.
End Bwd.
