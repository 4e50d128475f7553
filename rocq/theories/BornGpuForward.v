(** * Every forward run of the Born propagator on the device gives every shot what the CPU gives it. *)
From Coq Require Import List ZArith QArith Lia Bool Permutation.
From Verif Require Import Ops Sums Grid Stencil ScalarModel ScalarRefine ScalarForward ScalarBackward ScalarFunc Param ShotsModel Shots ShotsRun ShotsThm Threads GpuModel GpuLaunch GpuFwd GpuLocs BornModel BornGpuModel BornGpuLift BornGpuFwd.
Import ListNotations.
Local Open Scope K_scope.

Section Fwd.
Variable K : ops.
Variable P0 : par K.
Variable NS : Z.
Variables nsrc nrec nrecsc : Z.
Variables srcs recs recssc : Z -> Z.
Variables vbat sbat : bool.
Notation shape := (p_shape P0).
Notation fd := (fd_pad (p_acc P0)).
Notation nd := (length shape).
Notation n := (prodZ shape).
Notation SP := (shot_par K P0 nsrc nrec srcs recs).
Notation glob := (fglob_of K).
Notation half := (half K).
Notation ceq := (crel K K eq P0 (fun _ => True) (fun _ => True)).
Notation ninv := (ninv K P0 NS nrec nrecsc).
Hypothesis Hnsrc : (0 <= nsrc < 2 ^ 31)%Z.
Hypothesis Hnrec : (0 <= nrec < 2 ^ 31)%Z.
Hypothesis Hnrecsc : (0 <= nrecsc < 2 ^ 31)%Z.
Hypothesis Hsz : sizes_ok fd shape NS.
Hypothesis Hsrc : forall j, (0 <= j < NS * nsrc)%Z -> (srcs j < n)%Z.
Hypothesis Hrec : forall j, (0 <= j < NS * nrec)%Z -> (recs j < n)%Z.
Hypothesis Hrecsc : forall j, (0 <= j < NS * nrecsc)%Z -> (recssc j < n)%Z.
Hypothesis Huniq : distinct NS nsrc srcs.
Lemma ns_bound : (0 <= NS < 2 ^ 31)%Z.
Proof. destruct Hsz as (_ & _ & H). exact H. Qed.

(** Sources and receivers of one wavefield. *)
Lemma half_tail nr rs sw t (H1 H2 H3 : mem loc K) (g : arr K) k m1 : (0 <= nr)%Z -> (forall j, (0 <= j < NS * nr)%Z -> (rs j < n)%Z) -> (0 <= k < NS)%Z ->
  ceq (fview K P0 nr k (glob sw H1)) m1 ->
  (forall k i, (0 <= k < NS)%Z -> (0 <= i < n)%Z -> H2 (qwfp sw, k * n + i)%Z = add_to_wavefield K (fun i => H1 (qwfp sw, k * n + i)%Z) (row srcs nsrc k) (row g nsrc k) i) ->
  (forall l, fst l <> qwfp sw -> H2 l = H1 l) ->
  (forall k, (0 <= k < NS)%Z -> row (fun j => H3 (NAmp t, j)) nr k = record_from_wavefield K (fun i => H2 (qwfc sw, k * n + i)%Z) (row rs nr k) (row (fun j => H2 (NAmp t, j)) nr k)) ->
  (forall l, fst l <> NAmp t -> H3 l = H2 l) ->
  ceq (fview K P0 nr k (glob sw H3))
    (mkcmem K (m_wfc K m1) (add_to_wavefield K (m_wfp K m1) (row srcs nsrc k) (row g nsrc k)) (m_psi K m1) (m_psin K m1) (m_zeta K m1) (m_store K m1)
       (fun u => if (u =? t)%Z then record_from_wavefield K (m_wfc K m1) (row rs nr k) (m_r K m1 t) else m_r K m1 u)).
Proof.
  intros Hnr Hrs Hk I1 A1 A2 B1 B2. destruct I1 as [c1 c2 c3 c4 c5 c6 c7].
  cbn [m_wfc m_wfp m_psi m_psin m_zeta m_store m_r fview F_wfc F_wfp F_psi F_psin F_zeta F_store F_r fglob_of] in *.
  assert (Q : forall a j, a <> qwfp sw -> (forall s, a <> NAmp s) -> H3 (a, j) = H1 (a, j)) by (intros a j N1 N2; rewrite B2, A2; [reflexivity|exact N1|apply N2]).
  split; cbn [m_wfc m_wfp m_psi m_psin m_zeta m_store m_r fview F_wfc F_wfp F_psi F_psin F_zeta F_store F_r fglob_of].
  - intros i Hi. unfold sh. rewrite Q by (intros; destruct sw; cbn; congruence). apply (c1 i Hi).
  - intros i Hi. unfold sh. rewrite B2 by (destruct sw; cbn; congruence). rewrite A1 by assumption.
    apply (arel_add K K eq (oprel_eq K) n); [apply (SP_src K P0 NS nsrc nrec srcs recs); [lia|exact Hsrc|exact Hk]|exact c2|apply Forall2_eq; reflexivity|exact Hi].
  - intros d Hd i Hi. unfold sh. rewrite Q by (intros; destruct sw; cbn; congruence). apply (c3 d Hd i Hi).
  - intros d Hd i Hi. unfold sh. rewrite Q by (intros; destruct sw; cbn; congruence). apply (c4 d Hd i Hi).
  - intros d Hd i Hi. unfold sh. rewrite Q by (intros; destruct sw; cbn; congruence). apply (c5 d Hd i Hi).
  - intros s Hs i Hi. unfold sh. rewrite Q by (intros; destruct sw; cbn; congruence). apply (c6 s Hs i Hi).
  - intros u Hu. specialize (c7 u I). destruct (Z.eqb_spec u t) as [->|N].
    + rewrite B1 by exact Hk. apply (Forall2_record K K eq n); [apply (SP_rec K P0 NS nsrc nr srcs rs); [lia|exact Hrs|exact Hk]| |].
      * intros i Hi. rewrite A2 by (destruct sw; cbn; congruence). apply (c1 i Hi).
      * apply Forall2_eq in c7. apply Forall2_eq. rewrite <- c7. apply row_ext. intros j Hj. apply A2. destruct sw; cbn; congruence.
    + apply Forall2_eq in c7. apply Forall2_eq. rewrite <- c7. apply row_ext. intros j Hj. rewrite B2, A2; [reflexivity|destruct sw; cbn; congruence|cbn; congruence].
Qed.

Section Call.
Variables pml0 pml1 : nat -> Z.
Hypothesis Hpml : forall d, (d < nd)%nat -> (pml0 d <= pml1 d)%Z.
Variables (v scatter : arr K) (vrg srg : bool) (sr : Z) (f fsc : Z -> arr K).
Notation vk k := (shot_v K P0 vbat v k).
Notation sk k := (shot_v K P0 sbat scatter k).
Notation fk k := (fun t => row (f t) nsrc k).
Notation fsck k := (fun t => row (fsc t) nsrc k).
Notation rsck k := (row recssc nrecsc k).
Notation gvis := (gvis K P0 NS pml0 pml1).

Lemma nstep_inv sw t M M' fam : ninv sw M fam -> nfwd_step K P0 NS nsrc nrec nrecsc srcs recs recssc vbat sbat pml0 pml1 v scatter vrg srg sr f fsc sw t M M' ->
  ninv sw M' (fun k => n_fwd_body K (SP k) (rsck k) (vk k) (sk k) (gvis k) vrg srg sr (fk k) (fsck k) t (fam k)).
Proof.
  intros Hi (M1 & M2 & M3 & H1 & H2 & H3 & H4).
  pose proof (nfwd_launch K P0 NS nsrc nrec nrecsc srcs recs vbat sbat pml0 pml1 v scatter Hsz Hpml sw _ _ _ M M1 fam Hi H1) as I1. clear H1 Hi. revert I1.
  replace ((t mod sr =? 0)%Z && (vrg || srg)) with (vrg && (t mod sr =? 0)%Z || srg && (t mod sr =? 0)%Z) by (destruct vrg, srg, (t mod sr =? 0)%Z; reflexivity).
  rewrite (andb_comm (t mod sr =? 0)%Z vrg). set (stv := vrg && (t mod sr =? 0)%Z). set (sts := srg && (t mod sr =? 0)%Z). set (si := (t / sr)%Z). intros I1.
  pose proof (nadd_launch K P0 NS nsrc srcs Hnsrc ns_bound Hsrc (qwfp sw) (f t) (fsc t) M1 M2 Huniq H2) as A. clear H2.
  destruct (nrec_launch K P0 NS nrec recs Hnrec ns_bound Hrec false (qwfc sw) t M2 M3) as (B1 & B2 & B3); [intros s; destruct sw; discriminate|exact H3|]. clear H3.
  destruct (nrec_launch K P0 NS nrecsc recssc Hnrecsc ns_bound Hrecsc true (qwfc sw) t M3 M') as (C1 & C2 & C3); [intros s; destruct sw; discriminate|exact H4|]. clear H4.
  intros k Hk. specialize (I1 k Hk). cbv beta in I1. unfold n_fwd_body. fold stv sts si. set (m1 := fold_left _ (gvis k) (fam k)) in *. destruct I1 as [I1 I2]. cbn [nview n_bg n_sc] in I1, I2.
  split; cbn [nview n_bg n_sc p_src p_rec shot_par].
  - destruct (A false) as [A1 A2]. apply (half_tail nrec recs sw t (half false M1) (half false M2) (half false M') (f t)); try assumption; try lia.
    + intros j Hj. rewrite <- B1 by exact Hj. apply row_ext. intros q Hq. apply C3. discriminate.
    + intros l Hl. rewrite C3 by discriminate. apply B2. exact Hl.
  - destruct (A true) as [A1 A2]. apply (half_tail nrecsc recssc sw t (half true M1) (half true M3) (half true M') (fsc t)); try assumption; try lia.
    + intros j i Hj Hii. rewrite B3 by discriminate. apply A1; assumption.
    + intros l Hl. rewrite B3 by discriminate. apply A2. exact Hl.
Qed.

Lemma ninv_swap sw M fam : ninv sw M fam -> ninv (negb sw) M (fun k => n_swap K (fam k)).
Proof.
  intros H k Hk. destruct (H k Hk) as [[] []]. split; cbn [n_bg n_sc n_swap nview]; split; destruct sw; cbn in *; auto.
Qed.
Notation nt_ k := (n_fwd_t K (SP k) (rsck k) (vk k) (sk k) (gvis k) vrg srg sr (fk k) (fsck k)).
Lemma nloop_inv sw s0 ts : forall t M M' fam, ts = zrange t (t + Z.of_nat (length ts)) -> ninv sw M fam ->
  nfwd_loop K P0 NS nsrc nrec nrecsc srcs recs recssc vbat sbat pml0 pml1 v scatter vrg srg sr f fsc (if Z.odd (t - s0) then negb sw else sw) ts M M' ->
  ninv sw M' (fun k => fold_left (nt_ k s0) ts (fam k)).
Proof.
  induction ts as [|t0 ts IH]; intros t M M' fam Ht Hi Hl; inversion Hl as [|? ? ? ? M1 ? Hs Hl']; subst; [exact Hi|].
  rewrite zrange_cons in Ht by (cbn [length]; lia). injection Ht as -> Ht.
  apply (IH (t + 1)%Z M1 M' (fun k => nt_ k s0 (fam k) t)).
  - rewrite Ht at 1. f_equal. cbn [length]. lia.
  - unfold n_fwd_t. destruct (Z.odd (t - s0)).
    + apply ninv_swap in Hi. pose proof (nstep_inv (negb sw) t M M1 _ Hi Hs) as H1. apply ninv_swap in H1. rewrite negb_involutive in H1. exact H1.
    + apply (nstep_inv sw t M M1 fam Hi Hs).
  - replace (t + 1 - s0)%Z with (Z.succ (t - s0)) by lia. rewrite Z.odd_succ, <- Z.negb_odd. destruct (Z.odd (t - s0)); cbn [negb] in *; [rewrite negb_involutive in Hl'|]; exact Hl'.
Qed.
Lemma ndriver_inv N cf ss : forall sw M sw' M' fam, ninv sw M fam ->
  nfwd_driver K P0 NS nsrc nrec nrecsc srcs recs recssc vbat sbat pml0 pml1 v scatter vrg srg sr f fsc N cf ss sw M sw' M' ->
  ninv sw' M' (fun k => fold_left (n_fwd_chunk K (SP k) (rsck k) (vk k) (sk k) (gvis k) vrg srg sr (fk k) (fsck k) N cf) ss (fam k)).
Proof.
  induction ss as [|s ss IH]; intros sw M sw' M' fam Hi Hd; inversion Hd as [|? ? ? ? M1 ? ? Hl Hd']; subst; [exact Hi|]. cbn [fold_left].
  refine (IH _ M1 sw' M' (fun k => n_fwd_chunk K (SP k) (rsck k) (vk k) (sk k) (gvis k) vrg srg sr (fk k) (fsck k) N cf (fam k) s) _ Hd').
  assert (C : ninv sw M1 (fun k => n_forward K (SP k) (rsck k) (vk k) (sk k) (gvis k) vrg srg sr (fk k) (fsck k) (Z.min (N - s) cf * sr) (s * sr) (fam k))).
  { unfold n_forward. apply (nloop_inv sw (s * sr)%Z _ (s * sr)%Z M M1 fam); [|exact Hi|].
    - rewrite zrange_length. destruct (Z_le_gt_dec 0 (Z.min (N - s) cf * sr)) as [H|H]; [f_equal; lia|]. rewrite !zrange_nil by lia. reflexivity.
    - rewrite Z.sub_diag. exact Hl. }
  unfold n_fwd_chunk. destruct (_ =? 0)%Z; [exact C|]. apply ninv_swap. exact C.
Qed.
End Call.

Theorem gpu_born_forward_shot pw v scatter vrg srg sr f fsc nt cb w0 wsc0 u usc out k : geom_ok K P0 pw ->
  (0 < sr)%Z -> cb_ok nt sr cb -> (0 <= k < NS)%Z ->
  gpu_born_forward K P0 NS nsrc nrec nrecsc srcs recs recssc vbat sbat pw v scatter vrg srg sr f fsc nt cb w0 wsc0 u usc out ->
  exists gv o, fvis K P0 pw gv /\
    born_forward K (SP k) (row recssc nrecsc k) pw (shot_v K P0 vbat v k) (shot_v K P0 sbat scatter k) gv vrg srg sr (fun t => row (f t) nsrc k) (fun t => row (fsc t) nsrc k) nt cb
      (fun s => sh K P0 k (w0 s)) (fun s => sh K P0 k (wsc0 s)) (u k) (usc k) = Some o /\
    ueq K P0 (go_u K out k) (bo_u K o) /\ ueq K P0 (go_usc K out k) (bo_usc K o) /\
    (forall t, row (go_r K out t) nrec k = bo_r K o t) /\ (forall t, row (go_rsc K out t) nrecsc k = bo_rsc K o t) /\
    (forall s i, (0 <= i < n)%Z -> go_w K out s (k * n + i)%Z = bo_w K o s i) /\ (forall s i, (0 <= i < n)%Z -> go_wsc K out s (k * n + i)%Z = bo_wsc K o s i).
Proof.
  intros Hg Hsr Hcb Hk (sw & M & Hd & ->).
  set (pml0 := pml_begin K P0 2 pw) in *. set (pml1 := pml_end K P0 2 pw) in *.
  assert (Hb : bounds_ok K P0 pml0 pml1) by (apply geom_bounds; [exact Hg|lia]).
  assert (Hpml : forall d, (d < nd)%nat -> (pml0 d <= pml1 d)%Z) by (intros d Hd'; destruct (Hb d Hd'); lia).
  set (fam0 := fun k => n_fwd_init K (SP k) (row recssc nrecsc k) pw (fun s => sh K P0 k (w0 s)) (fun s => sh K P0 k (wsc0 s)) (u k) (usc k)).
  match type of Hd with nfwd_driver _ _ _ _ _ _ _ _ _ _ _ _ _ _ _ _ _ _ _ _ _ _ _ _ ?M0 _ _ => assert (H0 : ninv false M0 fam0) end.
  { intros j Hj. split.
    - apply (finv_init K P0 NS nsrc nrec srcs recs pw w0 u j Hj).
    - apply (finv_init K P0 NS nsrc nrecsc srcs recssc pw wsc0 usc j Hj). }
  pose proof (ndriver_inv pml0 pml1 Hpml v scatter vrg srg sr f fsc _ _ _ _ _ _ _ fam0 H0 Hd k Hk) as C. cbv beta in C. clear Hd.
  exists (gvis K P0 NS pml0 pml1 k).
  set (N := (nt / sr)%Z) in *. set (cf := match cb with Some c => c | None => N end) in *.
  assert (Hv : fvis K P0 pw (gvis K P0 NS pml0 pml1 k)) by (apply gvis_perm; assumption).
  unfold born_forward, n_fwd_driver. fold N cf. fold (fam0 k).
  set (ch := n_fwd_chunk _ _ _ _ _ _ _ _ _ _ _ _ _) in *.
  assert (E : (if (nt <=? 0)%Z then Some (fam0 k) else if (cf =? 0)%Z then None else Some (fold_left ch (range_up N cf) (fam0 k)))
     = Some (fold_left ch (if (nt <=? 0)%Z then [] else range_up N cf) (fam0 k))).
  { destruct (Z.leb_spec nt 0); [reflexivity|]. destruct (Z.eqb_spec cf 0) as [E0|E0]; [|reflexivity]. exfalso. unfold cf, N in E0. destruct cb as [c|]; cbn in Hcb; [lia|]. pose proof (Z.div_str_pos nt sr). lia. }
  rewrite E. clear E. set (m := fold_left _ _ (fam0 k)) in *. eexists. split; [exact Hv|]. split; [reflexivity|]. cbv zeta beta iota.
  cbn [bo_u bo_usc bo_r bo_rsc bo_w bo_wsc go_u go_usc go_r go_rsc go_w go_wsc].
  assert (UU : forall nr H mm, ceq (fview K P0 nr k (glob sw H)) mm -> ueq K P0 (gcrop K P0 (glob sw H) k) (crop_st K (SP k) mm)).
  { intros nr H mm [c1 c2 c3 c4 c5 c6 c7] q Hq. pose proof (win_idx K P0 (topad K P0 q)) as W. apply In_upts in Hq. specialize (W Hq).
    cbn. split; [|split]; [apply c1; exact W|apply c2; exact W|]. intros d Hd. split; [apply (c3 d Hd); exact W|apply (c5 d Hd); exact W]. }
  destruct C as [C D]. cbn [nview n_bg n_sc] in C, D. split; [|split; [|split; [|split; [|split]]]].
  - apply (UU nrec). exact C.
  - apply (UU nrecsc). exact D.
  - intros t. apply Forall2_eq. apply (cr_r _ _ _ _ _ _ _ _ C t I).
  - intros t. apply Forall2_eq. apply (cr_r _ _ _ _ _ _ _ _ D t I).
  - intros s i Hi. apply (cr_store _ _ _ _ _ _ _ _ C s I i Hi).
  - intros s i Hi. apply (cr_store _ _ _ _ _ _ _ _ D s I i Hi).
Qed.
End Fwd.
