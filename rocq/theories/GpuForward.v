(** * Every forward run on the device gives every shot what the CPU gives it. *)
From Coq Require Import List ZArith QArith Lia Bool Ring Permutation.
From Verif Require Import Ops Sums Grid Stencil ScalarModel ScalarRefine ScalarForward ScalarBackward ScalarFunc Param ShotsModel Shots ShotsRun ShotsThm Threads GpuModel GpuLaunch GpuFwd GpuLocs.
Import ListNotations.
Local Open Scope K_scope.

Section Fwd.
Variable K : ops.
Hypothesis Kr : is_ring K.
Add Ring KRing : Kr.
Variable P0 : par K.
Variable NS : Z.
Variables nsrc nrec : Z.
Variables srcs recs : Z -> Z.
Variable batched : bool.
Notation shape := (p_shape P0).
Notation fd := (fd_pad (p_acc P0)).
Notation nd := (length shape).
Notation n := (prodZ shape).
Notation SP := (shot_par K P0 nsrc nrec srcs recs).
Notation inint p := (interior K P0 p = true).
Notation glob := (fglob_of K).
Notation view := (fview K P0 nrec).
Notation ceq := (crel K K eq P0 (fun _ => True) (fun _ => True)).
Notation TT := (fun _ : Z => True).
Notation finv := (finv K P0 NS nrec).
Hypothesis Hnsrc : (0 <= nsrc < 2 ^ 31)%Z.
Hypothesis Hnrec : (0 <= nrec < 2 ^ 31)%Z.
Hypothesis Hsz : sizes_ok fd shape NS.
Hypothesis Hsrc : forall j, (0 <= j < NS * nsrc)%Z -> (srcs j < n)%Z.
Hypothesis Hrec : forall j, (0 <= j < NS * nrec)%Z -> (recs j < n)%Z.
Hypothesis Huniq : distinct NS nsrc srcs.

Section Call.
Variables pml0 pml1 : nat -> Z.
Hypothesis Hpml : forall d, (d < nd)%nat -> (pml0 d <= pml1 d)%Z.
Variables (v : arr K) (vrg : bool) (sr : Z) (f : Z -> arr K).
Notation vk k := (shot_v K P0 batched v k).
Notation fk k := (fun t => row (f t) nsrc k).
Notation gvis := (gvis K P0 NS pml0 pml1).
Notation body t fam := (fun k => c_fwd_body K (SP k) (vk k) (gvis k) vrg sr (fk k) t (fam k)).

Lemma ns_bound : (0 <= NS < 2 ^ 31)%Z.
Proof. destruct Hsz as (_ & _ & H). exact H. Qed.

Lemma step_inv sw t M M' fam : finv (glob sw M) fam -> gfwd_step K P0 NS nsrc nrec srcs recs batched pml0 pml1 v vrg sr f sw t M M' -> finv (glob sw M') (body t fam).
Proof.
  intros Hi (M1 & M2 & H1 & H2 & H3).
  pose proof (fwd_launch K P0 NS nsrc nrec srcs recs batched pml0 pml1 v Hsz Hpml sw _ _ M M1 fam Hi H1) as I1. clear H1 Hi. revert I1.
  set (sto := vrg && (t mod sr =? 0)%Z). set (si := (t / sr)%Z). intros I1.
  assert (X2 : (forall k i, (0 <= k < NS)%Z -> (0 <= i < n)%Z -> M2 (qwfp sw, k * n + i)%Z = add_to_wavefield K (fun i => M1 (qwfp sw, k * n + i)%Z) (row srcs nsrc k) (row (f t) nsrc k) i) /\ (forall l, fst l <> qwfp sw -> M2 l = M1 l)).
  { destruct (Z.ltb_spec 0 nsrc) as [Hp|Hp].
    - apply (add_launch K P0 NS (qwfp sw) nsrc srcs Hnsrc ns_bound Hsrc (f t) M1 M2 Huniq H2).
    - subst M2. assert (nsrc = 0%Z) by lia. split; [|reflexivity]. intros k i Hk Hi. subst nsrc. reflexivity. }
  destruct X2 as [A1 A2]. clear H2.
  assert (X3 : (forall k, (0 <= k < NS)%Z -> row (fun j => M' (NAmp t, j)) nrec k = record_from_wavefield K (fun i => M2 (qwfc sw, k * n + i)%Z) (row recs nrec k) (row (fun j => M2 (NAmp t, j)) nrec k)) /\ (forall l, fst l <> NAmp t -> M' l = M2 l)).
  { destruct (Z.ltb_spec 0 nrec) as [Hp|Hp].
    - apply (rec_launch K P0 NS (qwfc sw) nrec recs Hnrec ns_bound t); [intros s; destruct sw; discriminate|exact H3].
    - subst M'. assert (nrec = 0%Z) by lia. split; [|reflexivity]. intros k Hk. subst nrec. reflexivity. }
  destruct X3 as [B1 B2]. clear H3.
  intros k Hk. specialize (I1 k Hk). cbv beta in I1. unfold c_fwd_body. fold sto si. set (m1 := fold_left _ (gvis k) (fam k)) in *. destruct I1 as [c1 c2 c3 c4 c5 c6 c7].
  cbn [m_wfc m_wfp m_psi m_psin m_zeta m_store m_r fview F_wfc F_wfp F_psi F_psin F_zeta F_store F_r fglob_of] in *.
  assert (Q : forall a j, a <> qwfp sw -> (forall s, a <> NAmp s) -> M' (a, j) = M1 (a, j)) by (intros a j N1 N2; rewrite B2, A2; [reflexivity|exact N1|apply N2]).
  split; cbn [m_wfc m_wfp m_psi m_psin m_zeta m_store m_r fview F_wfc F_wfp F_psi F_psin F_zeta F_store F_r fglob_of p_src p_rec shot_par].
  - intros i Hi. unfold sh. rewrite Q by (intros; destruct sw; cbn; congruence). apply (c1 i Hi).
  - intros i Hi. unfold sh. rewrite B2 by (destruct sw; cbn; congruence). rewrite A1 by assumption.
    apply (arel_add K K eq (oprel_eq K) n); [apply (SP_src K P0 NS nsrc nrec srcs recs); [lia|exact Hsrc|exact Hk]|exact c2|apply Forall2_eq; reflexivity|exact Hi].
  - intros d Hd i Hi. unfold sh. rewrite Q by (intros; destruct sw; cbn; congruence). apply (c3 d Hd i Hi).
  - intros d Hd i Hi. unfold sh. rewrite Q by (intros; destruct sw; cbn; congruence). apply (c4 d Hd i Hi).
  - intros d Hd i Hi. unfold sh. rewrite Q by (intros; destruct sw; cbn; congruence). apply (c5 d Hd i Hi).
  - intros s Hs i Hi. unfold sh. rewrite Q by (intros; destruct sw; cbn; congruence). apply (c6 s Hs i Hi).
  - intros u Hu. specialize (c7 u I). destruct (Z.eqb_spec u t) as [->|N].
    + rewrite B1 by exact Hk. apply (Forall2_record K K eq n); [apply (SP_rec K P0 NS nsrc nrec srcs recs); [lia|exact Hrec|exact Hk]| |].
      * intros i Hi. rewrite A2 by (destruct sw; cbn; congruence). apply (c1 i Hi).
      * apply Forall2_eq in c7. apply Forall2_eq. rewrite <- c7. apply row_ext. intros j Hj. apply A2. destruct sw; cbn; congruence.
    + apply Forall2_eq in c7. apply Forall2_eq. rewrite <- c7. apply row_ext. intros j Hj. rewrite B2, A2; [reflexivity|destruct sw; cbn; congruence|cbn; congruence].
Qed.

Lemma glob_swap sw M fam : finv (glob sw M) fam -> finv (glob (negb sw) M) (fun k => c_swap K (fam k)).
Proof. intros H. apply finv_swap in H. destruct sw; exact H. Qed.
Lemma finv_fam G fam fam' : (forall k, (0 <= k < NS)%Z -> fam k = fam' k) -> finv G fam -> finv G fam'.
Proof. intros E H k Hk. rewrite <- E by exact Hk. apply H, Hk. Qed.
Lemma loop_inv sw s0 ts : forall t M M' fam, ts = zrange t (t + Z.of_nat (length ts)) -> finv (glob sw M) fam ->
  gfwd_loop K P0 NS nsrc nrec srcs recs batched pml0 pml1 v vrg sr f (if Z.odd (t - s0) then negb sw else sw) ts M M' ->
  finv (glob sw M') (fun k => fold_left (c_fwd_t K (SP k) (vk k) (gvis k) vrg sr (fk k) s0) ts (fam k)).
Proof.
  induction ts as [|t0 ts IH]; intros t M M' fam Ht Hi Hl; inversion Hl as [|? ? ? ? M1 ? Hs Hl']; subst; [exact Hi|].
  rewrite zrange_cons in Ht by (cbn [length]; lia). injection Ht as -> Ht.
  apply (IH (t + 1)%Z M1 M' (fun k => c_fwd_t K (SP k) (vk k) (gvis k) vrg sr (fk k) s0 (fam k) t)).
  - rewrite Ht at 1. f_equal. cbn [length]. lia.
  - unfold c_fwd_t. destruct (Z.odd (t - s0)).
    + apply glob_swap in Hi. pose proof (step_inv (negb sw) t M M1 _ Hi Hs) as H1. apply glob_swap in H1. rewrite negb_involutive in H1. exact H1.
    + apply (step_inv sw t M M1 fam Hi Hs).
  - replace (t + 1 - s0)%Z with (Z.succ (t - s0)) by lia. rewrite Z.odd_succ, <- Z.negb_odd. destruct (Z.odd (t - s0)); cbn [negb] in *; [rewrite negb_involutive in Hl'|]; exact Hl'.
Qed.
Lemma driver_inv N cf ss : forall sw M sw' M' fam, finv (glob sw M) fam ->
  gfwd_driver K P0 NS nsrc nrec srcs recs batched pml0 pml1 v vrg sr f N cf ss sw M sw' M' ->
  finv (glob sw' M') (fun k => fold_left (fwd_chunk K (SP k) (vk k) (gvis k) vrg sr (fk k) N cf) ss (fam k)).
Proof.
  induction ss as [|s ss IH]; intros sw M sw' M' fam Hi Hd; inversion Hd as [|? ? ? ? M1 ? ? Hl Hd']; subst; [exact Hi|]. cbn [fold_left].
  refine (IH _ M1 sw' M' (fun k => fwd_chunk K (SP k) (vk k) (gvis k) vrg sr (fk k) N cf (fam k) s) _ Hd').
  assert (C : finv (glob sw M1) (fun k => c_forward K (SP k) (vk k) (gvis k) vrg sr (fk k) (Z.min (N - s) cf * sr) (s * sr) (fam k))).
  { unfold c_forward. apply (loop_inv sw (s * sr)%Z _ (s * sr)%Z M M1 fam); [|exact Hi|].
    - rewrite zrange_length. destruct (Z_le_gt_dec 0 (Z.min (N - s) cf * sr)) as [H|H]; [f_equal; lia|]. rewrite !zrange_nil by lia. reflexivity.
    - rewrite Z.sub_diag. exact Hl. }
  unfold fwd_chunk. destruct (_ =? 0)%Z; [exact C|]. apply glob_swap. exact C.
Qed.
End Call.

Theorem gpu_forward_shot pw v vrg sr f nt cb store0 u out k : geom_ok K P0 pw -> (forall j, (0 <= j < NS * nsrc)%Z -> loc_ok K P0 (srcs j)) -> (forall j, (0 <= j < NS * nrec)%Z -> loc_ok K P0 (recs j)) ->
  (0 < sr)%Z -> cb_ok nt sr cb -> (0 <= k < NS)%Z ->
  gpu_forward K P0 NS nsrc nrec srcs recs batched pw v vrg sr f nt cb store0 u out ->
  exists gv U1 r1 St1, fvis K P0 pw gv /\ scalar_forward K (SP k) pw (shot_v K P0 batched v k) gv vrg sr (fun t => row (f t) nsrc k) nt cb (fun s => sh K P0 k (store0 s)) (u k) = Some (U1, r1, St1) /\ let '(U, r, St) := out in ueq K P0 (U k) U1 /\ (forall t, row (r t) nrec k = r1 t) /\ (forall s i, (0 <= i < n)%Z -> St s (k * n + i)%Z = St1 s i).
Proof.
  intros Hg Ls Lr Hsr Hcb Hk (sw & M & Hd & ->).
  set (pml0 := pml_begin K P0 2 pw) in *. set (pml1 := pml_end K P0 2 pw) in *.
  assert (Hb : bounds_ok K P0 pml0 pml1) by (apply geom_bounds; [exact Hg|lia]).
  assert (Hpml : forall d, (d < nd)%nat -> (pml0 d <= pml1 d)%Z) by (intros d Hd'; destruct (Hb d Hd'); lia).
  set (M0 := fmem_of K _) in *. set (fam0 := fun k => fwd_init K (SP k) pw (fun s => sh K P0 k (store0 s)) (u k)).
  assert (H0 : finv (glob false M0) fam0) by apply finv_init.
  pose proof (driver_inv pml0 pml1 Hpml v vrg sr f _ _ _ _ _ _ _ fam0 H0 Hd k Hk) as C. cbv beta in C. clear Hd.
  exists (gvis K P0 NS pml0 pml1 k).
  set (N := (nt / sr)%Z) in *. set (cf := match cb with Some c => c | None => N end) in *.
  assert (Hv : fvis K P0 pw (gvis K P0 NS pml0 pml1 k)) by (apply gvis_perm; assumption).
  unfold scalar_forward, fwd_driver. fold N cf. fold (fam0 k).
  assert (E : (if (nt <=? 0)%Z then Some (fam0 k) else if (cf =? 0)%Z then None else Some (fold_left (fwd_chunk K (SP k) (shot_v K P0 batched v k) (gvis K P0 NS pml0 pml1 k) vrg sr (fun t => row (f t) nsrc k) N cf) (range_up N cf) (fam0 k)))
     = Some (fold_left (fwd_chunk K (SP k) (shot_v K P0 batched v k) (gvis K P0 NS pml0 pml1 k) vrg sr (fun t => row (f t) nsrc k) N cf) (if (nt <=? 0)%Z then [] else range_up N cf) (fam0 k))).
  { destruct (Z.leb_spec nt 0); [reflexivity|]. destruct (Z.eqb_spec cf 0) as [E0|E0]; [|reflexivity]. exfalso. unfold cf, N in E0. destruct cb as [c|]; cbn in Hcb; [lia|]. pose proof (Z.div_str_pos nt sr). lia. }
  rewrite E. clear E. set (m := fold_left _ _ (fam0 k)) in *. do 3 eexists. split; [exact Hv|]. split; [reflexivity|]. cbv zeta beta iota.
  destruct C as [c1 c2 c3 c4 c5 c6 c7]. split; [|split].
  - intros q Hq. pose proof (win_idx K P0 (topad K P0 q)) as W. apply In_upts in Hq. specialize (W Hq).
    cbn. split; [|split]; [apply c1; exact W|apply c2; exact W|]. intros d Hd.
    split; [apply (c3 d Hd); exact W|apply (c5 d Hd); exact W].
  - intros t. apply Forall2_eq. apply (c7 t I).
  - intros s i Hi. apply (c6 s I i Hi).
Qed.
End Fwd.
