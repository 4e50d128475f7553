(** * Runs of the staggered-grid propagators on a CUDA device: steps, calls, drivers. *)
From Coq Require Import List ZArith QArith Lia Bool Ring Permutation.
From Verif Require Import Ops Sums Grid Stencil ScalarModel ScalarRefine ScalarForward Param ShotsModel Shots ShotsRun Stag StagAdj StagKernel StagCell StagRefine StagGrad StagRun StagParam
  StagShotsModel StagShots StagShotsRun StagShotsThm Threads GpuModel GpuLaunch GpuFwd GpuLocs GpuThm StagGpuModel StagGpuCell StagGpuLaunch StagGpuFoot StagGpuPhase StagGpuLocs StagGpuComb.
Import ListNotations.
Local Open Scope K_scope.

Section SGRun.
Variable S : sys.
Variable N : kern S.
Variable K : ops.
Hypothesis Kr : is_ring K.
Add Ring KRing : Kr.
Variable C_dec : forall a b : sC S, {a = b} + {a <> b}.
Variable P0 : spar S K.
Variable num : (kM N -> arr K) -> knum S N K.
Variable kc : (kM N -> arr K) -> sX S -> sE S -> arr K.
Variable pw : nat -> Z * Z.
Variable NS : Z.
Variables nsrc nrec : sC S -> Z.
Variables srcs recs : sC S -> Z -> Z.
Variable bt : kM N -> bool.
Variables oQ oM : bool.
Notation shape := (sp_shape P0).
Notation n := (prodZ shape).
Notation nd := (length shape).
Notation fd := (fd_pad (sp_acc P0)).
Notation kvar := (svar (sX S) (sE S) (kQ N) (kM N)).
Notation cell := (grp S (kQ N) (kM N) * (list Z * pt))%type.
Notation kmem := (kmem S N K).
Notation mem := (mem (sgloc S N) K).
Notation SP := (sshot_par S K P0 nsrc nrec srcs recs).
Notation inwin := (inwin S K P0).
Hypothesis Sok : sys_ok S nd.
Hypothesis Hk : kern_ok S N nd.
Hypothesis Hu : forall md, num_ok S N K (num md) (kc md).
Hypothesis HU : forall md, numrel S N K K eq n (num md) (num md).
Hypothesis Hgeo : sgeom S K P0 pw.
Hypothesis Hsz : sizes_ok fd (map Z.succ shape) NS.
Hypothesis Hns : (0 <= NS < 2 ^ 31)%Z.
Hypothesis HC : NoDup (allC S).
Hypothesis HnS : forall c, (nsrc c < 2 ^ 31)%Z.
Hypothesis HnR : forall c, (nrec c < 2 ^ 31)%Z.
Hypothesis Hsrc : forall c j, (0 <= j < NS * nsrc c)%Z -> (srcs c j < n)%Z.
Hypothesis Hrec : forall c j, (0 <= j < NS * nrec c)%Z -> (recs c j < n)%Z.
Variable md : kM N -> arr K.
Notation vk k := (num (sshot_md S N K P0 bt md k)).
Notation turn := (in_turn S N K).

Lemma halfC_In A c : In c (halfC S A) <-> In c (allC S) /\ cA S c = A.
Proof. unfold halfC. rewrite filter_In, Bool.eqb_true_iff. reflexivity. Qed.
Lemma ginit cnt locs store u : (forall k c, length (locs k c) = length (row (fun _ => 0%Z) (cnt c) k)) ->
  ginv S N K P0 NS cnt false (fun _ _ => 0) (smem_of S N K (sbatch_init S N K P0 nsrc nrec srcs recs pw store u))
    (fun k => (k_init S N K (SP k) pw (fun q si => bsh n k (store q si)) (u k), k_rec0 S K (locs k))).
Proof.
  intros Hl. pose proof (sseen_init S N K P0 NS nsrc nrec srcs recs pw store u cnt locs Hl) as H0. split; [|reflexivity].
  intros k Hk0. destruct (H0 k Hk0) as [A B]. split.
  - intros v i Hi. cbn [fst]. transitivity (bsh n k (match v with VQ q si => store q si | _ => bstack n (fun k0 => k_init S N K (SP k0) pw (fun q si => bsh n k0 (store q si)) (u k0) v) end) i).
    { unfold at_, smem_of. cbn [fst snd]. unfold qv. cbn [andb]. destruct v; reflexivity. }
    destruct v; try (rewrite bsh_bstack by exact Hi; reflexivity). reflexivity.
  - intros t c _. exact (B t c).
Qed.

(** ** Forward *)
Section Fwd.
Variables (fq : kQ N -> bool) (sr : Z) (f : Z -> sC S -> arr K).
Variables visA visB : list cell.
Hypothesis VA : fvisits S N K P0 pw true visA.
Hypothesis VB : fvisits S N K P0 pw false visB.
Hypothesis Hd : forall c, In c (allC S) -> distinct NS (nsrc c) (srcs c).
Notation fk k := (fun t c => row (f t c) (nsrc c) k).
Notation ginv := (ginv S N K P0 NS nrec).
Notation stepl := (sgf_step S N K C_dec P0 num NS nsrc nrec srcs recs bt oQ (fpml_b S K P0 pw) (fpml_e S K P0 pw) md fq sr f).
Lemma f_step t lg M M' fam : turn (stepl t) M M' -> ginv false lg M fam ->
  ginv false lg M' (fun k => f_body S N K (SP k) (vk k) visA visB fq sr (fk k) (fam k) t).
Proof.
  unfold sgf_step. cbv zeta. intros HT H0.
  apply in_turn_app in HT. destruct HT as (M1 & T1 & HT). apply in_turn_app in HT. destruct HT as (M2 & T2 & HT). apply in_turn_app in HT. destruct HT as (M3 & T3 & HT).
  apply in_turn_app in HT. destruct HT as (M4 & T4 & T5). apply (proj1 (in_turn_one _ _ _ _ _ _)) in T2. apply (proj1 (in_turn_one _ _ _ _ _ _)) in T4.
  pose proof (recs_turn S N K C_dec P0 NS nrec Hns false recs t (allC S) HnR Hrec HC lg M M1 fam T1 H0) as H1.
  pose proof (f_phase S N K C_dec P0 num kc pw NS bt md Sok Hk Hu HU Hgeo Hsz nrec true oQ false _ (t / sr)%Z visA lg M1 M2 _ VA T2 H1) as H2. cbn [fst snd] in H2.
  pose proof (adds_turn S N K C_dec P0 NS Sok nrec Hns false nsrc srcs (f t) (fun k => sp_src (SP k)) (fun k c => row (f t c) (nsrc c) k) HnS Hsrc Hd (fun _ _ => eq_refl) (fun _ _ => eq_refl)
    (halfC S true) (fun c h => proj1 (proj1 (halfC_In true c) h)) lg M2 M3 _ T3 H2) as H3. cbn [fst snd] in H3.
  pose proof (f_phase S N K C_dec P0 num kc pw NS bt md Sok Hk Hu HU Hgeo Hsz nrec false oQ false _ (t / sr)%Z visB lg M3 M4 _ VB T4 H3) as H4. cbn [fst snd] in H4.
  pose proof (adds_turn S N K C_dec P0 NS Sok nrec Hns false nsrc srcs (f t) (fun k => sp_src (SP k)) (fun k c => row (f t c) (nsrc c) k) HnS Hsrc Hd (fun _ _ => eq_refl) (fun _ _ => eq_refl)
    (halfC S false) (fun c h => proj1 (proj1 (halfC_In false c) h)) lg M4 M' _ T5 H4) as H5. cbn [fst snd] in H5.
  revert H5. apply ginv_peq. intros k _. unfold f_body. destruct (fam k) as [m r]. split; [reflexivity|]. cbn [fst snd].
  intros u c Hc. unfold kput. destruct (u =? t)%Z; cbn [andb]; [|reflexivity]. destruct (in_dec C_dec c (allC S)); [reflexivity|contradiction].
Qed.
Lemma f_steps ts : forall lg M M' fam, turn (flat_map stepl ts) M M' -> ginv false lg M fam ->
  ginv false lg M' (fun k => fold_left (f_body S N K (SP k) (vk k) visA visB fq sr (fk k)) ts (fam k)).
Proof.
  induction ts as [|t ts IH]; intros lg M M' fam HT H0.
  - cbn in HT. subst. exact H0.
  - cbn [flat_map] in HT. apply in_turn_app in HT. destruct HT as (M1 & T1 & T2). exact (IH lg M1 M' _ T2 (f_step t lg M M1 fam T1 H0)).
Qed.
Lemma f_callss nt cf ss : forall lg M M' fam,
  turn (flat_map (fun s => flat_map stepl (zrange (s * sr) (s * sr + Z.min (nt / sr - s) cf * sr))) ss) M M' -> ginv false lg M fam ->
  ginv false lg M' (fun k => fold_left (fun mr s => k_forward S N K (SP k) (vk k) visA visB fq sr (fk k) (Z.min (nt / sr - s) cf * sr) (s * sr) mr) ss (fam k)).
Proof.
  induction ss as [|s ss IH]; intros lg M M' fam HT H0.
  - cbn in HT. subst. exact H0.
  - cbn [flat_map] in HT. apply in_turn_app in HT. destruct HT as (M1 & T1 & T2). exact (IH lg M1 M' _ T2 (f_steps _ lg M M1 fam T1 H0)).
Qed.
(** Wavefields, recorded rows and snapshots of one shot. *)
Lemma gout cnt sw lg M fam k : StagGpuLaunch.ginv S N K P0 NS cnt sw lg M fam -> (0 <= k < NS)%Z -> let G := sglob_of S N K sw M in
  (forall x p, mn (sbatch_out S N K P0 G k) x p = mn (k_out S N K (SP k) (fst (fam k))) x p) /\
  (forall e p, me (sbatch_out S N K P0 G k) e p = me (k_out S N K (SP k) (fst (fam k))) e p) /\
  (forall t c, In c (allC S) -> row (G_r S N K G t c) (cnt c) k = snd (fam k) t c) /\
  (forall q si i, inwin i -> G_m S N K G (VQ q si) (k * n + i)%Z = fst (fam k) (VQ q si) i) /\
  (forall q i, inwin i -> G_m S N K G (VG q) (k * n + i)%Z = fst (fam k) (VG q) i) /\
  (forall q i, G_g S N K G q i = lg q i).
Proof.
  intros [H1 H2] Hk0 G. destruct (H1 k Hk0) as [A B].
  assert (Hw : forall p, crop S K P0 p = true -> inwin (idx shape p)) by (intros p Hp; exact (cell_idx S K P0 _ _ Hp)).
  split; [|split; [|split; [|split; [|split]]]].
  - intros x p. change ((if crop S K P0 p then M (at_ S N K P0 sw k (VX x) (idx shape p)) else 0) = (if crop S K P0 p then fst (fam k) (VX x) (idx shape p) else 0)).
    destruct (crop S K P0 p) eqn:E; [|reflexivity]. apply (A (VX x) _ (Hw p E)).
  - intros x p. change ((if crop S K P0 p then M (at_ S N K P0 sw k (VM x) (idx shape p)) else 0) = (if crop S K P0 p then fst (fam k) (VM x) (idx shape p) else 0)).
    destruct (crop S K P0 p) eqn:E; [|reflexivity]. apply (A (VM x) _ (Hw p E)).
  - intros t c Hc. exact (B t c Hc).
  - intros q si i Hi. exact (A (VQ q si) i Hi).
  - intros q i Hi. exact (A (VG q) i Hi).
  - exact H2.
Qed.
Lemma rows_len (cnt : sC S -> Z) (locs : sC S -> Z -> Z) k c : length (row (locs c) (cnt c) k) = length (row (fun _ => 0%Z) (cnt c) k).
Proof. unfold row. rewrite !map_length. reflexivity. Qed.

Theorem sgpu_forward_shot nt cb store u out k : nt_ok nt sr cb -> (0 <= k < NS)%Z ->
  sgpu_forward S N K C_dec P0 num NS nsrc nrec srcs recs bt oQ pw md fq sr f nt cb store u out ->
  exists U1 R1 St1,
    k_fwd S N K (SP k) (vk k) pw visA visB fq sr (fk k) nt cb (fun q si => bsh n k (store q si)) (u k) = Some (U1, R1, St1) /\
    (forall x p, mn (fst (fst out) k) x p = mn U1 x p) /\ (forall e p, me (fst (fst out) k) e p = me U1 e p) /\
    (forall t c, In c (allC S) -> row (snd (fst out) t c) (nrec c) k = R1 t c) /\
    (forall q si i, (0 <= i < n)%Z -> snd out q si (k * n + i)%Z = St1 q si i).
Proof.
  intros Hcb Hk0 (M & HT & ->). cbv zeta. cbn [fst snd].
  pose proof (ginit nrec (fun k => sp_rec (SP k)) store u (fun k c => rows_len nrec recs k c)) as H0. unfold k_fwd. cbv zeta.
  destruct (Z.leb_spec nt 0).
  - cbn in HT. subst M. destruct (gout nrec false _ _ _ k H0 Hk0) as (A1 & A2 & A3 & A4 & _). eexists _, _, _. split; [reflexivity|]. auto.
  - pose proof (k_cf_pos nt sr cb Hcb H). destruct (Z.eqb_spec (k_cf nt sr cb) 0) as [?|Hnz]; [lia|].
    pose proof (f_callss nt (k_cf nt sr cb) (range_up (nt / sr) (k_cf nt sr cb)) _ _ _ _ HT H0) as H2.
    destruct (gout nrec false _ _ _ k H2 Hk0) as (A1 & A2 & A3 & A4 & _). eexists _, _, _. split; [reflexivity|]. auto.
Qed.
End Fwd.

(** ** Backward *)
Section Bwd.
Hypothesis Hroom : sroom S K P0 pw.
Variables (fm : kM N -> bool) (sr : Z) (gr : Z -> sC S -> arr K).
Variables visA visB : list cell.
Hypothesis VA : bvisits S N K P0 pw true visA.
Hypothesis VB : bvisits S N K P0 pw false visB.
Hypothesis Hd : forall c, In c (allC S) -> distinct NS (nrec c) (recs c).
Notation grk k := (fun t c => row (gr t c) (nrec c) k).
Notation ginv := (ginv S N K P0 NS nsrc).
Notation pb := (bpml_b S K P0 pw).
Notation pe := (bpml_e S K P0 pw).
Notation stepl := (sgb_step S N K C_dec P0 num NS nsrc nrec srcs recs bt oM pb pe md fm sr gr).
Notation loopl := (sgb_loop S N K C_dec P0 num NS nsrc nrec srcs recs bt oM pb pe md fm sr gr).
Notation calll := (sgb_call S N K C_dec P0 num NS nsrc nrec srcs recs bt oM pb pe md fm sr gr).
Notation callsl := (sgb_calls S N K C_dec P0 num NS nsrc nrec srcs recs bt oM pb pe md fm sr gr).
Lemma sginv_swap sw lg M fam : ginv sw lg M fam -> ginv (negb sw) lg M (fun k => mswap S N K (fam k)).
Proof.
  intros [H1 H2]. split; [|exact H2]. intros k Hk0. destruct (H1 k Hk0) as [A B]. split; [|exact B].
  intros v i Hi. pose proof (fun e => A (VM e) i Hi) as X. pose proof (fun e => A (VN e) i Hi) as Y. pose proof (A v i Hi) as Z0.
  unfold mswap, kswap. cbn [fst]. unfold at_, qv in *. destruct v as [x|e|e|q si|q]; try exact Z0.
  - specialize (X e). specialize (Y e). destruct (eA S e), sw; cbn [negb andb] in *; assumption.
  - specialize (X e). specialize (Y e). destruct (eA S e), sw; cbn [negb andb] in *; assumption.
Qed.
Lemma sginv_swap2 sw lg M fam : ginv (negb sw) lg M fam -> ginv sw lg M (fun k => mswap S N K (fam k)).
Proof. intros H. apply sginv_swap in H. rewrite negb_involutive in H. exact H. Qed.

Lemma b_step sw t lg M M' fam : turn (stepl sw t) M M' -> ginv sw lg M fam ->
  ginv sw lg M' (fun k => b_body S N K (SP k) (vk k) visA visB fm sr (grk k) t (fam k)).
Proof.
  unfold sgb_step. cbv zeta. intros HT H0.
  apply in_turn_app in HT. destruct HT as (M1 & T1 & HT). apply in_turn_app in HT. destruct HT as (M2 & T2 & HT). apply in_turn_app in HT. destruct HT as (M3 & T3 & HT).
  apply in_turn_app in HT. destruct HT as (M4 & T4 & T5). apply (proj1 (in_turn_one _ _ _ _ _ _)) in T2. apply (proj1 (in_turn_one _ _ _ _ _ _)) in T4.
  assert (NH : forall A, NoDup (halfC S A)) by (intros A; apply NoDup_filter, HC).
  pose proof (recs_turn S N K C_dec P0 NS nsrc Hns sw srcs t (halfC S false) HnS Hsrc (NH false) lg M M1 fam T1 H0) as H1.
  pose proof (bA_phase S N K C_dec P0 num kc pw NS bt md Sok Hk Hu HU Hgeo Hsz nsrc Hroom sw _ sr (t / sr)%Z visA lg M1 M2 _ VA T2 H1) as H2. cbn [fst snd] in H2.
  pose proof (recs_turn S N K C_dec P0 NS nsrc Hns sw srcs t (halfC S true) HnS Hsrc (NH true) lg M2 M3 _ T3 H2) as H3. cbn [fst snd] in H3.
  pose proof (bB_phase S N K C_dec P0 num kc pw NS bt md Sok Hk Hu HU Hgeo Hsz nsrc Hroom oM sw _ sr (t / sr)%Z visB lg M3 M4 _ VB T4 H3) as H4. cbn [fst snd] in H4.
  pose proof (adds_turn S N K C_dec P0 NS Sok nsrc Hns sw nrec recs (gr t) (fun k => sp_rec (SP k)) (fun k c => row (gr t c) (nrec c) k) HnR Hrec Hd (fun _ _ => eq_refl) (fun _ _ => eq_refl)
    (allC S) (fun c h => h) lg M4 M' _ T5 H4) as H5. cbn [fst snd] in H5.
  revert H5. apply ginv_peq. intros k _. unfold b_body. destruct (fam k) as [m r]. split; [reflexivity|]. cbn [fst snd].
  intros u c Hc. unfold kput. destruct (u =? t)%Z; cbn [andb]; [|reflexivity].
  destruct (in_dec C_dec c (halfC S true)) as [a|a], (in_dec C_dec c (halfC S false)) as [b|b]; rewrite halfC_In in a, b; destruct (cA S c); cbn [negb]; try reflexivity; exfalso; intuition congruence.
Qed.
Lemma b_tstep sw s0 t lg M M' fam : turn (stepl (xorb sw (Z.odd (s0 - 1 - t))) t) M M' -> ginv sw lg M fam ->
  ginv sw lg M' (fun k => b_t S N K (SP k) (vk k) visA visB fm sr (grk k) s0 (fam k) t).
Proof.
  unfold b_t. destruct (Z.odd (s0 - 1 - t)).
  - rewrite xorb_true_r. intros HT H0. apply sginv_swap2. apply (b_step (negb sw) t lg M M' _ HT (sginv_swap sw lg M fam H0)).
  - rewrite xorb_false_r. intros HT H0. apply (b_step sw t lg M M' fam HT H0).
Qed.
Lemma b_steps sw s0 (m : nat) : forall t lg M M' fam,
  turn (loopl (xorb sw (Z.odd (s0 - 1 - t))) (rev (zrange (t + 1 - Z.of_nat m) (t + 1)))) M M' -> ginv sw lg M fam ->
  ginv sw lg M' (fun k => fold_left (b_t S N K (SP k) (vk k) visA visB fm sr (grk k) s0) (rev (zrange (t + 1 - Z.of_nat m) (t + 1))) (fam k)).
Proof.
  induction m as [|m IH]; intros t lg M M' fam.
  - rewrite zrange_nil by lia. cbn. intros -> H. exact H.
  - rewrite zrange_snoc by lia. rewrite rev_app_distr. cbn [rev app]. replace (t + 1 - 1)%Z with t by lia. cbn [sgb_loop fold_left]. intros HT H0.
    apply in_turn_app in HT. destruct HT as (M1 & T1 & T2). pose proof (b_tstep sw s0 t lg M M1 fam T1 H0) as H1.
    replace (zrange (t + 1 - Z.of_nat (Datatypes.S m)) t) with (zrange (t - 1 + 1 - Z.of_nat m) (t - 1 + 1)) in * by (f_equal; lia).
    apply (IH (t - 1)%Z lg M1 M' _); [|exact H1].
    replace (xorb sw (Z.odd (s0 - 1 - (t - 1)))) with (negb (xorb sw (Z.odd (s0 - 1 - t)))); [exact T2|].
    replace (s0 - 1 - (t - 1))%Z with (Z.succ (s0 - 1 - t)) by lia. rewrite Z.odd_succ, <- Z.negb_odd. destruct sw, (Z.odd (s0 - 1 - t)); reflexivity.
Qed.
Lemma kmodels_NoDup : NoDup (filter (sgseparate S N NS bt fm) (kmodels S N)).
Proof. apply NoDup_filter. exact (ko_M S N nd Hk). Qed.
Definition addblk (lg : kM N -> arr K) (fam : Z -> kmem * krec S K) : kM N -> arr K :=
  fun q i => if in_dec (kM_dec N) q (filter (sgseparate S N NS bt fm) (kmodels S N)) then if (0 <=? i)%Z && (i <? n)%Z then lg q i + sumf (zrange 0 NS) (fun k => fst (fam k) (VG q) i) else lg q i else lg q i.
Lemma b_call sw cf s lg M M' fam : (0 <= Z.min s cf * sr)%Z -> turn (calll sw cf s) M M' -> ginv sw lg M fam ->
  ginv (if ((Z.min s cf * sr) mod 2 =? 0)%Z then sw else negb sw) (addblk lg (fun k => k_backward S N K (SP k) (vk k) visA visB fm sr (grk k) (Z.min s cf * sr) (s * sr) (fam k))) M'
    (fun k => b_chunk S N K (SP k) (vk k) visA visB fm sr (grk k) cf (fam k) s).
Proof.
  intros Hm HT H0. unfold sgb_call in HT. apply in_turn_app in HT. destruct HT as (M1 & T1 & T2).
  pose proof (b_steps sw (s * sr) (Z.to_nat (Z.min s cf * sr)) (s * sr - 1)%Z lg M M1 fam) as H1. rewrite Z2Nat.id in H1 by exact Hm.
  replace (s * sr - 1 + 1 - Z.min s cf * sr)%Z with (s * sr - Z.min s cf * sr)%Z in H1 by lia. replace (s * sr - 1 + 1)%Z with (s * sr)%Z in H1 by lia.
  rewrite Z.sub_diag in H1. cbn [Z.odd] in H1. rewrite xorb_false_r in H1. specialize (H1 T1 H0).
  pose proof (combs_turn S N K C_dec P0 NS Hsz (pos_shape S K P0 pw Hgeo) nsrc Kr sw _ _ kmodels_NoDup lg M1 M' T2 H1) as H2.
  unfold b_chunk. cbv zeta. destruct (_ =? 0)%Z; [exact H2|]. apply sginv_swap. exact H2.
Qed.
Lemma b_callss cf : (0 < sr)%Z -> (0 < cf)%Z -> forall ss sw lg M M' fam, (forall s, In s ss -> (0 <= s)%Z) -> turn (fst (callsl cf sw ss)) M M' -> ginv sw lg M fam ->
  exists lg', ginv (snd (callsl cf sw ss)) lg' M' (fun k => fold_left (b_chunk S N K (SP k) (vk k) visA visB fm sr (grk k) cf) ss (fam k)).
Proof.
  intros Hsr Hcf. induction ss as [|s ss IH]; intros sw lg M M' fam Hss HT H0.
  - cbn in HT. subst. exists lg. exact H0.
  - cbn [sgb_calls fst snd] in HT |- *. apply in_turn_app in HT. destruct HT as (M1 & T1 & T2).
    assert (Hm : (0 <= Z.min s cf * sr)%Z) by (apply Z.mul_nonneg_nonneg; [specialize (Hss s (or_introl eq_refl)); lia|lia]).
    exact (IH _ _ M1 M' _ (fun x h => Hss x (or_intror h)) T2 (b_call sw cf s lg M M1 fam Hm T1 H0)).
Qed.

Notation run1 k nt cb store g := (k_bwd S N K (SP k) (vk k) pw visA visB fm sr (grk k) nt cb (fun q si => bsh n k (store q si)) (g k)).
Notation gpu nt cb store g out := (sgpu_backward S N K C_dec P0 num NS nsrc nrec srcs recs bt oM pw md fm sr gr nt cb store g out).
Notation fam0 store g := (fun k => (k_init S N K (SP k) pw (fun q si => bsh n k (store q si)) (g k), k_rec0 S K (sp_src (SP k)))).
Lemma range_down_nonneg a c s : (0 <= a)%Z -> (0 < c)%Z -> In s (range_down a c) -> (0 <= s)%Z.
Proof.
  intros Ha Hc H. unfold range_down in H. apply in_map_iff in H. destruct H as (j & <- & Hj). apply In_zrange in Hj.
  assert (j * c <= a)%Z; [|lia]. assert (X : (0 <= j < (a + c - 1) / c)%Z) by lia.
  assert ((a + c - 1) / c * c <= a + c - 1)%Z by (rewrite Z.mul_comm; apply Z.mul_div_le; lia). nia.
Qed.

Lemma sgpu_backward_run nt cb store g out : nt_ok nt sr cb -> gpu nt cb store g out ->
  exists lg sw M fam, ginv sw lg M fam /\
    (forall k, exists r, run1 k nt cb store g = Some r /\ fst (fst r) = k_out S N K (SP k) (fst (fam k)) /\ snd (fst r) = snd (fam k) /\ snd r = (fun q => fst (fam k) (VG q))) /\
    out = (let G := sglob_of S N K sw M in (sbatch_out S N K P0 G, G_r S N K G, fun q => if sgseparate S N NS bt fm q then G_g S N K G q else G_m S N K G (VG q))) /\
    (cb = None -> forall q i, sgseparate S N NS bt fm q = true -> In q (kmodels S N) -> inwin i -> lg q i = sumf (zrange 0 NS) (fun k => fst (fam k) (VG q) i)).
Proof.
  intros Hcb (M & HT & ->). pose proof Hcb as (Hsr & Hn0 & Hcb').
  pose proof (ginit nsrc (fun k => sp_src (SP k)) store g (fun k c => rows_len nsrc srcs k c)) as H0. cbv zeta in HT |- *. unfold k_bwd. cbv zeta.
  destruct (Z.leb_spec nt 0) as [Hle|Hgt].
  - cbn in HT. subst M. do 4 eexists. split; [exact H0|]. split; [intros k; eexists; split; [reflexivity|auto]|]. split; [reflexivity|].
    intros _ q i _ _ _. symmetry. apply (sumf_zero K Kr). intros k _. reflexivity.
  - pose proof (k_cf_pos nt sr cb Hcb Hgt) as Hcf. destruct (Z.eqb_spec (k_cf nt sr cb) 0) as [?|Hnz]; [lia|].
    assert (Hq : (0 <= nt / sr)%Z) by (apply Z.div_pos; lia).
    destruct cb as [c|].
    + destruct (b_callss (k_cf nt sr (Some c)) Hsr Hcf _ false _ _ _ _ (fun s => range_down_nonneg _ _ s Hq Hcf) HT H0) as (lg & H1).
      do 4 eexists. split; [exact H1|]. split; [intros k; eexists; split; [reflexivity|auto]|]. split; [reflexivity|]. discriminate.
    + cbn [k_cf] in *. rewrite ShotsRun.range_down_one in * by exact Hcf. cbn [sgb_calls fst snd] in HT |- *. rewrite app_nil_r in HT.
      assert (Hm : (0 <= Z.min (nt / sr) (nt / sr) * sr)%Z) by (apply Z.mul_nonneg_nonneg; lia).
      pose proof (b_call false (nt / sr)%Z (nt / sr)%Z _ _ _ _ Hm HT H0) as H1.
      do 4 eexists. split; [exact H1|]. split; [intros k; eexists; split; [reflexivity|auto]|]. split; [reflexivity|].
      intros _ q i Hs Hi [Hi1 Hi2]. unfold addblk. destruct (in_dec (kM_dec N) q _) as [_|X]; [|exfalso; apply X; apply filter_In; auto].
      destruct (Z.leb_spec 0 i); [|lia]. destruct (Z.ltb_spec i n); [|lia]. cbn [andb].
      match goal with |- 0 + ?x = _ => replace (0 + x) with x by ring end. apply sumf_ext. intros k _. cbn [fold_left]. unfold b_chunk. cbv zeta. destruct (_ =? 0)%Z; reflexivity.
Qed.
Theorem sgpu_backward_shot nt cb store g out k : nt_ok nt sr cb -> (0 <= k < NS)%Z -> gpu nt cb store g out ->
  exists U1 f1 gm1, run1 k nt cb store g = Some (U1, f1, gm1) /\
    (forall x p, mn (fst (fst out) k) x p = mn U1 x p) /\ (forall e p, me (fst (fst out) k) e p = me U1 e p) /\
    (forall t c, In c (allC S) -> row (snd (fst out) t c) (nsrc c) k = f1 t c).
Proof.
  intros Hcb Hk0 HG. destruct (sgpu_backward_run nt cb store g out Hcb HG) as (lg & sw & M & fam & HI & HR & -> & _).
  destruct (HR k) as ([[U1 f1] gm1] & E & E1 & E2 & E3). cbn [fst snd] in E1, E2, E3. destruct (gout nsrc sw lg M fam k HI Hk0) as (A1 & A2 & A3 & _).
  exists U1, f1, gm1. split; [exact E|]. subst U1 f1. cbn [fst snd]. auto.
Qed.
(** With callbacks the blocks of the shots are added once per call. *)
Fixpoint sagain (cf : Z) (ss : list Z) (fam : Z -> kmem * krec S K) (q : kM N) (i : Z) (acc : K) : K :=
  match ss with
  | [] => acc
  | s :: ss' => let fam' := fun k => b_chunk S N K (SP k) (vk k) visA visB fm sr (grk k) cf (fam k) s in
    sagain cf ss' fam' q i (acc + sumf (zrange 0 NS) (fun k => fst (fam' k) (VG q) i))
  end.
Lemma b_again cf q i : (0 < sr)%Z -> (0 < cf)%Z -> sgseparate S N NS bt fm q = true -> In q (kmodels S N) -> inwin i ->
  forall ss sw lg M M' fam, (forall s, In s ss -> (0 <= s)%Z) -> turn (fst (callsl cf sw ss)) M M' -> ginv sw lg M fam -> M' (LG q, i) = sagain cf ss fam q i (lg q i).
Proof.
  intros Hsr Hcf Hs Hq [Hi1 Hi2]. induction ss as [|s ss IH]; intros sw lg M M' fam Hss HT H0.
  - cbn in HT. subst. apply H0.
  - cbn [sgb_calls fst snd] in HT |- *. apply in_turn_app in HT. destruct HT as (M1 & T1 & T2).
    assert (Hm : (0 <= Z.min s cf * sr)%Z) by (apply Z.mul_nonneg_nonneg; [specialize (Hss s (or_introl eq_refl)); lia|lia]).
    rewrite (IH _ _ M1 M' _ (fun x h => Hss x (or_intror h)) T2 (b_call sw cf s lg M M1 fam Hm T1 H0)). cbn [sagain]. f_equal.
    unfold addblk. destruct (in_dec (kM_dec N) q _) as [_|X]; [|exfalso; apply X; apply filter_In; auto].
    destruct (Z.leb_spec 0 i); [|lia]. destruct (Z.ltb_spec i n); [|lia]. cbn [andb]. f_equal. apply sumf_ext. intros k _. unfold b_chunk. cbv zeta. destruct (_ =? 0)%Z; reflexivity.
Qed.
Theorem sgpu_backward_again nt cb store g out q i : nt_ok nt sr cb -> (0 < nt)%Z -> gpu nt cb store g out -> sgseparate S N NS bt fm q = true -> In q (kmodels S N) -> (0 <= i < n)%Z ->
  snd out q i = sagain (k_cf nt sr cb) (range_down (nt / sr) (k_cf nt sr cb)) (fam0 store g) q i 0.
Proof.
  intros Hcb Hnt (M & HT & ->) Hs Hq Hi. cbv zeta in *. cbn [snd]. rewrite Hs. destruct (Z.leb_spec nt 0); [lia|].
  pose proof Hcb as (Hsr & Hn0 & Hcb'). assert (Hq0 : (0 <= nt / sr)%Z) by (apply Z.div_pos; lia). pose proof (k_cf_pos nt sr cb Hcb Hnt) as Hcf.
  exact (b_again _ q i Hsr Hcf Hs Hq Hi _ false _ _ _ _ (fun s => range_down_nonneg _ _ s Hq0 Hcf) HT
    (ginit nsrc (fun k => sp_src (SP k)) store g (fun k c => rows_len nsrc srcs k c))).
Qed.
Theorem sgpu_backward_models nt cb store g out q : nt_ok nt sr cb -> gpu nt cb store g out -> In q (kmodels S N) -> fm q = true -> (0 < NS)%Z ->
  bt q = true \/ NS = 1%Z \/ cb = None ->
  if bt q then forall k i, (0 <= k < NS)%Z -> (0 <= i < n)%Z -> snd out q (k * n + i)%Z = gm_of (run1 k nt cb store g) q i
  else forall i, (0 <= i < n)%Z -> snd out q i = sumf (zrange 0 NS) (fun k => gm_of (run1 k nt cb store g) q i).
Proof.
  intros Hcb HG Hq Hf HN Hor. destruct (sgpu_backward_run nt cb store g out Hcb HG) as (lg & sw & M & fam & HI & HR & -> & HL). cbv zeta. cbn [snd].
  assert (HR' : forall k, gm_of (run1 k nt cb store g) q = fst (fam k) (VG q)).
  { intros k. destruct (HR k) as ([[U1 f1] gm1] & E & E1 & E2 & E3). rewrite E. cbn [gm_of]. cbn [snd] in E3. rewrite E3. reflexivity. }
  destruct (sgseparate S N NS bt fm q) eqn:Es; pose proof Es as Es'; unfold sgseparate in Es'; rewrite Hf in Es'; cbn [andb] in Es'.
  - apply andb_true_iff in Es'. destruct Es' as [Eb EN]. apply negb_true_iff in Eb. apply Z.ltb_lt in EN. rewrite Eb in *.
    assert (cb = None) as Ec by (destruct Hor as [|[|]]; [discriminate|lia|assumption]).
    intros i Hi. destruct (gout nsrc sw lg M fam 0%Z HI ltac:(lia)) as (_ & _ & _ & _ & _ & A6). rewrite A6, (HL Ec q i Es Hq Hi). apply sumf_ext. intros k _. rewrite HR'. reflexivity.
  - destruct (bt q) eqn:Eb.
    + intros k i Hk0 Hi. destruct (gout nsrc sw lg M fam k HI Hk0) as (_ & _ & _ & _ & A5 & _). rewrite A5, HR' by exact Hi. reflexivity.
    + cbn [negb andb] in Es'. apply Z.ltb_ge in Es'. assert (NS = 1%Z) as E1 by lia. intros i Hi.
      destruct (gout nsrc sw lg M fam 0%Z HI ltac:(lia)) as (_ & _ & _ & _ & A5 & _). rewrite E1. change (zrange 0 1) with [0%Z]. cbn [sumf map fold_right].
      rewrite HR'. rewrite <- (A5 q i Hi), Z.mul_0_l, Z.add_0_l. ring.
Qed.
End Bwd.
End SGRun.
