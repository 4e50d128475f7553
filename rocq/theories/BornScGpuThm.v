(** * The reduced backward pass on the device: statements for the user function. *)
From Coq Require Import List ZArith QArith Lia Bool Ring Permutation.
From Verif Require Import Ops Sums Grid Stencil ScalarModel ScalarRefine ScalarForward ScalarBackward ScalarFunc Param ShotsModel Shots ShotsRun ShotsThm Threads GpuModel GpuLaunch GpuFwd GpuLocs GpuBwd GpuBackward GpuThm BornModel BornBack BornGpuModel BornGpuThm BornScGpuModel BornScGpu.
Import ListNotations.
Local Open Scope K_scope.

(** ** One shot on the CPU: the pass of the scalar propagator with scaled snapshots *)
Section Cpu.
Variable K : ops.
Hypothesis Kr : is_ring K.
Add Ring KRing1 : Kr.
Variable P : par K.
Variables (v : arr K) (vis : list (list Z * pt)) (w w' : Z -> arr K) (srg : bool) (sr : Z) (gr : Z -> list K).
Notation shape := (p_shape P).
Notation v2 := (fun i => v i * v i * p_dt2 P).
Hypothesis Hw : forall reg p s, In (reg, p) vis -> w' s (idx shape p) = two * v (idx shape p) * p_dt2 P * w s (idx shape p).
Lemma scs_dims reg p ds : forall x m, fold_left (sc_bwd_dim K P v reg p) ds (x, m) = fold_left (c_bwd_dim K P v2 reg p) ds (x, m).
Proof.
  induction ds as [|d ds IH]; intros x m; cbn [fold_left]; [reflexivity|]. assert (E : sc_bwd_dim K P v reg p (x, m) d = c_bwd_dim K P v2 reg p (x, m) d); [|rewrite E; destruct (c_bwd_dim _ _ _ _ _ _ _) as [x' m']; apply IH]. clear IH. unfold sc_bwd_dim, c_bwd_dim. destruct (_ =? 1)%Z; [reflexivity|].
  replace (idx shape p + 0 * stride shape d)%Z with (idx shape p) by lia. do 4 f_equal. ring.
Qed.
Lemma scs_cell sto si reg p m : In (reg, p) vis -> sc_bwd_cell K P v w sto sr si m (reg, p) = c_bwd_cell K P v2 w' sto sr si m (reg, p).
Proof.
  intros Hi. unfold sc_bwd_cell, c_bwd_cell. rewrite scs_dims. destruct (fold_left _ _ _) as [x m1]. destruct sto; [|reflexivity]. f_equal. f_equal. rewrite (Hw reg p si Hi). ring.
Qed.
Lemma scs_body t m : sc_bwd_body K P (p_rec P) v vis w srg sr gr t m = c_bwd_body K P v2 vis w' srg sr gr t m.
Proof.
  unfold sc_bwd_body, c_bwd_body.
  assert (E : forall l m, (forall x, In x l -> In x vis) -> fold_left (sc_bwd_cell K P v w (srg && (t mod sr =? 0)%Z) sr (t / sr)%Z) l m = fold_left (c_bwd_cell K P v2 w' (srg && (t mod sr =? 0)%Z) sr (t / sr)%Z) l m).
  { induction l as [|[reg p] l IH]; intros m0 H; [reflexivity|]. cbn [fold_left]. rewrite scs_cell by (apply H; left; reflexivity). apply IH. intros x Hx. apply H. right. exact Hx. }
  rewrite E by auto. reflexivity.
Qed.
Lemma scs_chunk cf m s : sc_bwd_chunk K P (p_rec P) v vis w srg sr gr cf m s = bwd_chunk K P v2 vis w' srg sr gr cf m s.
Proof.
  unfold sc_bwd_chunk, bwd_chunk, sc_backward, c_backward.
  assert (E : forall s0 l m, fold_left (sc_bwd_t K P (p_rec P) v vis w srg sr gr s0) l m = fold_left (c_bwd_t K P v2 vis w' srg sr gr s0) l m).
  { induction l as [|t l IH]; intros m0; [reflexivity|]. cbn [fold_left]. rewrite IH. f_equal. unfold sc_bwd_t, c_bwd_t. destruct (Z.odd _); rewrite scs_body; reflexivity. }
  rewrite E. reflexivity.
Qed.
Lemma sc_scalar pw nt cb g : born_backward_sc K P (p_rec P) pw v vis w srg sr gr nt cb g = scalar_backward K P pw v vis w' srg sr gr nt cb g.
Proof.
  unfold born_backward_sc, scalar_backward, sc_bwd_driver, bwd_driver. destruct (nt <=? 0)%Z; [reflexivity|]. destruct (_ =? 0)%Z; [reflexivity|].
  assert (E : forall cf l m, fold_left (sc_bwd_chunk K P (p_rec P) v vis w srg sr gr cf) l m = fold_left (bwd_chunk K P v2 vis w' srg sr gr cf) l m).
  { intros cf. induction l as [|s l IH]; intros m; [reflexivity|]. cbn [fold_left]. rewrite scs_chunk. apply IH. }
  rewrite E. reflexivity.
Qed.
End Cpu.

Section Gpu.
Variable K : ops.
Hypothesis Kr : is_ring K.
Add Ring KRing2 : Kr.
Variable P0 : par K.
Variable pw : nat -> Z * Z.
Variables NS nsrc nrecsc : Z.
Variables srcs recssc : Z -> Z.
Variables vbat sbat : bool.
Notation shape := (p_shape P0).
Notation fd := (fd_pad (p_acc P0)).
Notation nd := (length shape).
Notation n := (prodZ shape).
Notation SP := (shot_par K P0 nsrc nrecsc srcs recssc).
Notation inint p := (interior K P0 p = true).
Hypothesis Hg : geom_ok K P0 pw.
Hypothesis Hnsrc : (0 <= nsrc < 2 ^ 31)%Z.
Hypothesis Hnrec : (0 <= nrecsc < 2 ^ 31)%Z.
Hypothesis Hsz : sizes_ok fd shape NS.
Hypothesis Hsrc : forall j, (0 <= j < NS * nsrc)%Z -> loc_ok K P0 (srcs j).
Hypothesis Hrec : forall j, (0 <= j < NS * nrecsc)%Z -> loc_ok K P0 (recssc j).
Variables (v : arr K) (sr nt : Z).
Hypothesis Hsr : (0 < sr)%Z.
Variables (w : Z -> arr K) (srg : bool) (gr : Z -> arr K) (cb : option Z) (g : Z -> st K).
Hypothesis Huniq : distinct NS nrecsc recssc.
Hypothesis Hcb : cb_ok nt sr cb.
Notation pml0 := (pml_begin K P0 3 pw).
Notation pml1 := (pml_end K P0 3 pw).
Notation gvis := (gvis K P0 NS pml0 pml1).
Notation v2 := (fun i => v i * v i * p_dt2 P0).
Notation vk k := (shot_v K P0 vbat v k).
Notation v2k k := (shot_v K P0 vbat v2 k).
Notation grk k := (fun t => row (gr t) nrecsc k).
Notation wst := (wst K P0 vbat v w).
Notation stk k := (fun s => sh K P0 k (wst s)).
Notation wk k := (fun s => sh K P0 k (w s)).
Notation N := (nt / sr)%Z.
Notation cf := (match cb with Some c => c | None => (nt / sr)%Z end).
Notation steps := (if (nt <=? 0)%Z then [] else range_down N cf).
Notation gn := (gname NS sbat srg).
Notation sinv := (sinv K P0 NS nsrc vbat v gn w).
Notation xphi := (xphi K P0 vbat v).
Notation xdrv := (xbwd_driver K P0 NS nsrc nrecsc srcs recssc vbat sbat pml0 pml1 v srg sr gr).
Notation M0 := (bmem_of K (bneg K (batch_binit K P0 nsrc nrecsc srcs recssc pw g)) w).
Notation fam0 := (fun k => neg_wfp K (bwd_init K (SP k) pw (g k))).
Notation chunk k c := (bwd_chunk K (SP k) (v2k k) (gvis k) (stk k) srg sr (grk k) c).
Notation run out := (gpu_born_backward_sc K P0 NS nsrc nrecsc srcs recssc vbat sbat pw v w srg sr gr nt cb g out).
(** A shot alone on the CPU. *)
Notation single k vis c := (born_backward_sc K (SP k) (row recssc nrecsc k) pw (vk k) vis (wk k) srg sr (grk k) nt c (g k)).
Notation scalar k vis c := (scalar_backward K (SP k) pw (vk k) vis (stk k) srg sr (grk k) nt c (g k)).

Lemma Hsrc' : forall j, (0 <= j < NS * nsrc)%Z -> (srcs j < n)%Z.
Proof. intros j Hj. apply (loc_lt_n K P0 pw Hg). apply Hsrc. exact Hj. Qed.
Lemma Hrec' : forall j, (0 <= j < NS * nrecsc)%Z -> (recssc j < n)%Z.
Proof. intros j Hj. apply (loc_lt_n K P0 pw Hg). apply Hrec. exact Hj. Qed.
Lemma gn_or : gn = NGrad \/ gn = NGradShot.
Proof. unfold gname. destruct (gseparate _ _ _); auto. Qed.
Lemma vis_int vis : bvis K P0 pw vis -> forall reg p, In (reg, p) vis -> inint p.
Proof.
  intros Hv reg p Hi. destruct (bvis_ok K P0 pw Hg vis Hv) as (_ & V & _). apply V. exists reg. exact Hi.
Qed.
Lemma single_scalar k vis c : bvis K P0 pw vis -> single k vis c = scalar k vis c.
Proof.
  intros Hv. apply (sc_scalar K Kr (SP k) (vk k) vis (wk k) (stk k) srg sr (grk k)).
  intros reg p s Hi. apply (vis_int vis Hv) in Hi. unfold sh, BornScGpu.wst. cbn [p_shape p_dt2 shot_par]. rewrite (xc_cell K P0 vbat v k p Hi). unfold xv, shot_v, sh. unfold sh. destruct vbat; reflexivity.
Qed.
Lemma scall_of c sw s M M' fam : sinv sw M fam -> xbwd_loop K P0 NS nsrc nrecsc srcs recssc vbat pml0 pml1 v gn srg sr gr sw (rev (zrange (s * sr - Z.min s c * sr) (s * sr))) M M' ->
  sinv sw M' (fun k => c_backward K (SP k) (v2k k) (gvis k) (stk k) srg sr (grk k) (Z.min s c * sr) (s * sr) (fam k)) /\ (gn = NGradShot -> forall j, M' (NGrad, j) = M (NGrad, j)).
Proof. apply (scall_inv K Kr P0 NS nsrc nrecsc srcs recssc vbat Hnsrc Hnrec Hsz Hsrc' Hrec' Huniq v gn gn_or w pml0 pml1 (pml_le K P0 pw Hg) srg sr gr). Qed.
Lemma xdriver_inv c ss : forall sw M sw' M' fam, sinv sw M fam -> xdrv c ss sw M sw' M' -> sinv sw' M' (fun k => fold_left (chunk k c) ss (fam k)).
Proof.
  induction ss as [|s ss IH]; intros sw M sw' M' fam Hi Hd; inversion Hd as [|? ? ? ? M1 M2 ? ? Hl Hc Hd']; subst; [exact Hi|]. cbn [fold_left].
  refine (IH _ M2 sw' M' (fun k => chunk k c (fam k) s) _ Hd').
  destruct (scall_of c sw s M M1 fam Hi Hl) as [C _].
  assert (C2 : sinv sw M2 (fun k => c_backward K (SP k) (v2k k) (gvis k) (stk k) srg sr (grk k) (Z.min s c * sr) (s * sr) (fam k))).
  { unfold BornScGpu.sinv, gname in *. destruct (gseparate NS sbat srg); [|subst M2; exact C].
    destruct (combine_launch K P0 NS nsrc nrecsc srcs recssc Hsz Hsrc' Hrec' M1 M2 Hc) as [_ Fr].
    assert (Q : forall a i, a <> NGrad -> xphi M2 (a, i) = xphi M1 (a, i)) by (intros a i Na; unfold BornScGpu.xphi; f_equal; apply Fr; intros p _; congruence).
    destruct C as [C St]. split; [|intros q j; rewrite Q by discriminate; apply St]. intros k Hk. eapply (beq_trans K P0); [|apply (C k Hk)].
    split; cbn [g_wfc g_wfp g_psi g_psin g_zeta g_zetan g_f g_v gview]; intros; first [apply Forall2_eq; apply row_ext; intros i Hii; apply Q; discriminate | intros i Hii; apply Q; destruct sw; discriminate]. }
  unfold bwd_chunk. destruct (_ =? 0)%Z; [exact C2|]. apply sinv_swap. exact C2.
Qed.
Lemma sinv_init : sinv false M0 fam0.
Proof.
  destruct (ginv_init K P0 NS nsrc nrecsc srcs recssc pw w g gn gn_or) as [A B]. split.
  - intros k Hk. eapply (beq_trans K P0); [|apply (A k Hk)]. destruct gn_or as [E|E]; rewrite E; split; cbn; intros; try (apply Forall2_eq; reflexivity); intros i Hi; reflexivity.
  - intros s j. reflexivity.
Qed.
Lemma scalar_run k : scalar k (gvis k) cb = let m := neg_wfp K (fold_left (chunk k cf) steps (fam0 k)) in
  Some (mkst K (crop K (SP k) (g_wfc K m)) (crop K (SP k) (g_wfp K m)) (fun d => crop K (SP k) (g_psi K m d)) (fun d => crop K (SP k) (g_zeta K m d)), g_f K m, g_v K m).
Proof.
  rewrite (shot_v2 K P0 nsrc nrecsc srcs recssc vbat). unfold scalar_backward, bwd_driver. destruct (Z.leb_spec nt 0); [reflexivity|]. destruct (Z.eqb_spec cf 0) as [E0|E0]; [|reflexivity].
  exfalso. destruct cb as [c|]; cbn in Hcb; [lia|]. pose proof (Z.div_str_pos nt sr). lia.
Qed.
Lemma xrun out : run out -> exists sw M, sinv sw M (fun k => fold_left (chunk k cf) steps (fam0 k)) /\ xdrv cf steps false M0 sw M /\
  out = let G := bneg K (bglob_of K gn sw M) in
        (fun k => mkst K (crop K P0 (sh K P0 k (B_wfc K G))) (crop K P0 (sh K P0 k (B_wfp K G)))
                    (fun d => crop K P0 (sh K P0 k (B_psi K G d))) (fun d => crop K P0 (sh K P0 k (B_zeta K G d))), B_f K G, B_gv K G).
Proof.
  intros (sw & M & Hd & E). exists sw, M. split; [|split; [exact Hd|exact E]]. exact (xdriver_inv cf steps false M0 sw M fam0 sinv_init Hd).
Qed.
Lemma gvis_bv k : (0 <= k < NS)%Z -> bvis K P0 pw (gvis k).
Proof. apply gvis_b; assumption. Qed.
Lemma scalar_same k vis cb' : (0 <= k < NS)%Z -> bvis K P0 pw vis -> cb_ok nt sr cb' -> exists U f gv U' f' gv',
  scalar k (gvis k) cb = Some (U, f, gv) /\ scalar k vis cb' = Some (U', f', gv') /\ ueq K P0 U U' /\ (forall t, f t = f' t) /\ (forall i, gv i = gv' i).
Proof.
  intros Hk Hv Hc'. destruct (SP_locs K P0 NS nsrc nrecsc srcs recssc Hnsrc Hnrec Hsrc Hrec k Hk) as [L1 L2].
  destruct (scalar_backward_chunks K Kr (SP k) pw Hg L1 L2 (vk k) (gvis k) vis (stk k) srg sr (grk k) nt cb cb' (g k) (gvis_bv k Hk) Hv Hsr Hcb Hc') as (a & b & c & a' & b' & c' & F & F' & B1 & B2 & B3).
  exists a, b, c, a', b', c'. auto.
Qed.

Theorem gpu_born_backward_sc_cpu cb' vis out k : cb_ok nt sr cb' -> (0 <= k < NS)%Z -> bvis K P0 pw vis -> run out ->
  exists U1 f1 gv1, single k vis cb' = Some (U1, f1, gv1) /\ let '(U, f, _) := out in ueq K P0 (U k) U1 /\ (forall t, row (f t) nsrc k = f1 t).
Proof.
  intros Hc' Hk Hv Ho. destruct (xrun out Ho) as (sw & M & [C _] & _ & ->). rewrite single_scalar by exact Hv.
  destruct (scalar_same k vis cb' Hk Hv Hc') as (U & f & gv & U' & f' & gv' & E & E' & B1 & B2 & _). exists U', f', gv'. split; [exact E'|]. cbv zeta iota beta.
  rewrite scalar_run in E. injection E as EU Ef Eg. specialize (C k Hk). cbv beta in C. set (m := fold_left _ steps _) in *. destruct C as [c1 c2 c3 c4 c5 c6 c7 c8].
  assert (A1 : ueq K P0 (mkst K (crop K P0 (sh K P0 k (fun i => M (qwfc sw, i)))) (crop K P0 (sh K P0 k (fun i => - M (qwfp sw, i))))
                    (fun d => crop K P0 (sh K P0 k (fun i => M (qpsi sw d, i)))) (fun d => crop K P0 (sh K P0 k (fun i => M (qzeta sw d, i))))) U).
  { rewrite <- EU. intros q Hq. pose proof (win_idx K P0 (topad K P0 q)) as W. apply In_upts in Hq. specialize (W Hq).
    cbn [s_wfc s_wfp s_psi s_zeta g_wfc g_wfp g_psi g_zeta neg_wfp]. unfold sh, crop. split; [|split].
    - etransitivity; [|apply (c1 _ W)]. destruct sw; reflexivity.
    - f_equal. etransitivity; [|apply (c2 _ W)]. destruct sw; reflexivity.
    - intros d Hd'. split; [etransitivity; [|apply (c3 d Hd' _ W)]|etransitivity; [|apply (c5 d Hd' _ W)]]; destruct sw; reflexivity. }
  split.
  - intros q Hq. destruct (A1 q Hq) as (a1 & a2 & a3). destruct (B1 q Hq) as (b1 & b2 & b3). split; [exact (eq_trans a1 b1)|]. split; [exact (eq_trans a2 b2)|]. intros d Hd'. destruct (a3 d Hd') as [x1 x2], (b3 d Hd') as [y1 y2]. split; [exact (eq_trans x1 y1)|exact (eq_trans x2 y2)].
  - intros t. rewrite <- B2, <- Ef. specialize (c7 t I). apply Forall2_eq in c7. cbn in c7 |- *. exact c7.
Qed.

(** A call with a buffer for every shot. *)
Lemma xcall_grad c sw s ss M sw' M' fam : gseparate NS sbat srg = true -> sinv sw M fam -> xdrv c (s :: ss) sw M sw' M' ->
  exists M2 sw2, xdrv c ss sw2 M2 sw' M' /\ xdrv c [s] sw M sw2 M2 /\
    (forall p, inint p -> M2 (NGrad, idx shape p) = M (NGrad, idx shape p) + sumf (zrange 0 NS) (fun k => M2 (NGradShot, (k * n + idx shape p)%Z))) /\
    (forall i, (forall p, inint p -> idx shape p <> i) -> M2 (NGrad, i) = M (NGrad, i)).
Proof.
  intros Es Hi Hd. inversion Hd as [|? ? ? ? M1 M2 ? ? Hl Hc Hd']; subst. exists M2. eexists. split; [exact Hd'|]. split; [econstructor; [exact Hl|exact Hc|constructor]|].
  destruct (scall_of c sw s M M1 fam Hi Hl) as [_ KG]. rewrite Es in Hc. assert (KG' : forall j, M1 (NGrad, j) = M (NGrad, j)) by (apply KG; unfold gname; rewrite Es; reflexivity).
  destruct (combine_launch K P0 NS nsrc nrecsc srcs recssc Hsz Hsrc' Hrec' M1 M2 Hc) as [C Fr].
  assert (Eg : forall (h : Z -> K) l x, fold_left (fun x k => x + h k) l x = x + sumf l h).
  { intros h. induction l as [|k l IHl]; intros x; cbn; [ring|]. rewrite IHl. ring. }
  split.
  - intros p Hp. rewrite C by exact Hp. rewrite Eg, KG'. f_equal. apply sumf_ext. intros k _. symmetry. apply Fr. intros q _. congruence.
  - intros i Ni. rewrite <- KG'. apply Fr. intros p Hp E. injection E as E. apply (Ni p Hp). symmetry. exact E.
Qed.
Lemma xbd_nil_inv c sw M sw' M' : xdrv c [] sw M sw' M' -> M' = M.
Proof. intros H. inversion H. reflexivity. Qed.

Theorem gpu_born_backward_sc_grad cb' vis out : (1 <= NS)%Z -> (sbat = true \/ NS = 1%Z \/ cb = None) -> srg = true -> cb_ok nt sr cb' -> bvis K P0 pw vis -> run out ->
  let '(_, _, gs) := out in
  if sbat then forall k i, (0 <= k < NS)%Z -> (0 <= i < n)%Z -> gs (k * n + i)%Z = gv_of K (single k vis cb') i
  else forall i, (0 <= i < n)%Z -> gs i = sumf (zrange 0 NS) (fun k => gv_of K (single k vis cb') i).
Proof.
  intros Hns1 Hcase Hv Hc' Hvis Ho. destruct (xrun out Ho) as (sw & M & [C _] & Hd & ->). cbv zeta beta iota. cbn [B_gv bneg bglob_of].
  assert (G : forall k i, (0 <= k < NS)%Z -> (0 <= i < n)%Z -> M (gn, k * n + i)%Z = gv_of K (single k vis cb') i).
  { intros k i Hk Hi. rewrite single_scalar by exact Hvis. destruct (scalar_same k vis cb' Hk Hvis Hc') as (U & f & gv & U' & f' & gv' & E & E' & _ & _ & B3). rewrite E'. cbn [gv_of]. rewrite <- B3.
    rewrite scalar_run in E. injection E as _ _ Eg. rewrite <- Eg. specialize (C k Hk). destruct C as [c1 c2 c3 c4 c5 c6 c7 c8]. etransitivity; [|apply (c8 i Hi)]. cbn [g_v gview]. unfold BornScGpu.xphi. destruct gn_or as [->| ->]; reflexivity. }
  assert (A : sbat = true -> forall k i, (0 <= k < NS)%Z -> (0 <= i < n)%Z -> M (NGrad, k * n + i)%Z = gv_of K (single k vis cb') i).
  { intros Eb k i Hk Hi. rewrite <- G by assumption. unfold gname, gseparate. rewrite Eb. cbn [negb]. rewrite andb_false_r. reflexivity. }
  assert (B : sbat = false -> forall i, (0 <= i < n)%Z -> M (NGrad, i) = sumf (zrange 0 NS) (fun k => gv_of K (single k vis cb') i)).
  { intros Eb i Hi. destruct (gseparate NS sbat srg) eqn:Es.
    - assert (Hns : (1 < NS)%Z) by (unfold gseparate in Es; rewrite !andb_true_iff in Es; destruct Es as [_ Es]; apply Z.ltb_lt in Es; exact Es).
      assert (cb = None) as Ecb by (destruct Hcase as [H|[H|H]]; [congruence|lia|exact H]).
      assert (Hgn : gn = NGradShot) by (unfold gname; rewrite Es; reflexivity).
      assert (Hout : forall j k, (0 <= k < NS)%Z -> (forall p, inint p -> idx shape p <> j) -> gv_of K (single k vis cb') j = 0).
      { intros j k Hk Hj. rewrite single_scalar by exact Hvis. destruct (SP_locs K P0 NS nsrc nrecsc srcs recssc Hnsrc Hnrec Hsrc Hrec k Hk) as [L1 L2].
        destruct (scalar_backward_spec K Kr (SP k) pw Hg L1 L2 (vk k) vis (stk k) srg sr (grk k) nt cb' (g k) Hvis Hsr Hc') as (a & b & c & E & _ & _ & _ & _ & Z0). rewrite E. cbn [gv_of]. apply Z0. exact Hj. }
      destruct (Z.leb_spec nt 0) as [Hn|Hn].
      + apply xbd_nil_inv in Hd. rewrite Hd. cbn. symmetry. apply (sumf_zero K Kr). intros k Hk. apply In_zrange in Hk. rewrite <- G by (try exact Hi; lia). rewrite Hd, Hgn. reflexivity.
      + rewrite Ecb in Hd. assert (HN : (0 < N)%Z) by (pose proof Hcb as HC; rewrite Ecb in HC; cbn in HC; apply Z.div_str_pos; lia).
        rewrite (range_down_one N HN) in Hd. destruct (xcall_grad N false N [] M0 sw M fam0 Es sinv_init Hd) as (M3 & sw3 & Hd' & _ & C1 & C2). apply xbd_nil_inv in Hd'. rewrite <- Hd' in C1, C2.
        assert (In1 : (forall p, inint p -> idx shape p <> i) -> M (NGrad, i) = sumf (zrange 0 NS) (fun k => gv_of K (single k vis cb') i)).
        { intros Ni. rewrite C2 by exact Ni. symmetry. apply (sumf_zero K Kr). intros k Hk. apply In_zrange in Hk. apply Hout; [lia|exact Ni]. }
        destruct (interior K P0 (unidx shape i)) eqn:Ei; [destruct (Z.eq_dec (idx shape (unidx shape i)) i) as [Ej|Ej]|].
        * rewrite <- Ej at 1. rewrite C1 by exact Ei. rewrite Ej. transitivity (sumf (zrange 0 NS) (fun k => M (NGradShot, (k * n + i)%Z))); [cbn; ring|]. apply sumf_ext. intros k Hk. apply In_zrange in Hk. rewrite <- G by (try exact Hi; lia). rewrite Hgn. reflexivity.
        * apply In1. intros p Hp E. apply Ej. rewrite <- E, unidx_idx; [reflexivity|apply (inint_arr K P0); exact Hp].
        * apply In1. intros p Hp E. rewrite <- E, unidx_idx in Ei; [congruence|apply (inint_arr K P0); exact Hp].
    - assert (Hns : (NS <= 1)%Z) by (unfold gseparate in Es; rewrite Hv, Eb in Es; cbn in Es; apply Z.ltb_ge in Es; exact Es).
      assert (E1 : NS = 1%Z) by lia. assert (Er : zrange 0 NS = [0%Z]) by (rewrite E1; reflexivity). rewrite Er. cbn [sumf map fold_right]. rewrite <- (G 0%Z i) by lia. unfold gname. rewrite Es. change (0 * n + i)%Z with i. ring. }
  clear - A B. destruct sbat; [apply A|apply B]; reflexivity.
Qed.

(** With callbacks and a shared model: every call adds the buffers of all shots again. *)
Fixpoint xagain (c : Z) (ss : list Z) (fam : Z -> bmem K) (i : Z) (x : K) : K :=
  match ss with
  | [] => x
  | s :: ss' => xagain c ss' (fun k => chunk k c (fam k) s) i (x + sumf (zrange 0 NS) (fun k => g_v K (chunk k c (fam k) s) i))
  end.
Lemma xdriver_again c p : gseparate NS sbat srg = true -> inint p -> forall ss sw M sw' M' fam, sinv sw M fam -> xdrv c ss sw M sw' M' ->
  M' (NGrad, idx shape p) = xagain c ss fam (idx shape p) (M (NGrad, idx shape p)).
Proof.
  intros Es Hp. assert (Hgn : gn = NGradShot) by (unfold gname; rewrite Es; reflexivity).
  induction ss as [|s ss IH]; intros sw M sw' M' fam Hi Hdr; [apply xbd_nil_inv in Hdr; rewrite Hdr; reflexivity|].
  destruct (xcall_grad c sw s ss M sw' M' fam Es Hi Hdr) as (M3 & sw3 & Hd' & H1 & C1 & _). cbn [xagain].
  pose proof (xdriver_inv c [s] sw M sw3 M3 fam Hi H1) as Hi3. cbn [fold_left] in Hi3. rewrite (IH sw3 M3 sw' M' _ Hi3 Hd'). f_equal. rewrite C1 by exact Hp. f_equal. apply sumf_ext. intros k Hk. apply In_zrange in Hk.
  destruct Hi3 as [Hi3 _]. specialize (Hi3 k ltac:(lia)). cbv beta in Hi3. destruct Hi3 as [c1 c2 c3 c4 c5 c6 c7 c8].
  assert (Hb : (0 <= idx shape p < n)%Z) by (apply idx_bound; apply (inint_arr K P0); exact Hp).
  rewrite <- (c8 _ Hb). cbn [g_v gview]. rewrite Hgn. reflexivity.
Qed.
Theorem gpu_born_backward_sc_again out p : (0 < nt)%Z -> gseparate NS sbat srg = true -> inint p -> run out ->
  snd out (idx shape p) = xagain cf (range_down N cf) fam0 (idx shape p) 0.
Proof.
  intros Hnt Es Hp (sw & M & Hdr & ->). destruct (Z.leb_spec nt 0); [lia|]. cbn [snd B_gv bneg bglob_of].
  rewrite (xdriver_again cf p Es Hp _ false M0 sw M fam0 sinv_init Hdr). reflexivity.
Qed.
End Gpu.

(** ** Some run exists when no launch is refused. *)
Section Exists.
Variable K : ops.
Variable P0 : par K.
Variables NS nsrc nrecsc : Z.
Variables srcs recssc : Z -> Z.
Variables vbat sbat : bool.
Notation fd := (fd_pad (p_acc P0)).
Theorem gpu_born_backward_sc_exists : (0 <= nsrc < 2 ^ 31)%Z -> (0 <= nrecsc < 2 ^ 31)%Z -> (0 < NS < 2 ^ 16)%Z -> cells_fit fd (p_shape P0) ->
  forall pw v w srg sr gr nt cb g, exists out, gpu_born_backward_sc K P0 NS nsrc nrecsc srcs recssc vbat sbat pw v w srg sr gr nt cb g out.
Proof.
  intros H1 H2 H3 H4 pw v w srg sr gr nt cb g. destruct (launches_fit K P0 NS nsrc nrecsc H4 H1 H2 H3) as (L1 & L2 & L3).
  assert (Hf : (0 <= fd)%Z) by (destruct (p_acc P0); cbn; lia). destruct (cells_valid _ _ NS Hf H4 H3) as [_ Lc].
  assert (Lp : forall pml0 pml1 ga ts sw M, exists M', xbwd_loop K P0 NS nsrc nrecsc srcs recssc vbat pml0 pml1 v ga srg sr gr sw ts M M').
  { intros pml0 pml1 ga. induction ts as [|t ts IH]; intros sw M; [eexists; constructor|].
    assert (X1 : exists M1, if (0 <? nsrc)%Z then kexec K (launch_locs nsrc NS) (rec_thread K P0 NS (qwfc sw) nsrc srcs t) M M1 else M1 = M) by (destruct (Z.ltb_spec 0 nsrc); [apply kexec_exists; auto|eauto]). destruct X1 as [M1 X1].
    destruct (kexec_exists K _ (xbwd_thread K P0 NS vbat pml0 pml1 v ga sw ((t mod sr =? 0)%Z && srg) sr (t / sr)%Z) M1 L1) as [M2 X2].
    assert (X3 : exists M3, if (0 <? nrecsc)%Z then kexec K (launch_locs nrecsc NS) (add_thread K P0 NS (qwfp sw) nrecsc recssc (gr t)) M2 M3 else M3 = M2) by (destruct (Z.ltb_spec 0 nrecsc); [apply kexec_exists; auto|eauto]). destruct X3 as [M3 X3].
    destruct (IH (negb sw) M3) as [M' H']. exists M'. econstructor; [|exact H']. exists M1, M2. auto. }
  unfold gpu_born_backward_sc. cbv zeta. set (ss := if (nt <=? 0)%Z then [] else _). clearbody ss. set (M0 := bmem_of K _ _). clearbody M0. set (cf := match cb with Some c => c | None => (nt / sr)%Z end).
  assert (H : exists sw' M', xbwd_driver K P0 NS nsrc nrecsc srcs recssc vbat sbat (pml_begin K P0 3 pw) (pml_end K P0 3 pw) v srg sr gr cf ss false M0 sw' M').
  { generalize false as sw. revert M0. induction ss as [|s ss IH]; intros M sw; [do 2 eexists; constructor|].
    destruct (Lp (pml_begin K P0 3 pw) (pml_end K P0 3 pw) (gname NS sbat srg) (rev (zrange (s * sr - Z.min s cf * sr) (s * sr))) sw M) as [M1 X1].
    assert (X2 : exists M2, if gseparate NS sbat srg then kexec K (launch_combine fd (p_shape P0)) (combine_thread K P0 NS) M1 M2 else M2 = M1) by (destruct (gseparate _ _ _); [apply kexec_exists; exact Lc|eauto]). destruct X2 as [M2 X2].
    edestruct (IH M2) as (sw' & M' & H'). exists sw', M'. econstructor; [exact X1|exact X2|exact H']. }
  destruct H as (sw' & M' & H). eexists. exists sw', M'. split; [exact H|reflexivity].
Qed.
End Exists.

(** ** The reduced pass and the full pass on the device *)
Section Reduced.
Variable K : ops.
Hypothesis Kr : is_ring K.
Variable P0 : par K.
Variable pw : nat -> Z * Z.
Variables NS nsrc nrec nrecsc : Z.
Variables srcs recs recssc : Z -> Z.
Variables vbat sbat : bool.
Notation n := (prodZ (p_shape P0)).
Theorem gpu_born_reduced : geom_ok K P0 pw -> (0 <= nsrc < 2 ^ 31)%Z -> (0 <= nrec < 2 ^ 31)%Z -> (0 <= nrecsc < 2 ^ 31)%Z ->
  sizes_ok (fd_pad (p_acc P0)) (p_shape P0) NS ->
  (forall j, (0 <= j < NS * nsrc)%Z -> loc_ok K P0 (srcs j)) -> (forall j, (0 <= j < NS * nrec)%Z -> loc_ok K P0 (recs j)) -> (forall j, (0 <= j < NS * nrecsc)%Z -> loc_ok K P0 (recssc j)) ->
  distinct NS nrec recs -> distinct NS nrecsc recssc ->
  forall v scatter w wsc vrg srg sr gr grsc nt cb cb' g gsc out out', (0 < sr)%Z -> cb_ok nt sr cb -> cb_ok nt sr cb' ->
  gpu_born_backward K P0 NS nsrc nrec nrecsc srcs recs recssc vbat sbat pw v scatter w wsc vrg srg sr gr grsc nt cb g gsc out ->
  gpu_born_backward_sc K P0 NS nsrc nrecsc srcs recssc vbat sbat pw v w srg sr grsc nt cb' gsc out' ->
  let '(U, f, gs) := out' in
  (forall k, (0 <= k < NS)%Z -> ueq K P0 (U k) (gg_usc K out k) /\ forall t, row (f t) nsrc k = row (gg_fsc K out t) nsrc k) /\
  ((1 <= NS)%Z -> srg = true -> sbat = true \/ NS = 1%Z \/ (cb = None /\ cb' = None) ->
   forall i, (0 <= i < (if sbat then NS * n else n))%Z -> gs i = gg_scatter K out i).
Proof.
  intros Hg H1 H2 H3 H4 H5 H6 H7 U1 U2 v scatter w wsc vrg srg sr gr grsc nt cb cb' g gsc out out' Hsr Hcb Hcb' Ho Ho'.
  set (vis := visits K P0 (pml_begin K P0 3 pw) (pml_end K P0 3 pw)).
  assert (Hv : bvis K P0 pw vis) by (unfold bvis, vis; apply Permutation_refl).
  set (SP := shot_par K P0 nsrc nrec srcs recs).
  assert (Hh : forall k c, born_backward_sc K (shot_par K P0 nsrc nrecsc srcs recssc k) (row recssc nrecsc k) pw (shot_v K P0 vbat v k) vis (fun s => sh K P0 k (w s)) srg sr (fun t => row (grsc t) nrecsc k) nt c (gsc k)
     = option_map (fun B => (bg_usc K B, bg_fsc K B, bg_scatter K B))
      (born_backward K (SP k) (row recssc nrecsc k) pw (shot_v K P0 vbat v k) (shot_v K P0 sbat scatter k) vis (fun s => sh K P0 k (w s)) (fun s => sh K P0 k (wsc s)) vrg srg sr (fun t => row (gr t) nrec k) (fun t => row (grsc t) nrecsc k) nt c (g k) (gsc k))).
  { intros k c. rewrite <- (born_backward_sc_half K (SP k)). reflexivity. }
  pose proof (gpu_born_backward_sc_cpu K Kr P0 pw NS nsrc nrecsc srcs recssc vbat sbat Hg H1 H3 H4 H5 H7 v sr nt Hsr w srg grsc cb' gsc U2 Hcb' (Some 1%Z) vis out') as A.
  pose proof (gpu_born_backward_cpu K Kr P0 pw NS nsrc nrec nrecsc srcs recs recssc vbat sbat Hg H1 H2 H3 H4 H5 H6 H7 v scatter sr nt Hsr w wsc vrg srg gr grsc cb g gsc U1 U2 Hcb (Some 1%Z) vis out) as B.
  pose proof (fun Hns => gpu_born_backward_sc_grad K Kr P0 pw NS nsrc nrecsc srcs recssc vbat sbat Hg H1 H3 H4 H5 H7 v sr nt Hsr w srg grsc cb' gsc U2 Hcb' (Some 1%Z) vis out' Hns) as C.
  pose proof (gpu_born_backward_grad K Kr P0 pw NS nsrc nrec nrecsc srcs recs recssc vbat sbat Hg H1 H2 H3 H4 H5 H6 H7 v scatter sr nt Hsr w wsc vrg srg gr grsc cb g gsc U1 U2 Hcb true (Some 1%Z) vis out) as D.
  destruct out' as [[U f] gs]. split.
  - intros k Hk. destruct (A k ltac:(cbn; lia) Hk Hv Ho') as (x & y & z & E & A1 & A2). destruct (B k ltac:(cbn; lia) Hk Hv Ho) as (o & E' & _ & B1 & _ & B2).
    rewrite Hh in E. fold SP in E'. rewrite E' in E. cbn [option_map] in E. injection E as <- <- <-. split.
    + intros q Hq. destruct (A1 q Hq) as (a1 & a2 & a3). destruct (B1 q Hq) as (b1 & b2 & b3). split; [exact (eq_trans a1 (eq_sym b1))|]. split; [exact (eq_trans a2 (eq_sym b2))|]. intros d Hd'. destruct (a3 d Hd') as [x1 x2], (b3 d Hd') as [y1 y2]. split; [exact (eq_trans x1 (eq_sym y1))|exact (eq_trans x2 (eq_sym y2))].
    + intros t. rewrite A2, B2. reflexivity.
  - intros Hns Es Hcase i Hi.
    assert (G : forall k j, gv_of K (born_backward_sc K (shot_par K P0 nsrc nrecsc srcs recssc k) (row recssc nrecsc k) pw (shot_v K P0 vbat v k) vis (fun s => sh K P0 k (w s)) srg sr (fun t => row (grsc t) nrecsc k) nt (Some 1%Z) (gsc k)) j
      = grad_of K true (born_backward K (SP k) (row recssc nrecsc k) pw (shot_v K P0 vbat v k) (shot_v K P0 sbat scatter k) vis (fun s => sh K P0 k (w s)) (fun s => sh K P0 k (wsc s)) vrg srg sr (fun t => row (gr t) nrec k) (fun t => row (grsc t) nrecsc k) nt (Some 1%Z) (g k) (gsc k)) j).
    { intros k j. rewrite Hh. destruct (born_backward _ _ _ _ _ _ _ _ _ _ _ _ _ _ _ _ _ _); reflexivity. }
    specialize (C Hns ltac:(tauto) Es ltac:(cbn; lia) Hv Ho'). specialize (D Hns ltac:(cbn; tauto) Es ltac:(cbn; lia) Hv Ho). cbv iota beta in C. clear - G C D Hi H4.
    destruct sbat.
    + assert (Hn : (0 < n)%Z \/ n = 0%Z \/ (n < 0)%Z) by lia. destruct Hn as [Hn|[Hn|Hn]].
      * pose proof (Z.div_mod i n ltac:(lia)) as E. pose proof (Z.mod_pos_bound i n Hn). assert (Hk : (0 <= i / n < NS)%Z) by (split; [apply Z.div_pos; lia|apply Z.div_lt_upper_bound; lia]).
        replace i with (i / n * n + i mod n)%Z by lia. rewrite (C _ _ Hk) by lia. rewrite G. symmetry. apply (D _ _ Hk). lia.
      * rewrite Hn in Hi. lia.
      * destruct H4 as (_ & _ & H4). nia.
    + rewrite C by exact Hi. change (gg_scatter K out i) with (gg_of K true out i). rewrite (D i Hi). apply sumf_ext. intros k _. apply G.
Qed.
End Reduced.
