(** * Runs of the Born propagator on the device: gradients of the models, existence of runs. *)
From Coq Require Import List ZArith QArith Lia Bool Ring Permutation.
From Verif Require Import Ops Sums Grid Stencil DualNum ScalarModel ScalarRefine ScalarForward ScalarBackward ScalarFunc ScalarAdjoint ScalarApi ScalarGrad ScalarMore ScalarPhys Param ShotsModel Shots ShotsRun ShotsThm Threads GpuModel GpuLaunch GpuFwd GpuLocs GpuForward GpuBwd GpuBackward GpuThm
  BornModel BornSim BornBack BornThm BornRun BornRun2 BornGpuModel BornGpuLift BornGpuFwd BornGpuForward BornGpuBwd BornGpuBackward.
Import ListNotations.
Local Open Scope K_scope.

(** Gradient of the wavespeed ([false]) or of the scattering potential ([true]). *)
Definition grad_of (K : ops) (b : bool) (x : option (born_grad K)) (i : Z) : K := match x with Some o => (if b then bg_scatter K o i else bg_v K o i) | None => 0 end.

Section Outside.
Variable K : ops.
Hypothesis Kr : is_ring K.
Variable P : par K.
Variable recsc : list Z.
Variable pw : nat -> Z * Z.
Hypothesis Hg : geom_ok K P pw.
Hypothesis Hsrc : Forall (loc_ok K P) (p_src P).
Hypothesis Hrec : Forall (loc_ok K P) (p_rec P).
Hypothesis Hrecsc : Forall (loc_ok K P) recsc.
Lemma born_grad_outside b v scatter vis w wsc vrg srg sr gr grsc nt cb g gsc j :
  (forall t, length (gr t) = length (p_rec P)) -> bvis K P pw vis -> (0 < sr)%Z -> cb_ok nt sr cb -> (if b : bool then srg else vrg) = true ->
  (forall p, interior K P p = true -> idx (p_shape P) p <> j) ->
  grad_of K b (born_backward K P recsc pw v scatter vis w wsc vrg srg sr gr grsc nt cb g gsc) j = 0.
Proof.
  intros Hl V Hs C Hr Hj.
  destruct (born_back_dual K Kr P recsc pw Hg Hsrc Hrec Hrecsc v scatter vis w wsc vrg srg sr gr grsc nt cb g gsc Hl V Hs C) as (B & G0 & gf & gv & E & F & H).
  destruct (scalar_backward_spec (dual K) (dual_is_ring K Kr) (dpar (P2 K P recsc)) pw (geom_dual K Kr (P2 K P recsc) pw (geom_2 K P recsc pw Hg)) Hsrc (rec_2 K P recsc Hrec Hrecsc) (perturb v scatter) vis (dstore K P v scatter w wsc) true sr
     (fun t => drecs (gr t) (grsc t)) nt cb (dstate gsc g) V Hs C) as (a & b0 & c & E' & _ & _ & _ & _ & Z0).
  rewrite F in E'. injection E' as <- <- <-. specialize (Z0 j Hj). rewrite E. cbn [grad_of]. destruct H as (_ & _ & _ & _ & _ & H6 & H7).
  destruct b; [rewrite <- (H6 Hr j)|rewrite <- (H7 Hr j)]; rewrite Z0; reflexivity.
Qed.
End Outside.

Section Gpu.
Variable K : ops.
Hypothesis Kr : is_ring K.
Add Ring KRing7 : Kr.
Variable P0 : par K.
Variable pw : nat -> Z * Z.
Variables NS nsrc nrec nrecsc : Z.
Variables srcs recs recssc : Z -> Z.
Variables vbat sbat : bool.
Notation shape := (p_shape P0).
Notation fd := (fd_pad (p_acc P0)).
Notation n := (prodZ shape).
Notation nd := (length shape).
Notation SP := (shot_par K P0 nsrc nrec srcs recs).
Notation RS k := (row recssc nrecsc k).
Notation inint p := (interior K P0 p = true).
Hypothesis Hg : geom_ok K P0 pw.
Hypothesis Hnsrc : (0 <= nsrc < 2 ^ 31)%Z.
Hypothesis Hnrec : (0 <= nrec < 2 ^ 31)%Z.
Hypothesis Hnrecsc : (0 <= nrecsc < 2 ^ 31)%Z.
Hypothesis Hsz : sizes_ok fd shape NS.
Hypothesis Hsrc : forall j, (0 <= j < NS * nsrc)%Z -> loc_ok K P0 (srcs j).
Hypothesis Hrec : forall j, (0 <= j < NS * nrec)%Z -> loc_ok K P0 (recs j).
Hypothesis Hrecsc : forall j, (0 <= j < NS * nrecsc)%Z -> loc_ok K P0 (recssc j).
Variables (v scatter : arr K) (sr nt : Z).
Hypothesis Hsr : (0 < sr)%Z.
Let Hsrc' := fun j Hj => loc_lt K P0 pw Hg _ (Hsrc j Hj).
Let Hrec' := fun j Hj => loc_lt K P0 pw Hg _ (Hrec j Hj).
Let Hrecsc' := fun j Hj => loc_lt K P0 pw Hg _ (Hrecsc j Hj).
Lemma RS_locs k : (0 <= k < NS)%Z -> Forall (loc_ok K (SP k)) (RS k).
Proof. intros Hk. apply (SP_loc_rec K P0 NS nsrc nrecsc srcs recssc (proj1 Hnrecsc) Hrecsc k Hk). Qed.
Lemma BSP_locs k : (0 <= k < NS)%Z -> Forall (loc_ok K (SP k)) (p_src (SP k)) /\ Forall (loc_ok K (SP k)) (p_rec (SP k)).
Proof. apply (SP_locs K P0 NS nsrc nrec srcs recs Hnsrc Hnrec Hsrc Hrec). Qed.
Lemma row_len (m : Z) (X Y : Type) (f : Z -> X) (g : Z -> Y) k : length (row f m k) = length (row g m k).
Proof. unfold row. rewrite !map_length. reflexivity. Qed.

Theorem gpu_born_forward_cpu vrg srg f fsc cb cb' w0 wsc0 w0' wsc0' u usc vis out k :
  distinct NS nsrc srcs -> cb_ok nt sr cb -> cb_ok nt sr cb' -> (0 <= k < NS)%Z -> fvis K P0 pw vis ->
  gpu_born_forward K P0 NS nsrc nrec nrecsc srcs recs recssc vbat sbat pw v scatter vrg srg sr f fsc nt cb w0 wsc0 u usc out ->
  exists o, born_forward K (SP k) (RS k) pw (shot_v K P0 vbat v k) (shot_v K P0 sbat scatter k) vis vrg srg sr (fun t => row (f t) nsrc k) (fun t => row (fsc t) nsrc k) nt cb' w0' wsc0' (u k) (usc k) = Some o /\
    ueq K P0 (go_u K out k) (bo_u K o) /\ ueq K P0 (go_usc K out k) (bo_usc K o) /\
    (forall t, row (go_r K out t) nrec k = bo_r K o t) /\ (forall t, row (go_rsc K out t) nrecsc k = bo_rsc K o t).
Proof.
  intros Hd Hc Hc' Hk Hv Ho. destruct (BSP_locs k Hk) as [L1 L2]. pose proof (RS_locs k Hk) as L3.
  destruct (gpu_born_forward_shot K P0 NS nsrc nrec nrecsc srcs recs recssc vbat sbat Hnsrc Hnrec Hnrecsc Hsz Hsrc' Hrec' Hrecsc' Hd pw v scatter vrg srg sr f fsc nt cb w0 wsc0 u usc out k Hg Hsr Hc Hk Ho)
    as (gv & o1 & Hgv & E & A1 & A2 & A3 & A4 & _).
  destruct (born_exists K Kr (SP k) (RS k) pw Hg L1 L2 L3 (shot_v K P0 vbat v k) (shot_v K P0 sbat scatter k) (fun t => row (f t) nsrc k) (fun t => row (fsc t) nsrc k) (u k) (usc k) nt sr vis vrg srg cb' w0' wsc0') as [o E'];
    try assumption; try (intros t; apply row_len).
  exists o. split; [exact E'|].
  destruct (born_same K Kr (SP k) (RS k) pw Hg L1 L2 L3 _ _ _ _ _ _ _ _ _ _ _ _ _ _ _ _ _ _ _ _ o1 o (fun t => row_len nsrc K K (fsc t) (f t) k) Hgv Hv Hsr Hc Hc' E E') as (B1 & B2 & B3 & B4).
  split; [eapply ueq_trans; [exact A1|exact B1]|]. split; [eapply ueq_trans; [exact A2|exact B2]|]. split; intros t; [rewrite A3|rewrite A4]; auto.
Qed.

Section Backward.
Variables (w_ wsc_ : Z -> arr K) (vrg srg : bool) (gr grsc : Z -> arr K) (cb : option Z) (g gsc : Z -> st K).
Hypothesis Hu : distinct NS nrec recs.
Hypothesis Husc : distinct NS nrecsc recssc.
Hypothesis Hcb : cb_ok nt sr cb.
Notation pml0 := (pml_begin K P0 3 pw).
Notation pml1 := (pml_end K P0 3 pw).
Notation gvis := (gvis K P0 NS pml0 pml1).
Notation single k vis cb := (born_backward K (SP k) (RS k) pw (shot_v K P0 vbat v k) (shot_v K P0 sbat scatter k) vis (fun s => sh K P0 k (w_ s)) (fun s => sh K P0 k (wsc_ s)) vrg srg sr (fun t => row (gr t) nrec k) (fun t => row (grsc t) nrecsc k) nt cb (g k) (gsc k)).
Notation bwd out := (gpu_born_backward K P0 NS nsrc nrec nrecsc srcs recs recssc vbat sbat pw v scatter w_ wsc_ vrg srg sr gr grsc nt cb g gsc out).

Theorem gpu_born_backward_cpu cb' vis out k : cb_ok nt sr cb' -> (0 <= k < NS)%Z -> bvis K P0 pw vis -> bwd out ->
  exists o, single k vis cb' = Some o /\
    ueq K P0 (gg_u K out k) (bg_u K o) /\ ueq K P0 (gg_usc K out k) (bg_usc K o) /\
    (forall t, row (gg_f K out t) nsrc k = bg_f K o t) /\ (forall t, row (gg_fsc K out t) nsrc k = bg_fsc K o t).
Proof.
  intros Hc' Hk Hv Ho. destruct (BSP_locs k Hk) as [L1 L2]. pose proof (RS_locs k Hk) as L3.
  destruct (gpu_born_backward_shot K P0 NS nsrc nrec nrecsc srcs recs recssc vbat sbat Hnsrc Hnrec Hnrecsc Hsz Hsrc' Hrec' Hrecsc' Hu Husc pw v scatter w_ wsc_ vrg srg sr gr grsc nt cb g gsc Hg Hsr Hcb out k Hk Ho) as (o1 & E & A1 & A2 & A3 & A4).
  destruct (born_backward_same K Kr (SP k) (RS k) pw Hg L1 L2 L3 (shot_v K P0 vbat v k) (shot_v K P0 sbat scatter k) (gvis k) vis (fun s => sh K P0 k (w_ s)) (fun s => sh K P0 k (wsc_ s)) vrg srg sr (fun t => row (gr t) nrec k) (fun t => row (grsc t) nrecsc k) nt cb cb' (g k) (gsc k)
     (fun t => row_len nrec K Z (gr t) recs k) (hvis_b K P0 NS Hsz pw Hg k Hk) Hv Hsr Hcb Hc') as (B1 & o & E1 & E2 & C1 & C2 & C3 & _).
  rewrite E in E1. injection E1 as <-. exists o. split; [exact E2|].
  split; [eapply ueq_trans; [exact A1|exact C1]|]. split; [eapply ueq_trans; [exact A2|exact C2]|]. split; intros t; destruct (C3 t); [rewrite A3|rewrite A4]; assumption.
Qed.
(** *** Gradients of the models *)
Notation N := (nt / sr)%Z.
Notation cf := (match cb with Some c => c | None => (nt / sr)%Z end).
Notation steps := (if (nt <=? 0)%Z then [] else range_down N cf).
Notation bat b := (if b : bool then sbat else vbat).
Notation rg b := (if b : bool then srg else vrg).
Definition gg_of (b : bool) (out : gborn_grad K) : arr K := if b then gg_scatter K out else gg_v K out.
Lemma nbd_nil_inv c ss sw M sw' M' : ss = [] -> nbwd_driver K P0 NS nsrc nrec nrecsc srcs recs recssc vbat sbat pml0 pml1 v scatter vrg srg sr gr grsc c ss sw M sw' M' -> M' = M.
Proof. intros -> H. inversion H; subst. reflexivity. Qed.
(** What one call does to the buffers of gradient [b]. *)
Lemma ncall_grad b c sw s ss M sw' M' fam : gseparate NS (bat b) (rg b) = true -> hinv K P0 NS nsrc (gname NS vbat vrg) (gname NS sbat srg) w_ wsc_ sw M fam ->
  nbwd_driver K P0 NS nsrc nrec nrecsc srcs recs recssc vbat sbat pml0 pml1 v scatter vrg srg sr gr grsc c (s :: ss) sw M sw' M' ->
  exists M3 sw3,
    nbwd_driver K P0 NS nsrc nrec nrecsc srcs recs recssc vbat sbat pml0 pml1 v scatter vrg srg sr gr grsc c ss sw3 M3 sw' M' /\
    nbwd_driver K P0 NS nsrc nrec nrecsc srcs recs recssc vbat sbat pml0 pml1 v scatter vrg srg sr gr grsc c [s] sw M sw3 M3 /\
    (forall p, inint p -> M3 (b, (NGrad, idx shape p)) = M (b, (NGrad, idx shape p)) + sumf (zrange 0 NS) (fun k => M3 (b, (NGradShot, (k * n + idx shape p)%Z)))) /\
    (forall i, (forall p, inint p -> idx shape p <> i) -> M3 (b, (NGrad, i)) = M (b, (NGrad, i))).
Proof.
  intros Es Hi Hd. inversion Hd as [|? ? ? ? M1 M2 M3 ? ? Hl Hc Hc' Hd']; subst. exists M3. eexists. split; [exact Hd'|]. split; [econstructor; [exact Hl|exact Hc|exact Hc'|constructor]|].
  destruct (hcall_inv K P0 NS nsrc nrec nrecsc srcs recs recssc vbat sbat Hnsrc Hnrec Hnrecsc Hsz Hsrc' Hrec' Hrecsc' Hu Husc (gname NS vbat vrg) (gname NS sbat srg) (gn_or _ _ _) (gn_or _ _ _) w_ wsc_ pml0 pml1 (hpml_le K P0 pw Hg) v scatter vrg srg sr gr grsc sw s c M M1 fam Hi Hl) as [_ [G1 G2]].
  assert (KG : forall j, M1 (b, (NGrad, j)) = M (b, (NGrad, j))) by (destruct b; [apply G2|apply G1]; unfold gname; rewrite Es; reflexivity).
  destruct (ncombine_spec K P0 NS nsrc nrec srcs recs Hsz Hsrc' Hrec' false _ M1 M2 Hc) as [C Fr]. destruct (ncombine_spec K P0 NS nsrc nrec srcs recs Hsz Hsrc' Hrec' true _ M2 M3 Hc') as [C' Fr'].
  assert (Eg : forall (h : Z -> K) l x, fold_left (fun x k => x + h k) l x = x + sumf l h).
  { intros h. induction l as [|k l IHl]; intros x; cbn; [ring|]. rewrite IHl. ring. }
  assert (S3 : forall j, M3 (b, (NGradShot, j)) = M1 (b, (NGradShot, j))) by (intros j; rewrite Fr', Fr by (intros p _; congruence); reflexivity).
  split.
  - intros p Hp. rewrite <- KG. rewrite (sumf_ext K (zrange 0 NS) _ (fun k => M1 (b, (NGradShot, (k * n + idx shape p)%Z)))) by (intros; apply S3). rewrite <- Eg. destruct b; rewrite Es in *.
    + rewrite C' by exact Hp. rewrite Fr by (intros q _; congruence). rewrite !Eg. f_equal. apply sumf_ext. intros k _. apply Fr. intros q _. congruence.
    + rewrite Fr' by (intros q _; congruence). apply C. exact Hp.
  - intros i Ni. rewrite <- KG. rewrite Fr' by (intros p Hp E; injection E as _ E; apply (Ni p Hp); symmetry; exact E). apply Fr. intros p Hp E. injection E as _ E. apply (Ni p Hp). symmetry. exact E.
Qed.

Theorem gpu_born_backward_gv b out : (1 <= NS)%Z -> (bat b = true \/ NS = 1%Z \/ cb = None) -> rg b = true -> bwd out ->
  if bat b then forall k i, (0 <= k < NS)%Z -> (0 <= i < n)%Z -> gg_of b out (k * n + i)%Z = grad_of K b (single k (gvis k) cb) i
  else forall i, (0 <= i < n)%Z -> gg_of b out i = sumf (zrange 0 NS) (fun k => grad_of K b (single k (gvis k) cb) i).
Proof.
  intros Hns1 Hcase Hr Ho.
  destruct (hrun K P0 NS nsrc nrec nrecsc srcs recs recssc vbat sbat Hnsrc Hnrec Hnrecsc Hsz Hsrc' Hrec' Hrecsc' Hu Husc pw v scatter w_ wsc_ vrg srg sr gr grsc nt cb g gsc Hg out Ho) as (sw & M & [C _] & Hd & ->).
  assert (EM : forall i, gg_of b (let G := bneg K (bglob_of K (gname NS vbat vrg) sw (half K false M)) in let Gsc := bneg K (bglob_of K (gname NS sbat srg) sw (half K true M)) in
        mkgborn_grad K (gbcrop K P0 G) (gbcrop K P0 Gsc) (B_f K G) (B_f K Gsc) (B_gv K G) (B_gv K Gsc)) i = M (b, (NGrad, i))) by (intros i; destruct b; reflexivity).
  clear Ho. match type of EM with forall i, gg_of b ?o i = _ => generalize o as out0, EM; clear EM; intros out0 EM end.
  assert (G : forall k i, (0 <= k < NS)%Z -> (0 <= i < n)%Z -> M (b, (gname NS (bat b) (rg b), (k * n + i)%Z)) = grad_of K b (single k (gvis k) cb) i).
  { intros k i Hk Hi. rewrite (hsingle K P0 NS nsrc nrec nrecsc srcs recs recssc vbat sbat pw v scatter w_ wsc_ vrg srg sr gr grsc nt cb g gsc Hsr Hcb k). cbn [grad_of].
    specialize (C k Hk). cbv beta in C. destruct C as [[c1 c2 c3 c4 c5 c6 c7 c8] [e1 e2 e3 e4 e5 e6 e7 e8]]. destruct b; [apply (e8 i Hi)|apply (c8 i Hi)]. }
  assert (A : bat b = true -> forall k i, (0 <= k < NS)%Z -> (0 <= i < n)%Z -> M (b, (NGrad, (k * n + i)%Z)) = grad_of K b (single k (gvis k) cb) i).
  { intros Eb k i Hk Hi. rewrite <- G by assumption. unfold gname, gseparate. rewrite Eb. cbn [negb]. rewrite andb_false_r. reflexivity. }
  assert (B : bat b = false -> forall i, (0 <= i < n)%Z -> M (b, (NGrad, i)) = sumf (zrange 0 NS) (fun k => grad_of K b (single k (gvis k) cb) i)).
  { intros Eb i Hi. destruct (gseparate NS (bat b) (rg b)) eqn:Es.
    - assert (Hns : (1 < NS)%Z) by (unfold gseparate in Es; rewrite !andb_true_iff in Es; destruct Es as [_ Es]; apply Z.ltb_lt in Es; exact Es).
      assert (cb = None) as Ecb by (destruct Hcase as [H|[H|H]]; [congruence|lia|exact H]).
      assert (Hgn : gname NS (bat b) (rg b) = NGradShot) by (unfold gname; rewrite Es; reflexivity).
      assert (Hout : forall j k, (0 <= k < NS)%Z -> (forall p, inint p -> idx shape p <> j) -> grad_of K b (single k (gvis k) cb) j = 0).
      { intros j k Hk Hj. destruct (BSP_locs k Hk) as [L1 L2]. apply (born_grad_outside K Kr (SP k) (RS k) pw Hg L1 L2 (RS_locs k Hk)); try assumption; [intros t; apply row_len|exact (hvis_b K P0 NS Hsz pw Hg k Hk)]. }
      destruct (Z.leb_spec nt 0) as [Hn|Hn].
      + apply nbd_nil_inv in Hd; [|reflexivity]. assert (Z1 : M (b, (NGrad, i)) = 0) by (rewrite Hd; destruct b; reflexivity). rewrite Z1. symmetry. apply (sumf_zero K Kr). intros k Hk. apply In_zrange in Hk. rewrite <- G by (try exact Hi; lia). rewrite Hd, Hgn. destruct b; reflexivity.
      + rewrite Ecb in Hd. assert (HN : (0 < N)%Z) by (pose proof Hcb as HC; rewrite Ecb in HC; cbn in HC; apply Z.div_str_pos; lia).
        assert (R : range_down N N = [N]) by (apply range_down_one; exact HN). rewrite R in Hd.
        destruct (ncall_grad b N false N [] _ sw M _ Es (hinv_init K P0 NS nsrc nrec nrecsc srcs recs recssc pw w_ wsc_ g gsc _ _ (gn_or _ _ _) (gn_or _ _ _)) Hd) as (M3 & sw3 & Hd' & _ & C1 & C2).
        apply nbd_nil_inv in Hd'; [|reflexivity]. rewrite <- Hd' in C1, C2. assert (Z0 : forall j, hM0 K P0 nsrc nrec nrecsc srcs recs recssc pw w_ wsc_ g gsc (b, (NGrad, j)) = 0) by (intros j; destruct b; reflexivity).
        assert (In1 : (forall p, inint p -> idx shape p <> i) -> M (b, (NGrad, i)) = sumf (zrange 0 NS) (fun k => grad_of K b (single k (gvis k) cb) i)).
        { intros Ni. rewrite C2 by exact Ni. rewrite Z0. symmetry. apply (sumf_zero K Kr). intros k Hk. apply In_zrange in Hk. apply Hout; [lia|exact Ni]. }
        destruct (interior K P0 (unidx shape i)) eqn:Ei; [destruct (Z.eq_dec (idx shape (unidx shape i)) i) as [Ej|Ej]|].
        * rewrite <- Ej at 1. rewrite C1 by exact Ei. rewrite Z0, Ej. transitivity (sumf (zrange 0 NS) (fun k => M (b, (NGradShot, (k * n + i)%Z)))); [ring|]. apply sumf_ext. intros k Hk. apply In_zrange in Hk. rewrite <- G by (try exact Hi; lia). rewrite Hgn. reflexivity.
        * apply In1. intros p Hp E. apply Ej. rewrite <- E, unidx_idx; [reflexivity|apply (inint_arr K P0); exact Hp].
        * apply In1. intros p Hp E. rewrite <- E, unidx_idx in Ei; [congruence|apply (inint_arr K P0); exact Hp].
    - assert (Hns : (NS <= 1)%Z) by (unfold gseparate in Es; rewrite Hr, Eb in Es; cbn in Es; apply Z.ltb_ge in Es; exact Es).
      assert (E1 : NS = 1%Z) by lia. assert (Er : zrange 0 NS = [0%Z]) by (rewrite E1; reflexivity). rewrite Er. cbn [sumf map fold_right]. rewrite <- (G 0%Z i) by lia. unfold gname. rewrite Es. change (0 * n + i)%Z with i. ring. }
  clear - A B EM. destruct (bat b); [intros k i Hk Hi; rewrite EM; apply A; auto|intros i Hi; rewrite EM; apply B; auto].
Qed.
Theorem gpu_born_backward_grad b cb' vis out : (1 <= NS)%Z -> (bat b = true \/ NS = 1%Z \/ cb = None) -> rg b = true -> cb_ok nt sr cb' -> bvis K P0 pw vis -> bwd out ->
  if bat b then forall k i, (0 <= k < NS)%Z -> (0 <= i < n)%Z -> gg_of b out (k * n + i)%Z = grad_of K b (single k vis cb') i
  else forall i, (0 <= i < n)%Z -> gg_of b out i = sumf (zrange 0 NS) (fun k => grad_of K b (single k vis cb') i).
Proof.
  intros Hns Hcase Hr Hc' Hv Ho. pose proof (gpu_born_backward_gv b out Hns Hcase Hr Ho) as A.
  assert (T : forall k i, (0 <= k < NS)%Z -> (0 <= i < n)%Z -> grad_of K b (single k (gvis k) cb) i = grad_of K b (single k vis cb') i).
  { intros k i Hk Hi. destruct (BSP_locs k Hk) as [L1 L2].
    destruct (born_backward_same K Kr (SP k) (RS k) pw Hg L1 L2 (RS_locs k Hk) (shot_v K P0 vbat v k) (shot_v K P0 sbat scatter k) (gvis k) vis (fun s => sh K P0 k (w_ s)) (fun s => sh K P0 k (wsc_ s)) vrg srg sr (fun t => row (gr t) nrec k) (fun t => row (grsc t) nrecsc k) nt cb cb' (g k) (gsc k)
     (fun t => row_len nrec K Z (gr t) recs k) (hvis_b K P0 NS Hsz pw Hg k Hk) Hv Hsr Hcb Hc') as (B1 & o & E1 & E2 & _ & _ & _ & C4 & C5).
    rewrite E1, E2. cbn [grad_of]. destruct b; [apply (C4 Hr i Hi)|apply (C5 Hr i Hi)]. }
  revert A. destruct (bat b); intros A.
  - intros k i Hk Hi. rewrite A by assumption. apply T; assumption.
  - intros i Hi. rewrite A by assumption. apply sumf_ext. intros k Hk. apply In_zrange in Hk. apply T; [lia|exact Hi].
Qed.

(** With callbacks and a shared model: every call adds the buffers of all shots again. *)
Notation chunk c k := (h_bwd_chunk K (SP k) (RS k) (shot_v K P0 vbat v k) (shot_v K P0 sbat scatter k) (gvis k) (fun s => sh K P0 k (w_ s)) (fun s => sh K P0 k (wsc_ s)) vrg srg sr (fun t => row (gr t) nrec k) (fun t => row (grsc t) nrecsc k) c).
Definition hgv (b : bool) (m : hmem K) : arr K := if b then g_v K (h_sc K m) else g_v K (h_bg K m).
Fixpoint nagain (b : bool) (c : Z) (ss : list Z) (fam : Z -> hmem K) (i : Z) (x : K) : K :=
  match ss with
  | [] => x
  | s :: ss' => nagain b c ss' (fun k => chunk c k (fam k) s) i (x + sumf (zrange 0 NS) (fun k => hgv b (chunk c k (fam k) s) i))
  end.
Lemma ndriver_again b c p : gseparate NS (bat b) (rg b) = true -> inint p -> forall ss sw M sw' M' fam,
  hinv K P0 NS nsrc (gname NS vbat vrg) (gname NS sbat srg) w_ wsc_ sw M fam ->
  nbwd_driver K P0 NS nsrc nrec nrecsc srcs recs recssc vbat sbat pml0 pml1 v scatter vrg srg sr gr grsc c ss sw M sw' M' ->
  M' (b, (NGrad, idx shape p)) = nagain b c ss fam (idx shape p) (M (b, (NGrad, idx shape p))).
Proof.
  intros Es Hp. assert (Hgn : gname NS (bat b) (rg b) = NGradShot) by (unfold gname; rewrite Es; reflexivity).
  induction ss as [|s ss IH]; intros sw M sw' M' fam Hi Hdr; [inversion Hdr; reflexivity|].
  destruct (ncall_grad b c sw s ss M sw' M' fam Es Hi Hdr) as (M3 & sw3 & Hd' & H1 & C1 & _). cbn [nagain].
  pose proof (hdriver_inv K P0 NS nsrc nrec nrecsc srcs recs recssc vbat sbat Hnsrc Hnrec Hnrecsc Hsz Hsrc' Hrec' Hrecsc' Hu Husc w_ wsc_ pml0 pml1 (hpml_le K P0 pw Hg) v scatter vrg srg sr gr grsc c [s] sw M sw3 M3 fam Hi H1) as Hi3.
  cbn [fold_left] in Hi3. rewrite (IH sw3 M3 sw' M' _ Hi3 Hd'). f_equal. rewrite C1 by exact Hp. f_equal. apply sumf_ext. intros k Hk. apply In_zrange in Hk.
  destruct Hi3 as [Hi3 _]. specialize (Hi3 k ltac:(lia)). cbv beta in Hi3. destruct Hi3 as [[c1 c2 c3 c4 c5 c6 c7 c8] [e1 e2 e3 e4 e5 e6 e7 e8]].
  assert (Hb : (0 <= idx shape p < n)%Z) by (apply idx_bound; apply (inint_arr K P0); exact Hp).
  unfold hgv. destruct b; [rewrite <- (e8 _ Hb)|rewrite <- (c8 _ Hb)]; cbn [g_v gview hview h_bg h_sc]; rewrite Hgn; reflexivity.
Qed.
Theorem gpu_born_backward_again b out p : (0 < nt)%Z -> gseparate NS (bat b) (rg b) = true -> inint p -> bwd out ->
  gg_of b out (idx shape p) = nagain b cf (range_down N cf) (fun k => h_neg K (mkhmem K (bwd_init K (SP k) pw (g k)) (bwd_init K (SP k) pw (gsc k)))) (idx shape p) 0.
Proof.
  intros Hnt Es Hp (sw & M & Hdr & ->). destruct (Z.leb_spec nt 0); [lia|].
  transitivity (M (b, (NGrad, idx shape p))); [destruct b; reflexivity|].
  rewrite (ndriver_again b cf p Es Hp _ false _ sw M (fun k => h_neg K (mkhmem K (bwd_init K (SP k) pw (g k)) (bwd_init K (SP k) pw (gsc k)))) (hinv_init K P0 NS nsrc nrec nrecsc srcs recs recssc pw w_ wsc_ g gsc _ _ (gn_or _ _ _) (gn_or _ _ _)) Hdr).
  destruct b; reflexivity.
Qed.
End Backward.
End Gpu.

(** ** Some run exists when no launch is refused. *)
Section Exists.
Variable K : ops.
Variable P0 : par K.
Variables NS nsrc nrec nrecsc : Z.
Variables srcs recs recssc : Z -> Z.
Variables vbat sbat : bool.
Notation shape := (p_shape P0).
Notation fd := (fd_pad (p_acc P0)).
Hypothesis Hc : launch_valid (launch_cells fd shape NS) = true.
Hypothesis Hs : (0 < nsrc)%Z -> launch_valid (launch_locs nsrc NS) = true.
Hypothesis Hr : (0 < nrec)%Z -> launch_valid (launch_locs nrec NS) = true.
Hypothesis Hrsc : (0 < nrecsc)%Z -> launch_valid (launch_locs nrecsc NS) = true.
Hypothesis Hcm : launch_valid (launch_combine fd shape) = true.
Lemma nkexec_exists L tp (M : mem nloc K) : launch_valid L = true -> exists M', nkexec K L tp M M'.
Proof. intros H. eexists. split; [exact H|]. apply exec_exists. Qed.
Lemma nkexec_if (m : Z) L tp (M : mem nloc K) : ((0 < m)%Z -> launch_valid L = true) -> exists M', if (0 <? m)%Z then nkexec K L tp M M' else M' = M.
Proof. intros H. destruct (Z.ltb_spec 0 m); [apply nkexec_exists; auto|eauto]. Qed.
Lemma nfwd_loop_exists pml0 pml1 v scatter vrg srg sr f fsc ts : forall sw M, exists M', nfwd_loop K P0 NS nsrc nrec nrecsc srcs recs recssc vbat sbat pml0 pml1 v scatter vrg srg sr f fsc sw ts M M'.
Proof.
  induction ts as [|t ts IH]; intros sw M; [eexists; constructor|].
  edestruct (nkexec_exists _ (nfwd_thread K P0 NS vbat sbat pml0 pml1 v scatter sw ((t mod sr =? 0)%Z && (vrg || srg)) ((t mod sr =? 0)%Z && vrg) (t / sr)%Z) M Hc) as [M1 H1].
  destruct (nkexec_if nsrc _ (nadd_thread K P0 NS nsrc srcs (qwfp sw) (f t) (fsc t)) M1 Hs) as [M2 H2].
  destruct (nkexec_if nrec _ (nrec_thread K P0 NS false (qwfc sw) nrec recs t) M2 Hr) as [M3 H3].
  destruct (nkexec_if nrecsc _ (nrec_thread K P0 NS true (qwfc sw) nrecsc recssc t) M3 Hrsc) as [M4 H4].
  destruct (IH (negb sw) M4) as [M' H']. exists M'. econstructor; [|exact H']. exists M1, M2, M3. auto.
Qed.
Lemma nbwd_loop_exists pml0 pml1 v scatter gav gas vrg srg sr gr grsc ts : forall sw M, exists M', nbwd_loop K P0 NS nsrc nrec nrecsc srcs recs recssc vbat sbat pml0 pml1 v scatter gav gas vrg srg sr gr grsc sw ts M M'.
Proof.
  induction ts as [|t ts IH]; intros sw M; [eexists; constructor|].
  destruct (nkexec_if nsrc _ (nrec_thread K P0 NS false (qwfc sw) nsrc srcs t) M Hs) as [M1 H1].
  destruct (nkexec_if nsrc _ (nrec_thread K P0 NS true (qwfc sw) nsrc srcs t) M1 Hs) as [M2 H2].
  edestruct (nkexec_exists _ (nbwd_thread K P0 NS vbat sbat pml0 pml1 v scatter gav gas sw ((t mod sr =? 0)%Z && (vrg || srg) && vrg) ((t mod sr =? 0)%Z && (vrg || srg) && srg) sr (t / sr)%Z) M2 Hc) as [M3 H3].
  destruct (nkexec_if nrec _ (nadd1_thread K P0 NS false (qwfp sw) nrec recs (gr t)) M3 Hr) as [M4 H4].
  destruct (nkexec_if nrecsc _ (nadd1_thread K P0 NS true (qwfp sw) nrecsc recssc (grsc t)) M4 Hrsc) as [M5 H5].
  destruct (IH (negb sw) M5) as [M' H']. exists M'. econstructor; [|exact H']. exists M1, M2, M3, M4. auto.
Qed.
Lemma ncombine_exists b sep M : exists M', ncombine K P0 NS b sep M M'.
Proof. unfold ncombine. destruct sep; [apply nkexec_exists; exact Hcm|eauto]. Qed.
Theorem gpu_born_forward_exists pw v scatter vrg srg sr f fsc nt cb w0 wsc0 u usc : exists out, gpu_born_forward K P0 NS nsrc nrec nrecsc srcs recs recssc vbat sbat pw v scatter vrg srg sr f fsc nt cb w0 wsc0 u usc out.
Proof.
  unfold gpu_born_forward. cbv zeta. set (ss := if (nt <=? 0)%Z then [] else _). clearbody ss. set (M0 := fun l : nloc => _). clearbody M0. set (cf := match cb with Some c => c | None => (nt / sr)%Z end).
  assert (H : exists sw' M', nfwd_driver K P0 NS nsrc nrec nrecsc srcs recs recssc vbat sbat (pml_begin K P0 2 pw) (pml_end K P0 2 pw) v scatter vrg srg sr f fsc (nt / sr) cf ss false M0 sw' M').
  { generalize false as sw. revert M0. induction ss as [|s ss IH]; intros M sw; [do 2 eexists; constructor|].
    destruct (nfwd_loop_exists (pml_begin K P0 2 pw) (pml_end K P0 2 pw) v scatter vrg srg sr f fsc (zrange (s * sr) (s * sr + Z.min (nt / sr - s) cf * sr)) sw M) as [M1 H1].
    edestruct (IH M1) as (sw' & M' & H'). exists sw', M'. econstructor; [exact H1|exact H']. }
  destruct H as (sw' & M' & H). eexists. exists sw', M'. split; [exact H|reflexivity].
Qed.
Theorem gpu_born_backward_exists pw v scatter w wsc vrg srg sr gr grsc nt cb g gsc : exists out, gpu_born_backward K P0 NS nsrc nrec nrecsc srcs recs recssc vbat sbat pw v scatter w wsc vrg srg sr gr grsc nt cb g gsc out.
Proof.
  unfold gpu_born_backward. cbv zeta. set (ss := if (nt <=? 0)%Z then [] else _). clearbody ss. set (M0 := fun l : nloc => _). clearbody M0. set (cf := match cb with Some c => c | None => (nt / sr)%Z end).
  assert (H : exists sw' M', nbwd_driver K P0 NS nsrc nrec nrecsc srcs recs recssc vbat sbat (pml_begin K P0 3 pw) (pml_end K P0 3 pw) v scatter vrg srg sr gr grsc cf ss false M0 sw' M').
  { generalize false as sw. revert M0. induction ss as [|s ss IH]; intros M sw; [do 2 eexists; constructor|].
    destruct (nbwd_loop_exists (pml_begin K P0 3 pw) (pml_end K P0 3 pw) v scatter (gname NS vbat vrg) (gname NS sbat srg) vrg srg sr gr grsc (rev (zrange (s * sr - Z.min s cf * sr) (s * sr))) sw M) as [M1 H1].
    destruct (ncombine_exists false (gseparate NS vbat vrg) M1) as [M2 H2]. destruct (ncombine_exists true (gseparate NS sbat srg) M2) as [M3 H3].
    edestruct (IH M3) as (sw' & M' & H'). exists sw', M'. econstructor; [exact H1|exact H2|exact H3|exact H']. }
  destruct H as (sw' & M' & H). eexists. exists sw', M'. split; [exact H|reflexivity].
Qed.
End Exists.
Theorem gpu_born_exists K (P0 : par K) NS nsrc nrec nrecsc srcs recs recssc vbat sbat : (0 <= nsrc < 2 ^ 31)%Z -> (0 <= nrec < 2 ^ 31)%Z -> (0 <= nrecsc < 2 ^ 31)%Z -> (0 < NS < 2 ^ 16)%Z -> cells_fit (fd_pad (p_acc P0)) (p_shape P0) ->
  (forall pw v scatter vrg srg sr f fsc nt cb w0 wsc0 u usc, exists out, gpu_born_forward K P0 NS nsrc nrec nrecsc srcs recs recssc vbat sbat pw v scatter vrg srg sr f fsc nt cb w0 wsc0 u usc out) /\
  (forall pw v scatter w wsc vrg srg sr gr grsc nt cb g gsc, exists out, gpu_born_backward K P0 NS nsrc nrec nrecsc srcs recs recssc vbat sbat pw v scatter w wsc vrg srg sr gr grsc nt cb g gsc out).
Proof.
  intros H1 H2 H3 H4 H5. assert (Hf : (0 <= fd_pad (p_acc P0))%Z) by (destruct (p_acc P0); cbn; lia). destruct (cells_valid _ _ NS Hf H5 H4) as [C1 C2].
  assert (Ls : (0 < nsrc)%Z -> launch_valid (launch_locs nsrc NS) = true) by (intros; apply locs_valid; lia).
  assert (Lr : (0 < nrec)%Z -> launch_valid (launch_locs nrec NS) = true) by (intros; apply locs_valid; lia).
  assert (Lrs : (0 < nrecsc)%Z -> launch_valid (launch_locs nrecsc NS) = true) by (intros; apply locs_valid; lia).
  split; intros; [apply gpu_born_forward_exists|apply gpu_born_backward_exists]; assumption.
Qed.
