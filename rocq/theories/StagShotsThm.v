(** * Batches of shots of the staggered-grid propagators: statements for the user functions. *)
From Coq Require Import List ZArith QArith Lia Bool Ring Permutation.
From Verif Require Import Ops Sums Grid Stencil ScalarModel ScalarRefine Param ShotsModel Shots ShotsRun Stag StagAdj StagKernel StagCell
  StagRefine StagGrad StagRun StagParam StagShotsModel StagShots StagShotsRun.
Import ListNotations.
Local Open Scope K_scope.

(** Model gradients returned by a single-shot run. *)
Definition gm_of {A B M} {K : ops} (x : option (A * B * (M -> arr K))) : M -> arr K :=
  match x with Some (_, _, gm) => gm | None => fun _ _ => 0 end.

Section SThm.
Variable S : sys.
Variable N : kern S.
Variable K : ops.
Hypothesis Kr : is_ring K.
Add Ring KRing : Kr.
Variable P0 : spar S K.
Variable num : (kM N -> arr K) -> knum S N K.
Variable kc : (kM N -> arr K) -> sX S -> sE S -> arr K.
Variable pw : nat -> Z * Z.
Variable NS : Z.
Variables nsrc nrec : sC S -> Z.
Variables srcs recs : sC S -> Z -> Z.
Variable bt : kM N -> bool.
Variable cmb : Z -> bool.
Notation shape := (sp_shape P0).
Notation n := (prodZ shape).
Notation nd := (length shape).
Notation fd := (fd_pad (sp_acc P0)).
Notation SP := (sshot_par S K P0 nsrc nrec srcs recs).
Hypothesis Sok : sys_ok S nd.
Hypothesis Hk : kern_ok S N nd.
Hypothesis Hu : forall md, num_ok S N K (num md) (kc md).
Hypothesis HU : forall md, numrel S N K K eq n (num md) (num md).
Hypothesis Hgeo : sgeom S K P0 pw.
Hypothesis Hnsrc : forall c, (0 <= nsrc c)%Z.
Hypothesis Hnrec : forall c, (0 <= nrec c)%Z.
Hypothesis Hsrc : forall c j, (0 <= j < NS * nsrc c)%Z -> sloc_ok S K P0 c (srcs c j).
Hypothesis Hrec : forall c j, (0 <= j < NS * nrec c)%Z -> sloc_ok S K P0 c (recs c j).
Hypothesis Hcmb : forall h p, dom S K P0 h p = true -> cmb (idx shape p) = true.
Notation fv := (fvisits S N K P0 pw).
Notation bv := (bvisits S N K P0 pw).

Lemma sn_pos : (0 < n)%Z.
Proof.
  assert (H : forall s, Forall (fun x => (0 < x)%Z) s -> (0 < prodZ s)%Z).
  { induction 1 as [|x l Hx _ IH]; cbn [prodZ]; [lia|]. apply Z.mul_pos_pos; assumption. }
  apply H. apply Forall_nth. intros d x Hd. rewrite (nth_indep _ x 0%Z) by exact Hd.
  pose proof (sg_dims S K P0 pw Hgeo d Hd). pose proof (fd_pad_pos (sp_acc P0)). lia.
Qed.
Lemma sloc_lt c l : sloc_ok S K P0 c l -> (l < n)%Z.
Proof. pose proof sn_pos. intros [H1|(q & -> & Hq & _)]; [lia|]. apply idx_bound in Hq. lia. Qed.
Lemma Hsrc' c j : (0 <= j < NS * nsrc c)%Z -> (srcs c j < n)%Z.
Proof. intros H. apply (sloc_lt c), Hsrc, H. Qed.
Lemma Hrec' c j : (0 <= j < NS * nrec c)%Z -> (recs c j < n)%Z.
Proof. intros H. apply (sloc_lt c), Hrec, H. Qed.
Lemma SPl_src k : (0 <= k < NS)%Z -> locs_ok S K (SP k) (sp_src (SP k)).
Proof.
  intros Hk0 c _. apply Forall_forall. intros x Hx. apply row_In in Hx. destruct Hx as (j & Hj & ->). apply Hsrc. nia.
Qed.
Lemma SPl_rec k : (0 <= k < NS)%Z -> locs_ok S K (SP k) (sp_rec (SP k)).
Proof.
  intros Hk0 c _. apply Forall_forall. intros x Hx. apply row_In in Hx. destruct Hx as (j & Hj & ->). apply Hrec. nia.
Qed.
Lemma SP_geom k : sgeom S K (SP k) pw.
Proof. destruct Hgeo as [H1 H2]. split; [exact H1|exact H2]. Qed.

Lemma fv_cell A vis : fv A vis -> forall c, In c vis -> cellok S N K P0 A c.
Proof.
  intros Hv [g [r p]] Hc. apply (Permutation_in _ (Permutation_sym Hv)) in Hc.
  apply (In_svisits S N K P0) in Hc. destruct Hc as (Hg & Hr & Hb). split; [exact Hg|]. cbn [fst snd].
  apply (reg_dom S K P0 _ _ (fbounds S K P0 pw Hgeo) (g_h g) r); assumption.
Qed.
Lemma bv_cell A vis : sroom S K P0 pw -> bv A vis -> forall c, In c vis -> cellok S N K P0 A c.
Proof.
  intros Hr0 Hv [g [r p]] Hc. apply (Permutation_in _ (Permutation_sym Hv)) in Hc.
  apply (In_svisits S N K P0) in Hc. destruct Hc as (Hg & Hr & Hb). split; [exact Hg|]. cbn [fst snd].
  apply (reg_dom S K P0 _ _ (fun d => bbounds S K P0 pw Hgeo d Hr0) (g_h g) r); assumption.
Qed.

(** Forward. *)
Lemma sshots_forward md visA visB fq sr f nt cb sched store u k :
  fv true visA -> fv false visB -> sfsched_ok S N NS visA visB sr nt cb sched -> nt_ok nt sr cb -> (0 <= k < NS)%Z ->
  exists U R St U1 R1 St1,
    sbatch_forward S N K P0 num nsrc nrec srcs recs bt pw md fq sr f nt cb sched store u = Some (U, R, St) /\
    k_fwd S N K (SP k) (num (sshot_md S N K P0 bt md k)) pw visA visB fq sr (fun t c => row (f t c) (nsrc c) k) nt cb
      (fun q si => bsh n k (store q si)) (u k) = Some (U1, R1, St1) /\
    (forall x p, mn (U k) x p = mn U1 x p) /\ (forall e p, me (U k) e p = me U1 e p) /\
    (forall t c, row (R t c) (nrec c) k = R1 t c) /\
    (forall q si i, (0 <= i < n)%Z -> St q si (k * n + i)%Z = St1 q si i).
Proof.
  intros VA VB Hs Hcb Hk0.
  pose proof (batch_forward_shot S N K Kr P0 num NS nsrc nrec srcs recs bt HU Sok Hk Hnrec Hsrc' Hrec' md visA visB
    (fv_cell true visA VA) (fv_cell false visB VB) fq sr f pw nt cb sched store u k Hs Hk0) as H.
  destruct (run_some S N K Kr (SP k) (num (sshot_md S N K P0 bt md k)) (kc (sshot_md S N K P0 bt md k)) pw Sok Hk (Hu _)
    (SPl_src k Hk0) (SPl_rec k Hk0) (SP_geom k) visA visB fq sr (fun t c => row (f t c) (nsrc c) k) nt cb
    (fun q si => bsh n k (store q si)) (u k) VA VB Hcb) as (U1 & R1 & S1 & E).
  rewrite E in H. destruct (sbatch_forward _ _ _ _ _ _ _ _ _ _ _ _ _ _ _ _ _ _ _ _) as [[[U R] St]|]; [|contradiction].
  exists U, R, St, U1, R1, S1. split; [reflexivity|]. split; [exact E|exact H].
Qed.

Section B.
Variables (md : kM N -> arr K) (store : kQ N -> Z -> arr K) (fm : kM N -> bool) (sr : Z) (gr : Z -> sC S -> arr K) (nt : Z) (g : Z -> sst S K).
Hypothesis Hroom : sroom S K P0 pw.
Notation batch nthr th cb sched := (sbatch_backward S N K P0 num nsrc nrec srcs recs bt cmb pw nthr th md fm sr gr nt cb sched store g).
Notation single k visA visB cb := (k_bwd S N K (SP k) (num (sshot_md S N K P0 bt md k)) pw visA visB fm sr
   (fun t c => row (gr t c) (nrec c) k) nt cb (fun q si => bsh n k (store q si)) (g k)).

Lemma ssingle_spec k visA visB cb : (0 <= k < NS)%Z -> bv true visA -> bv false visB -> nt_ok nt sr cb ->
  exists U1 f1 gm1, single k visA visB cb = Some (U1, f1, gm1) /\
    forall q i, (0 <= i < n)%Z -> cmb i = false -> gm1 q i = 0.
Proof.
  intros Hk0 VA VB Hcb.
  destruct (k_bwd_spec S N K Kr (SP k) (num (sshot_md S N K P0 bt md k)) (kc (sshot_md S N K P0 bt md k)) pw Sok Hk (Hu _)
    (SPl_src k Hk0) (SPl_rec k Hk0) (SP_geom k) Hroom visA visB fm sr (fun t c => row (gr t c) (nrec c) k) nt cb
    (fun q si => bsh n k (store q si)) (g k) VA VB Hcb) as (U1 & f1 & gm1 & E & _ & _ & _ & Z0).
  exists U1, f1, gm1. split; [exact E|]. intros q i Hi Hc.
  assert (Hpos : Forall (fun x => (0 < x)%Z) shape).
  { apply Forall_nth. intros d x Hd. rewrite (nth_indep _ x 0%Z) by exact Hd.
    pose proof (sg_dims S K P0 pw Hgeo d Hd). pose proof (fd_pad_pos (sp_acc P0)). lia. }
  pose proof (idx_unidx shape i Hpos Hi) as Ei. rewrite <- Ei. apply Z0.
  - apply unidx_in_array; auto.
  - intros A h _ _. destruct (dom S K P0 (g_h h) (unidx shape i)) eqn:D; [|exact D].
    apply Hcmb in D. rewrite Ei in D. congruence.
Qed.

Lemma sbatch_some nthr th cb sched : nt_ok nt sr cb -> exists U f gm, batch nthr th cb sched = Some (U, f, gm).
Proof.
  intros Hcb. unfold sbatch_backward. destruct (Z.leb_spec nt 0); [eexists _, _, _; reflexivity|].
  pose proof (k_cf_pos nt sr cb Hcb H). destruct (Z.eqb_spec (k_cf nt sr cb) 0); [lia|]. eexists _, _, _; reflexivity.
Qed.

Lemma sshots_backward nthr th cb sched visA visB k :
  bv true visA -> bv false visB -> sbsched_ok S N NS visA visB sr nt cb sched -> nt_ok nt sr cb -> (0 <= k < NS)%Z ->
  exists U f gm U1 f1 gm1,
    batch nthr th cb sched = Some (U, f, gm) /\ single k visA visB cb = Some (U1, f1, gm1) /\
    (forall x p, mn (U k) x p = mn U1 x p) /\ (forall e p, me (U k) e p = me U1 e p) /\
    (forall t c, row (f t c) (nsrc c) k = f1 t c).
Proof.
  intros VA VB Hs Hcb Hk0.
  pose proof (batch_backward_shot S N K Kr P0 num NS nsrc nrec srcs recs bt cmb HU Sok Hk Hnsrc Hsrc' Hrec' md visA visB
    (bv_cell true visA Hroom VA) (bv_cell false visB Hroom VB) fm sr gr nthr th sched pw nt cb store g Hs k Hk0) as H.
  destruct (ssingle_spec k visA visB cb Hk0 VA VB Hcb) as (U1 & f1 & g1 & E & _). rewrite E in H.
  destruct (sbatch_some nthr th cb sched Hcb) as (U & f & gm & E'). rewrite E' in H.
  exists U, f, gm, U1, f1, g1. split; [exact E'|]. split; [exact E|exact H].
Qed.

(** Model gradient: batched, or one thread, or several threads without callbacks. *)
Lemma sshots_gradient nthr th cb sched visA visB q :
  bv true visA -> bv false visB -> sbsched_ok S N NS visA visB sr nt cb sched -> nt_ok nt sr cb ->
  (forall s k, (0 <= k < NS)%Z -> (0 <= th s k < nthr)%Z) ->
  fm q = true -> (bt q = true \/ nthr = 1%Z \/ cb = None) ->
  exists U f gm, batch nthr th cb sched = Some (U, f, gm) /\
    if bt q
    then forall k i, (0 <= k < NS)%Z -> (0 <= i < n)%Z -> gm q (k * n + i)%Z = gm_of (single k visA visB cb) q i
    else forall i, (0 <= i < n)%Z -> gm q i = sumf (zrange 0 NS) (fun k => gm_of (single k visA visB cb) q i).
Proof.
  intros VA VB Hs Hcb Hth Hfm Hcase. destruct (sbatch_some nthr th cb sched Hcb) as (U & f & gm & E).
  exists U, f, gm. split; [exact E|].
  assert (HG : forall k, (0 <= k < NS)%Z -> match single k visA visB cb with Some (_, _, gm1) => gm_of (single k visA visB cb) q = gm1 q | None => False end).
  { intros k Hk0. destruct (ssingle_spec k visA visB cb Hk0 VA VB Hcb) as (a & b & c & E1 & _). rewrite E1. reflexivity. }
  assert (HG0 : forall k i, (0 <= k < NS)%Z -> (0 <= i < n)%Z -> cmb i = false -> gm_of (single k visA visB cb) q i = 0).
  { intros k i Hk0 Hi Hc. destruct (ssingle_spec k visA visB cb Hk0 VA VB Hcb) as (a & b & c & E1 & Z1). rewrite E1. apply Z1; assumption. }
  pose proof (bv_cell true visA Hroom VA) as CA. pose proof (bv_cell false visB Hroom VB) as CB.
  pose proof Hcb as (Hsr & Hn0 & Hcb').
  destruct (sseparate S N bt fm nthr q) eqn:Esep.
  - pose proof Esep as Es2. unfold sseparate in Es2. rewrite Hfm in Es2. cbn [andb] in Es2. apply andb_true_iff in Es2.
    destruct Es2 as [Eb Et]. apply negb_true_iff in Eb. apply Z.ltb_lt in Et. rewrite Eb.
    assert (cb = None) as -> by (destruct Hcase as [H|[H|H]]; [congruence|lia|exact H]).
    intros i Hi. destruct (Z_lt_le_dec 0 (nt / sr)) as [HN|HN].
    + apply (batch_gm_separate S N K Kr P0 num NS nsrc nrec srcs recs bt cmb HU Sok Hk Hnsrc Hsrc' Hrec' md visA visB CA CB fm sr gr nthr th sched
        pw nt None store g Hs q Esep eq_refl Hsr HN Hth (fun k => gm_of (single k visA visB None) q) HG HG0 U f gm E i Hi).
    + assert (Hn : (nt <= 0)%Z).
      { destruct Hcb'; [lia|]. pose proof (Z.div_str_pos nt sr). lia. }
      revert E. unfold sbatch_backward. destruct (Z.leb_spec nt 0); [|lia]. intros E. injection E as _ _ <-. cbv beta. rewrite Esep.
      symmetry. apply (sumf_zero K Kr). intros k Hk0. apply In_zrange in Hk0. unfold k_bwd.
      destruct (Z.leb_spec nt 0); [|lia]. reflexivity.
  - destruct (bt q) eqn:Eb.
    + intros k i Hk0 Hi.
      rewrite (batch_gm_blocks S N K Kr P0 num NS nsrc nrec srcs recs bt cmb HU Sok Hk Hnsrc Hsrc' Hrec' md visA visB CA CB fm sr gr nthr th sched
        pw nt cb store g Hs q (fun k => k) Esep ltac:(intros; unfold sblk; rewrite Eb; reflexivity)
        (fun k => gm_of (single k visA visB cb) q) HG U f gm E k i Hi).
      rewrite (sumf_single K Kr _ k); [reflexivity| | |].
      * apply NoDup_filter, NoDup_zrange.
      * apply filter_In. split; [apply In_zrange; exact Hk0|apply Z.eqb_refl].
      * intros x Hx Hn. apply filter_In in Hx. destruct Hx as [_ Hx]. apply Z.eqb_eq in Hx. congruence.
    + assert (Ht1 : (nthr <= 1)%Z).
      { unfold sseparate in Esep. rewrite Hfm, Eb in Esep. cbn [andb negb] in Esep. apply Z.ltb_ge in Esep. exact Esep. }
      intros i Hi.
      assert (H0 : forall s k, (0 <= k < NS)%Z -> sblk S N bt (th s) q k = 0%Z).
      { intros s k Hk0. unfold sblk. rewrite Eb. specialize (Hth s k Hk0). lia. }
      change (gm q i) with (gm q (0 * n + i)%Z).
      rewrite (batch_gm_blocks S N K Kr P0 num NS nsrc nrec srcs recs bt cmb HU Sok Hk Hnsrc Hsrc' Hrec' md visA visB CA CB fm sr gr nthr th sched
        pw nt cb store g Hs q (fun _ => 0%Z) Esep H0 (fun k => gm_of (single k visA visB cb) q) HG U f gm E 0%Z i Hi).
      f_equal. clear. change (filter (fun _ : Z => true) (zrange 0 NS) = zrange 0 NS).
      induction (zrange 0 NS) as [|x l IH]; [reflexivity|]. cbn [filter]. rewrite IH. reflexivity.
Qed.

(** Two runs with different threads, schedules, visiting orders and callback frequencies. *)
Lemma sshots_same nthr th cb sched visA visB nthr' th' cb' sched' visA' visB' :
  bv true visA -> bv false visB -> sbsched_ok S N NS visA visB sr nt cb sched -> nt_ok nt sr cb ->
  bv true visA' -> bv false visB' -> sbsched_ok S N NS visA' visB' sr nt cb' sched' -> nt_ok nt sr cb' ->
  exists U f gm U' f' gm',
    batch nthr th cb sched = Some (U, f, gm) /\ batch nthr' th' cb' sched' = Some (U', f', gm') /\
    (forall k, (0 <= k < NS)%Z -> sseq S K (U k) (U' k)) /\
    (forall t c j, In c (allC S) -> (0 <= j < NS * nsrc c)%Z -> f t c j = f' t c j) /\
    (forall q, (exists A h, In h (kgrp N A) /\ In q (g_M h)) ->
     (forall s k, (0 <= k < NS)%Z -> (0 <= th s k < nthr)%Z) ->
     (forall s k, (0 <= k < NS)%Z -> (0 <= th' s k < nthr')%Z) ->
     fm q = true -> (bt q = true \/ nthr = 1%Z \/ cb = None) -> (bt q = true \/ nthr' = 1%Z \/ cb' = None) ->
     forall i, (0 <= i < (if bt q then NS else 1) * n)%Z -> gm q i = gm' q i).
Proof.
  intros VA VB Hs Hc VA' VB' Hs' Hc'.
  destruct (sbatch_some nthr th cb sched Hc) as (U & f & gm & E).
  destruct (sbatch_some nthr' th' cb' sched' Hc') as (U' & f' & gm' & E').
  exists U, f, gm, U', f', gm'. split; [exact E|]. split; [exact E'|].
  assert (X1 : forall k, (0 <= k < NS)%Z -> exists a b c a' b' c',
     single k visA visB cb = Some (a, b, c) /\ single k visA' visB' cb' = Some (a', b', c') /\
     sseq S K a a' /\ (forall t c, In c (allC S) -> b t c = b' t c) /\
     (forall q p, inb (abox shape) p = true -> (exists A h, In h (kgrp N A) /\ In q (g_M h)) -> c q (idx shape p) = c' q (idx shape p))).
  { intros k Hk0.
    exact (stag_backward_callbacks_passive S N K Kr (SP k) (num (sshot_md S N K P0 bt md k)) (kc (sshot_md S N K P0 bt md k)) pw Sok Hk (Hu _)
      (SPl_src k Hk0) (SPl_rec k Hk0) (SP_geom k) visA visB visA' visB' fm (fun q si => bsh n k (store q si)) sr (fun t c => row (gr t c) (nrec c) k) nt cb cb' (g k)
      Hroom VA VB VA' VB' Hc Hc'). }
  assert (HK : forall k, (0 <= k < NS)%Z -> sseq S K (U k) (U' k) /\ forall t c, In c (allC S) -> row (f t c) (nsrc c) k = row (f' t c) (nsrc c) k).
  { intros k Hk0.
    destruct (sshots_backward nthr th cb sched visA visB k VA VB Hs Hc Hk0) as (a & b & c & a1 & b1 & c1 & e1 & e2 & e3 & e4 & e5).
    destruct (sshots_backward nthr' th' cb' sched' visA' visB' k VA' VB' Hs' Hc' Hk0) as (a' & b' & c' & a1' & b1' & c1' & e1' & e2' & e3' & e4' & e5').
    rewrite E in e1. injection e1 as <- <- <-. rewrite E' in e1'. injection e1' as <- <- <-.
    destruct (X1 k Hk0) as (x & y & z & x' & y' & z' & F & F' & [H1 H1'] & H2 & _).
    rewrite e2 in F. injection F as <- <- <-. rewrite e2' in F'. injection F' as <- <- <-. split; [split|].
    - intros v p Hv. rewrite e3, e3'. apply H1. exact Hv.
    - intros v p Hv. rewrite e4, e4'. apply H1'. exact Hv.
    - intros t c Hcc. rewrite e5, e5'. apply H2. exact Hcc. }
  split; [intros k Hk0; apply HK; exact Hk0|]. split.
  - intros t c j Hcc Hj. specialize (Hnsrc c). assert (Hn0 : (0 < nsrc c)%Z).
    { destruct (Z.eq_dec (nsrc c) 0) as [e|e]; [rewrite e, Z.mul_0_r in Hj; lia|lia]. }
    assert (Hk0 : (0 <= j / nsrc c < NS)%Z).
    { split; [apply Z.div_pos; lia|]. apply Z.div_lt_upper_bound; lia. }
    destruct (HK _ Hk0) as [_ H]. specialize (H t c Hcc). pose proof (Z.mod_pos_bound j (nsrc c) Hn0) as Hm.
    apply (f_equal (fun l => nth (Z.to_nat (j mod nsrc c)) l 0)) in H. rewrite !(row_nth) in H by exact Hm.
    replace (j / nsrc c * nsrc c + j mod nsrc c)%Z with j in H by (pose proof (Z.div_mod j (nsrc c)); lia). exact H.
  - intros q Hq Hth Hth' Hfm Hca Hca' i Hi.
    destruct (sshots_gradient nthr th cb sched visA visB q VA VB Hs Hc Hth Hfm Hca) as (a & b & c & e & H).
    destruct (sshots_gradient nthr' th' cb' sched' visA' visB' q VA' VB' Hs' Hc' Hth' Hfm Hca') as (a' & b' & c' & e' & H').
    rewrite E in e. injection e as <- <- <-. rewrite E' in e'. injection e' as <- <- <-.
    pose proof sn_pos as Hn.
    assert (Hpos : Forall (fun x => (0 < x)%Z) shape).
    { apply Forall_nth. intros d x Hd. rewrite (nth_indep _ x 0%Z) by exact Hd.
      pose proof (sg_dims S K P0 pw Hgeo d Hd). pose proof (fd_pad_pos (sp_acc P0)). lia. }
    assert (X2 : forall k j, (0 <= k < NS)%Z -> (0 <= j < n)%Z -> gm_of (single k visA visB cb) q j = gm_of (single k visA' visB' cb') q j).
    { intros k j Hk0 Hj. destruct (X1 k Hk0) as (x & y & z & x' & y' & z' & F & F' & _ & _ & H3). rewrite F, F'. cbn [gm_of].
      rewrite <- (idx_unidx shape j Hpos Hj). apply H3; [|exact Hq]. apply unidx_in_array; auto. }
    destruct (bt q) eqn:Eb.
    + assert (Hk0 : (0 <= i / n < NS)%Z).
      { split; [apply Z.div_pos; lia|]. apply Z.div_lt_upper_bound; lia. }
      pose proof (Z.mod_pos_bound i n Hn) as Hm.
      replace i with (i / n * n + i mod n)%Z by (pose proof (Z.div_mod i n); lia).
      rewrite H, H' by assumption. apply X2; assumption.
    + rewrite H, H' by lia. apply sumf_ext. intros k Hk0. apply In_zrange in Hk0. apply X2; [exact Hk0|lia].
Qed.
End B.
End SThm.
