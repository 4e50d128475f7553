(** * Backward runs of a batch of shots: threads, blocks of the gradient buffer, callbacks. *)
From Coq Require Import List ZArith QArith Lia Bool Ring.
From Verif Require Import Ops Sums Grid Stencil ScalarModel ScalarRefine ScalarForward ScalarBackward ScalarFunc Param ShotsModel Shots.
Import ListNotations.
Local Open Scope K_scope.

Lemma range_down_one N : (0 < N)%Z -> range_down N N = [N].
Proof.
  intros H. unfold range_down. replace ((N + N - 1) / N)%Z with 1%Z by (apply Z.div_unique with (r := (N - 1)%Z); lia).
  change (zrange 0 1) with [0%Z]. cbn [map]. f_equal. lia.
Qed.

Section Run.
Variable K : ops.
Hypothesis Kr : is_ring K.
Add Ring KRing : Kr.
Variable P0 : par K.
Variable NS : Z.
Variables nsrc nrec : Z.
Variables srcs recs : Z -> Z.
Variable batched : bool.
Notation shape := (p_shape P0).
Notation n := (prodZ shape).
Notation SP := (shot_par K P0 nsrc nrec srcs recs).
Notation inint p := (interior K P0 p = true).
Hypothesis Hnsrc : (0 <= nsrc)%Z.
Hypothesis Hnrec : (0 <= nrec)%Z.
Hypothesis Hsrc : forall j, (0 <= j < NS * nsrc)%Z -> (srcs j < n)%Z.
Hypothesis Hrec : forall j, (0 <= j < NS * nrec)%Z -> (recs j < n)%Z.

Variables (v2 : arr K) (store : Z -> arr K) (vrg : bool) (sr : Z) (gr : Z -> arr K).
Variables (vis : list (list Z * pt)) (nthr : Z) (th : Z -> Z -> Z) (sched : Z -> list (Z * action)).
Hypothesis Hvis : forall reg p, In (reg, p) vis -> inint p.
Notation vk k := (shot_v K P0 batched v2 k).
Notation stk k := (fun s => sh K P0 k (store s)).
Notation grk k := (fun t => row (gr t) nrec k).
Notation chunk1 k cf := (bwd_chunk K (SP k) (vk k) vis (stk k) vrg sr (grk k) cf).
Notation chunkB cf := (batch_bchunk K P0 nsrc nrec srcs recs batched nthr th v2 store vrg sr gr sched cf).
Notation shots := (zrange 0 NS).

(** The global memory shows every shot its own memory (model gradient aside). *)
Definition seen (M : bglob K) (fam : Z -> bmem K) : Prop :=
  forall k, (0 <= k < NS)%Z -> beqv K P0 (bview K P0 nsrc batched (fun _ => 0%Z) k M) (fam k).

Definition scheds (cf : Z) (s : Z) : Prop :=
  interleaves NS (fun _ => bprog vis (Z.min s cf * sr) (s * sr)) (sched s).

Lemma seen_swap M fam : seen M fam -> seen (bswap K M) (fun k => b_swap K (fam k)).
Proof. intros H k Hk. destruct (H k Hk). split; cbn in *; auto. Qed.

Lemma seen_neg M fam : seen M fam -> seen (bneg K M) (fun k => neg_wfp K (fam k)).
Proof.
  intros H k Hk. destruct (H k Hk) as [h1 h2 h3 h4 h5 h6 h7 h8]. split; cbn in *; auto.
  intros i Hi. specialize (h2 i Hi). cbn in h2 |- *. unfold sh in *. rewrite h2. reflexivity.
Qed.

Lemma seen_eq M fam fam' : (forall k, (0 <= k < NS)%Z -> fam k = fam' k) -> seen M fam -> seen M fam'.
Proof. intros E H k Hk. rewrite <- E by exact Hk. auto. Qed.

Lemma chunk_step cf s M fam : scheds cf s -> seen M fam ->
  let M' := chunkB cf M s in let fam' := fun k => chunk1 k cf (fam k) s in
  seen M' fam' /\
  (forall b i, (0 <= i < n)%Z -> B_buf K M' (b * n + i)%Z = B_buf K M (b * n + i)%Z
     + sumf (filter (fun k => gblock batched (th s) k =? b)%Z shots) (fun k => g_v K (fam' k) i - g_v K (fam k) i)) /\
  B_gv K M' = if separate batched vrg nthr then combine_grad K P0 nthr (B_buf K M') (B_gv K M) else B_gv K M.
Proof.
  intros Hs H M' fam'.
  pose proof (batch_bcall K Kr P0 NS nsrc nrec srcs recs batched Hnsrc Hnrec Hsrc Hrec (th s) v2 store vrg sr gr
     (s * sr)%Z vis (Z.min s cf * sr)%Z (sched s) M fam Hvis Hs H) as [C1 C2].
  set (M1 := fold_left _ _ _) in *.
  set (fam1 := fun k => c_backward K (SP k) (vk k) vis (stk k) vrg sr (grk k) (Z.min s cf * sr) (s * sr) (fam k)) in *.
  assert (Egv : forall k, g_v K (fam' k) = g_v K (fam1 k)).
  { intros k. unfold fam', bwd_chunk. destruct (_ =? 0)%Z; reflexivity. }
  assert (Ebuf : B_buf K M' = B_buf K M1).
  { unfold M', batch_bchunk. fold M1. destruct (separate _ _ _), (_ =? 0)%Z; reflexivity. }
  split; [|split].
  - assert (S1 : seen M1 fam1) by exact C1.
    assert (S2 : forall gv, seen (mkbglob K (B_wfc K M1) (B_wfp K M1) (B_psi K M1) (B_psin K M1) (B_zeta K M1) (B_zetan K M1) (B_f K M1)
                         (B_buf K M1) gv) fam1) by (intros gv; exact S1).
    unfold M', batch_bchunk. fold M1.
    unfold fam', bwd_chunk. destruct (_ =? 0)%Z; [|apply seen_swap]; destruct (separate _ _ _); try exact S1; apply S2.
  - intros b i Hi. rewrite Ebuf, C2 by exact Hi. f_equal. apply sumf_ext. intros k _. rewrite Egv. reflexivity.
  - rewrite Ebuf. unfold M', batch_bchunk. fold M1.
    assert (E : B_gv K M1 = B_gv K M) by apply bexec_gv.
    destruct (separate _ _ _), (_ =? 0)%Z; cbn; rewrite E; reflexivity.
Qed.

(** Several calls. *)
Lemma chunks_seen cf l : forall M fam, (forall s, In s l -> scheds cf s) -> seen M fam ->
  seen (fold_left (chunkB cf) l M) (fun k => fold_left (chunk1 k cf) l (fam k)).
Proof.
  induction l as [|s l IH]; intros M fam Hs H; [exact H|]. cbn [fold_left].
  apply IH with (fam := fun k => chunk1 k cf (fam k) s); [intros; apply Hs; right; assumption|].
  apply chunk_step; [apply Hs; left; reflexivity|exact H].
Qed.

(** If every shot keeps its block, the blocks accumulate over all calls. *)
Lemma chunks_buf cf (blk : Z -> Z) l : forall M fam, (forall s, In s l -> scheds cf s) -> seen M fam ->
  (forall s k, In s l -> (0 <= k < NS)%Z -> gblock batched (th s) k = blk k) ->
  forall b i, (0 <= i < n)%Z ->
  B_buf K (fold_left (chunkB cf) l M) (b * n + i)%Z = B_buf K M (b * n + i)%Z
     + sumf (filter (fun k => blk k =? b)%Z shots)
            (fun k => g_v K (fold_left (chunk1 k cf) l (fam k)) i - g_v K (fam k) i).
Proof.
  induction l as [|s l IH]; intros M fam Hs H Hb b i Hi; cbn [fold_left].
  - rewrite (sumf_zero K Kr); [ring|]. intros; ring.
  - destruct (chunk_step cf s M fam (Hs s (or_introl eq_refl)) H) as (S1 & S2 & _).
    rewrite (IH _ _ (fun s' h => Hs s' (or_intror h)) S1 (fun s' k h => Hb s' k (or_intror h)) b i Hi).
    rewrite S2 by exact Hi.
    assert (Ef : filter (fun k => gblock batched (th s) k =? b)%Z shots = filter (fun k => blk k =? b)%Z shots).
    { apply filter_ext_in. intros k Hk. apply In_zrange in Hk. rewrite (Hb s k (or_introl eq_refl) Hk). reflexivity. }
    rewrite Ef.
    set (L := filter _ _). set (A := sumf L _). set (B := sumf L _). set (C := sumf L _).
    assert (E : C = A + B).
    { unfold A, B, C. rewrite <- (sumf_add K Kr). apply sumf_ext. intros k _. ring. }
    rewrite E. ring.
Qed.

(** Sum over the blocks = sum over the shots. *)
Lemma sum_blocks (blk : Z -> Z) nb (x : Z -> K) : (forall k, (0 <= k < NS)%Z -> (0 <= blk k < nb)%Z) ->
  sumf (zrange 0 nb) (fun b => sumf (filter (fun k => blk k =? b)%Z shots) x) = sumf shots x.
Proof.
  intros Hb.
  rewrite (sumf_ext K _ _ (fun b => sumf shots (fun k => if (blk k =? b)%Z then x k else 0))).
  - rewrite (sumf_swap K Kr). apply sumf_ext. intros k Hk. apply In_zrange in Hk.
    rewrite (sumf_single K Kr _ (blk k)).
    + rewrite Z.eqb_refl. reflexivity.
    + apply NoDup_zrange.
    + apply In_zrange. auto.
    + intros b _ Hn. destruct (Z.eqb_spec (blk k) b); [congruence|reflexivity].
  - intros b _. rewrite (sumf_filter K Kr (fun k => blk k =? b)%Z shots (fun k => if (blk k =? b)%Z then x k else 0)).
    + apply sumf_ext. intros k Hk. apply filter_In in Hk. destruct Hk as [_ ->]. reflexivity.
    + intros k _ ->. reflexivity.
Qed.

Lemma fold_sum (l : list Z) (g : Z -> K) x : fold_left (fun a b => a + g b) l x = x + sumf l g.
Proof. revert x. induction l as [|y l IH]; intros x; cbn; [ring|]. rewrite IH. ring. Qed.

(** One call with a separate buffer. *)
Lemma chunk_combined cf s M fam : scheds cf s -> seen M fam -> separate batched vrg nthr = true ->
  (forall k, (0 <= k < NS)%Z -> (0 <= th s k < nthr)%Z) -> (forall j, B_buf K M j = 0) ->
  forall i, (0 <= i < n)%Z ->
  B_gv K (chunkB cf M s) i = B_gv K M i + sumf shots (fun k => g_v K (chunk1 k cf (fam k) s) i - g_v K (fam k) i).
Proof.
  intros Hs H Hsep Hth Hz i Hi. destruct (chunk_step cf s M fam Hs H) as (_ & C2 & C3).
  rewrite C3, Hsep. unfold combine_grad. destruct (Z.leb_spec 0 i); [|lia]. destruct (Z.ltb_spec i n); [|lia]. cbn [andb].
  rewrite fold_sum. f_equal.
  rewrite (sumf_ext K _ _ (fun b => sumf (filter (fun k => gblock batched (th s) k =? b)%Z shots)
     (fun k => g_v K (chunk1 k cf (fam k) s) i - g_v K (fam k) i))).
  - apply (sum_blocks (gblock batched (th s)) nthr (fun k => g_v K (chunk1 k cf (fam k) s) i - g_v K (fam k) i)).
    intros k Hk. unfold gblock. unfold separate in Hsep. destruct batched; [|auto].
    rewrite andb_false_r in Hsep. discriminate.
  - intros b _. rewrite C2 by exact Hi. rewrite Hz. ring.
Qed.

End Run.

Section User.
Variable K : ops.
Hypothesis Kr : is_ring K.
Add Ring KRing2 : Kr.
Variable P0 : par K.
Variable NS : Z.
Variables nsrc nrec : Z.
Variables srcs recs : Z -> Z.
Variable batched : bool.
Notation shape := (p_shape P0).
Notation n := (prodZ shape).
Notation SP := (shot_par K P0 nsrc nrec srcs recs).
Notation inint p := (interior K P0 p = true).
Notation shots := (zrange 0 NS).
Hypothesis Hnsrc : (0 <= nsrc)%Z.
Hypothesis Hnrec : (0 <= nrec)%Z.
Hypothesis Hsrc : forall j, (0 <= j < NS * nsrc)%Z -> (srcs j < n)%Z.
Hypothesis Hrec : forall j, (0 <= j < NS * nrec)%Z -> (recs j < n)%Z.
Variables (pw : nat -> Z * Z) (v : arr K) (store : Z -> arr K) (vrg : bool) (sr : Z) (gr : Z -> arr K).
Variables (vis : list (list Z * pt)) (nthr : Z) (th : Z -> Z -> Z) (sched : Z -> list (Z * action)).
Variables (nt : Z) (cb : option Z) (g : Z -> st K).
Hypothesis Hvis : forall reg p, In (reg, p) vis -> inint p.
Hypothesis Hs : bsched_ok NS vis sr nt cb sched.
Hypothesis Hsr : (0 < sr)%Z.

Notation batch := (batch_backward K P0 nsrc nrec srcs recs batched pw nthr th v store vrg sr gr nt cb sched g).
Notation single k := (scalar_backward K (SP k) pw (shot_v K P0 batched v k) vis (fun s => sh K P0 k (store s)) vrg sr
                        (fun t => row (gr t) nrec k) nt cb (g k)).

Lemma shot_v2 k : shot_v K P0 batched (fun i => v i * v i * p_dt2 P0) k =
  (fun i => shot_v K P0 batched v k i * shot_v K P0 batched v k i * p_dt2 (SP k)).
Proof. unfold shot_v. destruct batched; reflexivity. Qed.

Lemma seen_init : seen K P0 NS nsrc batched (batch_binit K P0 nsrc nrec srcs recs pw g) (fun k => bwd_init K (SP k) pw (g k)).
Proof.
  intros k Hk. split; cbn; intros; try (intros i Hi; rewrite (stack_sh K P0) by exact Hi; reflexivity).
  - apply (Forall2_eq). unfold row. rewrite map_map. reflexivity.
  - intros i Hi; reflexivity.
Qed.

(** Gradients of wavefields and source amplitudes: what the shot alone gives. *)
Lemma batch_backward_shot k : (0 <= k < NS)%Z ->
  match batch, single k with
  | Some (U, f, _), Some (U1, f1, _) => ueq K P0 (U k) U1 /\ (forall t, row (f t) nsrc k = f1 t)
  | None, None => True
  | _, _ => False
  end.
Proof.
  intros Hk. unfold batch_backward, scalar_backward, bwd_driver.
  set (N := (nt / sr)%Z). set (cf := match cb with Some c => c | None => N end).
  rewrite <- shot_v2.
  pose proof seen_init as H0. set (M0 := batch_binit _ _ _ _ _ _ _ _) in *. set (fam0 := fun k => bwd_init K (SP k) pw (g k)) in *.
  assert (Hout : forall M m, beqv K P0 (bview K P0 nsrc batched (fun _ => 0%Z) k M) m ->
     ueq K P0 (mkst K (crop K P0 (sh K P0 k (B_wfc K M))) (crop K P0 (sh K P0 k (B_wfp K M)))
                           (fun d => crop K P0 (sh K P0 k (B_psi K M d))) (fun d => crop K P0 (sh K P0 k (B_zeta K M d))))
              (mkst K (crop K (SP k) (g_wfc K m)) (crop K (SP k) (g_wfp K m))
                       (fun d => crop K (SP k) (g_psi K m d)) (fun d => crop K (SP k) (g_zeta K m d))) /\
     (forall t, row (B_f K M t) nsrc k = g_f K m t)).
  { intros M m [c1 c2 c3 c4 c5 c6 c7 c8]. split.
    - intros q Hq. pose proof (win_idx K P0 (topad K P0 q)) as W. apply In_upts in Hq. specialize (W Hq).
      cbn. split; [|split]; [apply c1; exact W|apply c2; exact W|]. intros d Hd.
      split; [apply (c3 d Hd); exact W|apply (c5 d Hd); exact W].
    - intros t. apply Forall2_eq. apply (c7 t I). }
  destruct (Z.leb_spec nt 0).
  { apply Hout. apply (seen_neg K P0 NS nsrc batched _ (fun k => neg_wfp K (fam0 k))); [|exact Hk].
    apply (seen_neg K P0 NS nsrc batched _ fam0). exact H0. }
  destruct (Z.eqb_spec cf 0); [exact I|]. apply Hout.
  apply (seen_neg K P0 NS nsrc batched _ (fun k => fold_left (bwd_chunk K (SP k) (shot_v K P0 batched (fun i => v i * v i * p_dt2 P0) k) vis
       (fun s => sh K P0 k (store s)) vrg sr (fun t => row (gr t) nrec k) cf) (range_down N cf) (neg_wfp K (fam0 k)))); [|exact Hk].
  apply (chunks_seen K Kr P0 NS nsrc nrec srcs recs batched Hnsrc Hnrec Hsrc Hrec); auto.
  - intros s _. apply Hs.
  - apply seen_neg. exact H0.
Qed.

Lemma neg_gv (m : bmem K) : g_v K (neg_wfp K m) = g_v K m.
Proof. reflexivity. Qed.

(** Model gradient, one block per shot or one block for all: sum over the shots of the
    block. *)
Lemma batch_gv_blocks (blk : Z -> Z) :
  separate batched vrg nthr = false ->
  (forall s k, (0 <= k < NS)%Z -> gblock batched (th s) k = blk k) ->
  forall (G1 : Z -> arr K),
  (forall k, (0 <= k < NS)%Z -> match single k with Some (_, _, gv1) => G1 k = gv1 | None => False end) ->
  forall U f gv, batch = Some (U, f, gv) ->
  forall b i, (0 <= i < n)%Z -> gv (b * n + i)%Z = sumf (filter (fun k => blk k =? b)%Z shots) (fun k => G1 k i).
Proof.
  intros Hsep Hblk G1 HG U f gv Hb b i Hi. revert Hb. unfold batch_backward.
  set (N := (nt / sr)%Z). set (cf := match cb with Some c => c | None => N end).
  rewrite Hsep. pose proof seen_init as H0. set (M0 := batch_binit _ _ _ _ _ _ _ _) in *.
  set (fam0 := fun k => bwd_init K (SP k) pw (g k)) in *.
  destruct (Z.leb_spec nt 0) as [Hn|Hn].
  { intros E. injection E as _ _ <-. cbn. symmetry. apply (sumf_zero K Kr). intros k Hk. apply filter_In in Hk.
    destruct Hk as [Hk _]. apply In_zrange in Hk. specialize (HG k Hk). unfold scalar_backward, bwd_driver in HG.
    destruct (Z.leb_spec nt 0); [|lia]. rewrite HG. reflexivity. }
  destruct (Z.eqb_spec cf 0) as [Hc|Hc]; [discriminate|]. intros E. injection E as _ _ <-. cbn [bneg B_buf].
  erewrite (chunks_buf K Kr P0 NS nsrc nrec srcs recs batched Hnsrc Hnrec Hsrc Hrec _ store vrg sr gr vis nthr th sched Hvis cf blk
     (range_down N cf) (bneg K M0) (fun k => neg_wfp K (fam0 k))); auto.
  - cbn [bneg B_buf]. change (B_buf K M0 (b * n + i)%Z) with (o0 K).
    rewrite (sumf_ext K _ _ (fun k => G1 k i)); [ring|]. intros k Hk. apply filter_In in Hk.
    destruct Hk as [Hk _]. apply In_zrange in Hk. specialize (HG k Hk). unfold scalar_backward, bwd_driver in HG.
    destruct (Z.leb_spec nt 0); [lia|]. fold N in HG. fold cf in HG. destruct (Z.eqb_spec cf 0); [contradiction|].
    rewrite <- shot_v2 in HG. rewrite HG. rewrite !neg_gv. unfold fam0. cbn. ring.
  - intros s _. apply Hs.
  - apply seen_neg. exact H0.
Qed.

(** Model gradient with a separate buffer and one call: sum over the shots. *)
Lemma batch_gv_separate :
  separate batched vrg nthr = true -> cb = None -> (0 < nt / sr)%Z ->
  (forall s k, (0 <= k < NS)%Z -> (0 <= th s k < nthr)%Z) ->
  forall (G1 : Z -> arr K),
  (forall k, (0 <= k < NS)%Z -> match single k with Some (_, _, gv1) => G1 k = gv1 | None => False end) ->
  forall U f gv, batch = Some (U, f, gv) ->
  forall i, (0 <= i < n)%Z -> gv i = sumf shots (fun k => G1 k i).
Proof.
  intros Hsep Hcb HN Hth G1 HG U f gv Hb i Hi. revert Hb. unfold batch_backward.
  rewrite Hcb in *. set (N := (nt / sr)%Z) in *.
  rewrite Hsep. pose proof seen_init as H0. set (M0 := batch_binit _ _ _ _ _ _ _ _) in *.
  set (fam0 := fun k => bwd_init K (SP k) pw (g k)) in *.
  destruct (Z.leb_spec nt 0) as [Hn|Hn].
  { exfalso. assert (N <= 0)%Z by (unfold N; apply Z.div_le_upper_bound; lia). lia. }
  destruct (Z.eqb_spec N 0) as [Hc|Hc]; [lia|]. intros E. injection E as _ _ <-. cbn [bneg B_gv].
  assert (ER : range_down N N = [N]) by (apply range_down_one; exact HN).
  rewrite ER. cbn [fold_left].
  erewrite (chunk_combined K Kr P0 NS nsrc nrec srcs recs batched Hnsrc Hnrec Hsrc Hrec _ store vrg sr gr vis nthr th sched Hvis N N
     (bneg K M0) (fun k => neg_wfp K (fam0 k))); auto.
  - cbn [bneg B_gv]. change (B_gv K M0 i) with (o0 K).
    rewrite (sumf_ext K _ _ (fun k => G1 k i)); [ring|]. intros k Hk.
    apply In_zrange in Hk. specialize (HG k Hk). unfold scalar_backward, bwd_driver in HG.
    destruct (Z.leb_spec nt 0); [lia|]. fold N in HG. destruct (Z.eqb_spec N 0); [lia|]. rewrite ER in HG. cbn [fold_left] in HG.
    rewrite <- shot_v2 in HG. rewrite HG. rewrite !neg_gv. unfold fam0. cbn. ring.
  - apply Hs.
  - apply seen_neg. exact H0.
Qed.

End User.
