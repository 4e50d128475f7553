(** * Runs of a batch of shots of a staggered-grid propagator: calls, threads, blocks of the gradient buffers. *)
From Coq Require Import List ZArith QArith Lia Bool Ring Permutation.
From Verif Require Import Ops Sums Grid Stencil ScalarModel ScalarRefine Param ShotsModel Shots ShotsRun Stag StagAdj StagKernel StagCell
  StagParam StagShotsModel StagShots.
Import ListNotations.
Local Open Scope K_scope.

Section SRun.
Variable S : sys.
Variable N : kern S.
Variable K : ops.
Hypothesis Kr : is_ring K.
Add Ring KRing : Kr.
Variable P0 : spar S K.
Variable num : (kM N -> arr K) -> knum S N K.
Variable NS : Z.
Variables nsrc nrec : sC S -> Z.
Variables srcs recs : sC S -> Z -> Z.
Variable bt : kM N -> bool.
Variable cmb : Z -> bool.
Notation shape := (sp_shape P0).
Notation n := (prodZ shape).
Notation nd := (length shape).
Notation SP := (sshot_par S K P0 nsrc nrec srcs recs).
Notation cell := (grp S (kQ N) (kM N) * (list Z * pt))%type.
Notation mem := (kmem S N K * krec S K)%type.
Notation shots := (zrange 0 NS).
Notation win := (win S K P0).
Notation nonG := (nonG S N).
Notation allv := (allv S N).
Notation peq := (peq S N K P0).
Hypothesis HU : forall md, numrel S N K K eq n (num md) (num md).
Hypothesis Sok : sys_ok S nd.
Hypothesis Nok : kern_ok S N nd.
Hypothesis Hnsrc : forall c, (0 <= nsrc c)%Z.
Hypothesis Hnrec : forall c, (0 <= nrec c)%Z.
Hypothesis Hsrc : forall c j, (0 <= j < NS * nsrc c)%Z -> (srcs c j < n)%Z.
Hypothesis Hrec : forall c j, (0 <= j < NS * nrec c)%Z -> (recs c j < n)%Z.
Variable md : kM N -> arr K.
Variables visA visB : list cell.
Hypothesis VA : forall c, In c visA -> cellok S N K P0 true c.
Hypothesis VB : forall c, In c visB -> cellok S N K P0 false c.
Notation vk k := (num (sshot_md S N K P0 bt md k)).

Lemma SPsrc k : (0 <= k < NS)%Z -> forall c, Forall (fun l => (l < n)%Z) (sp_src (SP k) c).
Proof. intros Hk c. apply Forall_forall. intros x Hx. apply row_In in Hx. destruct Hx as (j & Hj & ->). apply Hsrc. nia. Qed.
Lemma SPrec k : (0 <= k < NS)%Z -> forall c, Forall (fun l => (l < n)%Z) (sp_rec (SP k) c).
Proof. intros Hk c. apply Forall_forall. intros x Hx. apply row_In in Hx. destruct Hx as (j & Hj & ->). apply Hrec. nia. Qed.

(** What every shot sees, gradients aside. *)
Definition sseen (cnt : sC S -> Z) (G : gmem S N K) (fam : Z -> mem) : Prop :=
  forall k, (0 <= k < NS)%Z -> peq nonG (gview S N K P0 cnt (own S N) k G) (fam k).

Lemma view_blk cnt b1 b2 k G : peq nonG (gview S N K P0 cnt b1 k G) (gview S N K P0 cnt b2 k G).
Proof. split; [|reflexivity]. intros v i Hv Hi. destruct v; try reflexivity. contradiction. Qed.

Lemma sseen_init pw store u cnt locs : 
  (forall k c, length (locs k c) = length (row (fun _ => 0%Z) (cnt c) k)) ->
  sseen cnt (sbatch_init S N K P0 nsrc nrec srcs recs pw store u)
    (fun k => (k_init S N K (SP k) pw (fun q si => bsh n k (store q si)) (u k), k_rec0 S K (locs k))).
Proof.
  intros Hl k Hk. split.
  - intros v i Hv Hi. cbn [gview sbatch_init fst snd G_m]. destruct v; cbn [vblk]; try (rewrite bsh_bstack by exact Hi; reflexivity). reflexivity.
  - intros t c. cbn [gview sbatch_init fst snd G_r]. unfold k_rec0. specialize (Hl k c).
    assert (E : forall (A B : Type) (l1 : list A) (l2 : list B), length l1 = length l2 -> map (fun _ => 0 : K) l1 = map (fun _ => 0 : K) l2).
    { intros A B l1. induction l1; intros [|] HH; try discriminate; [reflexivity|]. cbn. f_equal. apply IHl1. injection HH. auto. }
    unfold row. apply E. rewrite Hl. unfold row. rewrite map_length. reflexivity.
Qed.

(** ** Forward *)
Section Fwd.
Variables (fq : kQ N -> bool) (sr : Z) (f : Z -> sC S -> arr K).
Notation fk k := (fun t c => row (f t c) (nsrc c) k).
Notation run1 k := (k_forward S N K (SP k) (vk k) visA visB fq sr (fk k)).

Lemma fcall nt s0 l G fam : interleaves NS (fun _ => sfprog S N visA visB nt s0) l -> sseen nrec G fam ->
  sseen nrec (fold_left (sfexec S N K P0 num nsrc nrec srcs recs bt md fq sr f) l G) (fun k => run1 k nt s0 (fam k)).
Proof.
  intros Hl H.
  pose proof (batch_acall S N K Kr P0 NS nrec Hnrec (own S N) (fun k => sfact S N K (SP k) (vk k) fq sr (fk k)) (saok S N K P0)) as X.
  destruct (X (fun W k a b x HW Hk Hx Hab => sfact_local S N K (SP k) (vk k) (HU _) Sok Nok (SPsrc k Hk) (SPrec k Hk) fq sr (fk k) W a b x HW Hx Hab)
     (fun k a x Hk Hx => sfact_frame S N K (SP k) (vk k) (SPsrc k Hk) fq sr (fk k) a x Hx)
     (fun k a x Ha Hk => sfact_len S N K (SP k) (vk k) fq sr (fk k) _ a x (fun c => row_length (recs c) (nrec c) k (Hnrec c)) Ha)
     (fun k a x Hk Hx q i Hi => sfact_add S N K Kr (SP k) (vk k) fq sr (fk k) a x q i)
     (sfprog S N visA visB nt s0) l G fam (fun x Hx => sfprog_aok S N K P0 visA visB nt s0 x VA VB Hx) Hl H) as [Y _].
  intros k Hk. specialize (Y k Hk). cbv beta in Y. rewrite sfprog_forward in Y. exact Y.
Qed.

Lemma batch_forward_shot pw nt cb sched store u k :
  sfsched_ok S N NS visA visB sr nt cb sched -> (0 <= k < NS)%Z ->
  match sbatch_forward S N K P0 num nsrc nrec srcs recs bt pw md fq sr f nt cb sched store u,
        k_fwd S N K (SP k) (vk k) pw visA visB fq sr (fk k) nt cb (fun q si => bsh n k (store q si)) (u k) with
  | Some (U, R, St), Some (U1, R1, St1) =>
      (forall x p, mn (U k) x p = mn U1 x p) /\ (forall e p, me (U k) e p = me U1 e p) /\
      (forall t c, row (R t c) (nrec c) k = R1 t c) /\
      (forall q si i, win i -> St q si (k * n + i)%Z = St1 q si i)
  | None, None => True
  | _, _ => False
  end.
Proof.
  intros Hs Hk. unfold sbatch_forward, k_fwd.
  pose proof (sseen_init pw store u nrec (fun k => sp_rec (SP k)) ltac:(intros; cbn; unfold row; rewrite !map_length; reflexivity)) as H0.
  set (G0 := sbatch_init _ _ _ _ _ _ _ _ _ _ _) in *.
  set (fam0 := fun k => (k_init S N K (SP k) pw (fun q si => bsh n k (store q si)) (u k), k_rec0 S K (sp_rec (SP k)))) in *.
  assert (Hout : forall G fam, sseen nrec G fam ->
     (forall x p, mn (sbatch_out S N K P0 G k) x p = mn (k_out S N K (SP k) (fst (fam k))) x p) /\
     (forall e p, me (sbatch_out S N K P0 G k) e p = me (k_out S N K (SP k) (fst (fam k))) e p) /\
     (forall t c, row (G_r S N K G t c) (nrec c) k = snd (fam k) t c) /\
     (forall q si i, win i -> G_m S N K G (VQ q si) (k * n + i)%Z = fst (fam k) (VQ q si) i)).
  { intros G fam H. destruct (H k Hk) as [H1 H2].
    assert (Hw : forall p, crop S K P0 p = true -> win (idx shape p)).
    { intros p Hp. exact (cell_idx S K P0 _ _ Hp). }
    split; [|split; [|split]].
    - intros x p. change ((if crop S K P0 p then bsh n k (G_m S N K G (VX x)) (idx shape p) else 0) = (if crop S K P0 p then fst (fam k) (VX x) (idx shape p) else 0)).
      destruct (crop S K P0 p) eqn:E; [|reflexivity]. apply (H1 (VX x) _ I (Hw p E)).
    - intros x p. change ((if crop S K P0 p then bsh n k (G_m S N K G (VM x)) (idx shape p) else 0) = (if crop S K P0 p then fst (fam k) (VM x) (idx shape p) else 0)).
      destruct (crop S K P0 p) eqn:E; [|reflexivity]. apply (H1 (VM x) _ I (Hw p E)).
    - exact H2.
    - intros q si i Hi. apply (H1 (VQ q si) i I Hi). }
  destruct (Z.leb_spec nt 0).
  { apply (Hout G0 fam0 H0). }
  destruct (Z.eqb_spec (k_cf nt sr cb) 0); [exact I|].
  set (chunk := fun k mr s => k_forward S N K (SP k) (vk k) visA visB fq sr (fk k) (Z.min (nt / sr - s) (k_cf nt sr cb) * sr) (s * sr) mr).
  assert (X : forall l G fam, sseen nrec G fam ->
     sseen nrec (fold_left (fun G s => fold_left (sfexec S N K P0 num nsrc nrec srcs recs bt md fq sr f) (sched s) G) l G)
       (fun k => fold_left (chunk k) l (fam k))).
  { induction l as [|s l IH]; intros G fam H2; [exact H2|]. cbn [fold_left].
    apply IH with (fam := fun k => chunk k (fam k) s). apply fcall; [apply Hs|exact H2]. }
  apply (Hout _ (fun k => fold_left (chunk k) (range_up (nt / sr) (k_cf nt sr cb)) (fam0 k)) (X _ G0 fam0 H0)).
Qed.
End Fwd.

(** ** Backward *)
Section Bwd.
Variables (fm : kM N -> bool) (sr : Z) (gr : Z -> sC S -> arr K) (nthr : Z) (th : Z -> Z -> Z) (sched : Z -> list (Z * sact cell)).
Notation grk k := (fun t c => row (gr t c) (nrec c) k).
Notation chunk1 k cf := (b_chunk S N K (SP k) (vk k) visA visB fm sr (grk k) cf).
Notation chunkB cf := (sbatch_bchunk S N K P0 num nsrc nrec srcs recs bt cmb nthr th md fm sr gr sched cf).
Notation sep := (sseparate S N bt fm nthr).

Definition bscheds (cf s : Z) : Prop :=
  interleaves NS (fun _ => sbprog S N visA visB (Z.min s cf * sr) (s * sr)) (sched s).

Lemma bcall thr s0 nt l G fam : interleaves NS (fun _ => sbprog S N visA visB nt s0) l -> sseen nsrc G fam ->
  let G' := fold_left (sbexec S N K P0 num nsrc nrec srcs recs bt thr md fm sr gr s0) l G in
  let fam' := fun k => k_backward S N K (SP k) (vk k) visA visB fm sr (grk k) nt s0 (fam k) in
  sseen nsrc G' fam' /\
  (forall q b i, win i -> G_m S N K G' (VG q) (b * n + i)%Z = G_m S N K G (VG q) (b * n + i)%Z
     + sumf (filter (fun k => sblk S N bt thr q k =? b)%Z shots) (fun k => fst (fam' k) (VG q) i - fst (fam k) (VG q) i)).
Proof.
  intros Hl H G' fam'.
  pose proof (batch_acall S N K Kr P0 NS nsrc Hnsrc (sblk S N bt thr) (fun k => sbact S N K (SP k) (vk k) fm sr (grk k) s0) (saok S N K P0)) as X.
  destruct (X (fun W k a b x HW Hk Hx Hab => sbact_local S N K (SP k) (vk k) (HU _) Sok Nok (SPsrc k Hk) (SPrec k Hk) fm sr (grk k) s0 W a b x HW Hx Hab)
     (fun k a x Hk Hx => sbact_frame S N K (SP k) (vk k) (SPrec k Hk) fm sr (grk k) s0 a x Hx)
     (fun k a x Ha Hk => sbact_len S N K (SP k) (vk k) fm sr (grk k) s0 _ a x (fun c => row_length (srcs c) (nsrc c) k (Hnsrc c)) Ha)
     (fun k a x Hk Hx q i Hi => sbact_add S N K Kr (SP k) (vk k) (HU _) Sok Nok (SPrec k Hk) fm sr (grk k) s0 a x Hx q i Hi)
     (sbprog S N visA visB nt s0) l G fam (fun x Hx => sbprog_aok S N K P0 s0 visA visB nt x VA VB Hx) Hl) as [Y1 Y2].
  { intros k Hk. eapply peq_trans; [apply view_blk|apply H; exact Hk]. }
  assert (Z : forall k, (0 <= k < NS)%Z -> peq allv (fold_left (sbact S N K (SP k) (vk k) fm sr (grk k) s0) (sbprog S N visA visB nt s0) (fam k)) (fam' k)).
  { intros k Hk. exact (sbprog_backward S N K (SP k) (vk k) (HU _) Sok Nok (SPsrc k Hk) (SPrec k Hk) fm sr (grk k) s0 visA visB nt (fam k) VA VB). }
  split.
  - intros k Hk. eapply peq_trans; [apply (view_blk nsrc (own S N) (sblk S N bt thr))|].
    eapply peq_trans; [exact (Y1 k Hk)|]. apply peq_nonG. apply Z. exact Hk.
  - intros q b i Hi. eapply eq_trans; [exact (Y2 q b i Hi)|]. f_equal. apply sumf_ext. intros k Hk. apply filter_In in Hk.
    destruct Hk as [Hk _]. apply In_zrange in Hk. destruct (Z k Hk) as [Z1 _]. rewrite (Z1 (VG q) i I Hi). reflexivity.
Qed.

Lemma sseen_swap G fam g : sseen nsrc G fam -> sseen nsrc (mkgmem S N K (kswap S N K (G_m S N K G)) (G_r S N K G) g) (fun k => mswap S N K (fam k)).
Proof.
  intros H k Hk. eapply peq_trans; [|apply (peq_swap S N K P0 nonG); [left; reflexivity|exact (H k Hk)]].
  split; [|reflexivity]. intros v i Hv Hi. cbn [gview mswap fst G_m]. destruct v; cbn [kswap vblk]; try reflexivity; destruct (eA S e); reflexivity.
Qed.

Lemma chunk_step cf s G fam : bscheds cf s -> sseen nsrc G fam ->
  let G' := chunkB cf G s in let fam' := fun k => chunk1 k cf (fam k) s in
  sseen nsrc G' fam' /\
  (forall q b i, win i -> G_m S N K G' (VG q) (b * n + i)%Z = G_m S N K G (VG q) (b * n + i)%Z
     + sumf (filter (fun k => sblk S N bt (th s) q k =? b)%Z shots) (fun k => fst (fam' k) (VG q) i - fst (fam k) (VG q) i)) /\
  (forall q, G_g S N K G' q = if sep q then scombine S K P0 cmb nthr (G_m S N K G' (VG q)) (G_g S N K G q) else G_g S N K G q).
Proof.
  intros Hs H G' fam'. destruct (bcall (th s) (s * sr)%Z (Z.min s cf * sr)%Z (sched s) G fam Hs H) as [C1 C2].
  set (G1 := fold_left _ _ _) in *.
  set (fam1 := fun k => k_backward S N K (SP k) (vk k) visA visB fm sr (grk k) (Z.min s cf * sr) (s * sr) (fam k)) in *.
  assert (Eg : forall k q, fst (fam' k) (VG q) = fst (fam1 k) (VG q)).
  { intros k q. unfold fam', b_chunk. destruct (_ =? 0)%Z; reflexivity. }
  assert (Eb : forall q, G_m S N K G' (VG q) = G_m S N K G1 (VG q)).
  { intros q. unfold G', sbatch_bchunk. fold G1. destruct (_ =? 0)%Z; reflexivity. }
  split; [|split].
  - unfold G', sbatch_bchunk, fam', b_chunk. fold G1. destruct (_ =? 0)%Z.
    + exact C1.
    + apply (sseen_swap _ fam1). exact C1.
  - intros q b i Hi. rewrite Eb, C2 by exact Hi. f_equal. apply sumf_ext. intros k _. rewrite Eg. reflexivity.
  - intros q. rewrite Eb.
    assert (E : G_g S N K G1 = G_g S N K G).
    { apply (aexec_g S N K P0 nsrc (sblk S N bt (th s)) (fun k => sbact S N K (SP k) (vk k) fm sr (grk k) (s * sr)%Z)). }
    unfold G', sbatch_bchunk. fold G1. destruct (_ =? 0)%Z; cbn; rewrite E; reflexivity.
Qed.

Lemma chunks_seen cf l : forall G fam, (forall s, In s l -> bscheds cf s) -> sseen nsrc G fam ->
  sseen nsrc (fold_left (chunkB cf) l G) (fun k => fold_left (chunk1 k cf) l (fam k)).
Proof.
  induction l as [|s l IH]; intros G fam Hs H; [exact H|]. cbn [fold_left].
  apply IH with (fam := fun k => chunk1 k cf (fam k) s); [intros; apply Hs; right; assumption|].
  apply chunk_step; [apply Hs; left; reflexivity|exact H].
Qed.

(** If every shot keeps its block, the blocks accumulate over all calls. *)
Lemma chunks_buf cf q (blk : Z -> Z) l : forall G fam, (forall s, In s l -> bscheds cf s) -> sseen nsrc G fam ->
  (forall s k, In s l -> (0 <= k < NS)%Z -> sblk S N bt (th s) q k = blk k) ->
  forall b i, win i ->
  G_m S N K (fold_left (chunkB cf) l G) (VG q) (b * n + i)%Z = G_m S N K G (VG q) (b * n + i)%Z
     + sumf (filter (fun k => blk k =? b)%Z shots)
            (fun k => fst (fold_left (chunk1 k cf) l (fam k)) (VG q) i - fst (fam k) (VG q) i).
Proof.
  induction l as [|s l IH]; intros G fam Hs H Hb b i Hi; cbn [fold_left].
  - rewrite (sumf_zero K Kr); [ring|]. intros; ring.
  - destruct (chunk_step cf s G fam (Hs s (or_introl eq_refl)) H) as (S1 & S2 & _).
    rewrite (IH _ _ (fun s' h => Hs s' (or_intror h)) S1 (fun s' k h => Hb s' k (or_intror h)) b i Hi).
    rewrite S2 by exact Hi.
    assert (Ef : filter (fun k => sblk S N bt (th s) q k =? b)%Z shots = filter (fun k => blk k =? b)%Z shots).
    { apply filter_ext_in. intros k Hk. apply In_zrange in Hk. rewrite (Hb s k (or_introl eq_refl) Hk). reflexivity. }
    rewrite Ef.
    set (L := filter _ _). set (A := sumf L _). set (B := sumf L _). set (C := sumf L _).
    assert (E : C = A + B).
    { unfold A, B, C. rewrite <- (sumf_add K Kr). apply sumf_ext. intros k _. ring. }
    rewrite E. ring.
Qed.

(** One call with a separate buffer. *)
Lemma chunk_combined cf s G fam q : bscheds cf s -> sseen nsrc G fam -> sep q = true ->
  (forall k, (0 <= k < NS)%Z -> (0 <= th s k < nthr)%Z) -> (forall j, G_m S N K G (VG q) j = 0) ->
  forall i, win i -> cmb i = true ->
  G_g S N K (chunkB cf G s) q i = G_g S N K G q i + sumf shots (fun k => fst (chunk1 k cf (fam k) s) (VG q) i - fst (fam k) (VG q) i).
Proof.
  intros Hs H Hsep Hth Hz i Hi Hci. destruct (chunk_step cf s G fam Hs H) as (_ & C2 & C3).
  rewrite C3, Hsep. unfold scombine, StagShots.win in *. destruct (Z.leb_spec 0 i); [|lia]. destruct (Z.ltb_spec i n); [|lia]. rewrite Hci. cbn [andb].
  rewrite (ShotsRun.fold_sum K Kr). f_equal.
  rewrite (sumf_ext K _ _ (fun b => sumf (filter (fun k => sblk S N bt (th s) q k =? b)%Z shots)
     (fun k => fst (chunk1 k cf (fam k) s) (VG q) i - fst (fam k) (VG q) i))).
  - apply (sum_blocks K Kr NS (sblk S N bt (th s) q) nthr (fun k => fst (chunk1 k cf (fam k) s) (VG q) i - fst (fam k) (VG q) i)).
    intros k Hk. unfold sblk. unfold sseparate in Hsep. destruct (bt q); [|auto].
    rewrite andb_false_r in Hsep. discriminate.
  - intros b _. rewrite C2 by exact Hi. rewrite Hz. ring.
Qed.
(** Cells not visited by the sum over threads keep their value. *)
Lemma chunk_skipped cf s G q i : cmb i = false -> G_g S N K (chunkB cf G s) q i = G_g S N K G q i.
Proof.
  intros Hc.
  assert (E : G_g S N K (chunkB cf G s) q i = (if sep q then scombine S K P0 cmb nthr (G_m S N K (fold_left (sbexec S N K P0 num nsrc nrec srcs recs bt (th s) md fm sr gr (s * sr)) (sched s) G) (VG q)) (G_g S N K G q) else G_g S N K G q) i).
  { assert (E : G_g S N K (fold_left (sbexec S N K P0 num nsrc nrec srcs recs bt (th s) md fm sr gr (s * sr)) (sched s) G) = G_g S N K G).
    { apply (aexec_g S N K P0 nsrc (sblk S N bt (th s)) (fun k => sbact S N K (SP k) (vk k) fm sr (grk k) (s * sr)%Z)). }
    unfold sbatch_bchunk. destruct (_ =? 0)%Z; cbn [G_g G_m]; rewrite E; reflexivity. }
  rewrite E. destruct (sep q); [|reflexivity]. unfold scombine. rewrite Hc, andb_false_r. reflexivity.
Qed.

Section User.
Variables (pw : nat -> Z * Z) (nt : Z) (cb : option Z) (store : kQ N -> Z -> arr K) (g : Z -> sst S K).
Hypothesis Hs : sbsched_ok S N NS visA visB sr nt cb sched.
Notation batch := (sbatch_backward S N K P0 num nsrc nrec srcs recs bt cmb pw nthr th md fm sr gr nt cb sched store g).
Notation single k := (k_bwd S N K (SP k) (vk k) pw visA visB fm sr (grk k) nt cb (fun q si => bsh n k (store q si)) (g k)).
Notation G0 := (sbatch_init S N K P0 nsrc nrec srcs recs pw store g).
Notation fam0 := (fun k => (k_init S N K (SP k) pw (fun q si => bsh n k (store q si)) (g k), k_rec0 S K (sp_src (SP k)))).

Lemma bseen_init : sseen nsrc G0 fam0.
Proof.
  apply (sseen_init pw store g nsrc (fun k => sp_src (SP k))).
  intros; cbn; unfold row; rewrite !map_length; reflexivity.
Qed.

Lemma batch_backward_shot k : (0 <= k < NS)%Z ->
  match batch, single k with
  | Some (U, f, _), Some (U1, f1, _) =>
      (forall x p, mn (U k) x p = mn U1 x p) /\ (forall e p, me (U k) e p = me U1 e p) /\
      (forall t c, row (f t c) (nsrc c) k = f1 t c)
  | None, None => True
  | _, _ => False
  end.
Proof.
  intros Hk. unfold sbatch_backward, k_bwd.
  assert (Hout : forall G fam, sseen nsrc G fam ->
     (forall x p, mn (sbatch_out S N K P0 G k) x p = mn (k_out S N K (SP k) (fst (fam k))) x p) /\
     (forall e p, me (sbatch_out S N K P0 G k) e p = me (k_out S N K (SP k) (fst (fam k))) e p) /\
     (forall t c, row (G_r S N K G t c) (nsrc c) k = snd (fam k) t c)).
  { intros G fam H. destruct (H k Hk) as [H1 H2].
    assert (Hw : forall p, crop S K P0 p = true -> win (idx shape p)).
    { intros p Hp. exact (cell_idx S K P0 _ _ Hp). }
    split; [|split].
    - intros x p. change ((if crop S K P0 p then bsh n k (G_m S N K G (VX x)) (idx shape p) else 0) = (if crop S K P0 p then fst (fam k) (VX x) (idx shape p) else 0)).
      destruct (crop S K P0 p) eqn:E; [|reflexivity]. apply (H1 (VX x) _ I (Hw p E)).
    - intros x p. change ((if crop S K P0 p then bsh n k (G_m S N K G (VM x)) (idx shape p) else 0) = (if crop S K P0 p then fst (fam k) (VM x) (idx shape p) else 0)).
      destruct (crop S K P0 p) eqn:E; [|reflexivity]. apply (H1 (VM x) _ I (Hw p E)).
    - exact H2. }
  destruct (Z.leb_spec nt 0).
  { apply (Hout _ fam0 bseen_init). }
  destruct (Z.eqb_spec (k_cf nt sr cb) 0); [exact I|].
  apply (Hout _ (fun k => fold_left (chunk1 k (k_cf nt sr cb)) (range_down (nt / sr) (k_cf nt sr cb)) (fam0 k))
    (chunks_seen (k_cf nt sr cb) (range_down (nt / sr) (k_cf nt sr cb)) _ fam0 (fun s _ => Hs s) bseen_init)).
Qed.

(** Gradient of a model without separate buffer: sum over the shots of a block. *)
Lemma batch_gm_blocks q (blk : Z -> Z) : sep q = false ->
  (forall s k, (0 <= k < NS)%Z -> sblk S N bt (th s) q k = blk k) ->
  forall (G1 : Z -> arr K),
  (forall k, (0 <= k < NS)%Z -> match single k with Some (_, _, gm1) => G1 k = gm1 q | None => False end) ->
  forall U f gm, batch = Some (U, f, gm) ->
  forall b i, win i -> gm q (b * n + i)%Z = sumf (filter (fun k => blk k =? b)%Z shots) (fun k => G1 k i).
Proof.
  intros Hsep Hblk G1 HG U f gm Hb b i Hi. revert Hb. unfold sbatch_backward.
  pose proof bseen_init as H0.
  destruct (Z.leb_spec nt 0) as [Hn|Hn].
  { intros E. injection E as _ _ <-. cbv beta. rewrite Hsep. cbn [sbatch_init G_m]. unfold bstack. cbn [k_init]. symmetry. apply (sumf_zero K Kr). intros k Hk.
    apply filter_In in Hk. destruct Hk as [Hk _]. apply In_zrange in Hk. specialize (HG k Hk). unfold k_bwd in HG.
    destruct (Z.leb_spec nt 0); [|lia]. rewrite HG. reflexivity. }
  destruct (Z.eqb_spec (k_cf nt sr cb) 0) as [Hc|Hc]; [discriminate|]. intros E. injection E as _ _ <-. cbv beta. rewrite Hsep.
  rewrite (chunks_buf (k_cf nt sr cb) q blk (range_down (nt / sr) (k_cf nt sr cb)) G0 fam0 (fun s _ => Hs s) H0 (fun s k _ Hk => Hblk s k Hk) b i Hi).
  change (G_m S N K G0 (VG q) (b * n + i)%Z) with (o0 K).
  rewrite (sumf_ext K _ _ (fun k => G1 k i)); [ring|]. intros k Hk. apply filter_In in Hk.
  destruct Hk as [Hk _]. apply In_zrange in Hk. specialize (HG k Hk). unfold k_bwd in HG.
  destruct (Z.leb_spec nt 0); [lia|]. destruct (Z.eqb_spec (k_cf nt sr cb) 0); [contradiction|].
  rewrite HG. cbn [fst k_init]. ring.
Qed.

(** With a separate buffer and one call: sum over the shots. *)
Lemma batch_gm_separate q : sep q = true -> cb = None -> (0 < sr)%Z -> (0 < nt / sr)%Z ->
  (forall s k, (0 <= k < NS)%Z -> (0 <= th s k < nthr)%Z) ->
  forall (G1 : Z -> arr K),
  (forall k, (0 <= k < NS)%Z -> match single k with Some (_, _, gm1) => G1 k = gm1 q | None => False end) ->
  (forall k i, (0 <= k < NS)%Z -> win i -> cmb i = false -> G1 k i = 0) ->
  forall U f gm, batch = Some (U, f, gm) ->
  forall i, win i -> gm q i = sumf shots (fun k => G1 k i).
Proof.
  intros Hsep Hcb Hsr HN Hth G1 HG HG0 U f gm Hb i Hi. revert Hb. unfold sbatch_backward.
  assert (HG' : forall k, (0 <= k < NS)%Z -> G1 k = fst (chunk1 k (nt / sr)%Z (fam0 k) (nt / sr)%Z) (VG q)).
  { intros k Hk. specialize (HG k Hk). unfold k_bwd in HG. rewrite Hcb in HG. cbn [k_cf] in HG.
    destruct (Z.leb_spec nt 0).
    - assert (nt / sr <= 0)%Z by (apply Z.div_le_upper_bound; lia). lia.
    - destruct (Z.eqb_spec (nt / sr) 0); [lia|]. rewrite range_down_one in HG by exact HN. exact HG. }
  pose proof bseen_init as H0. pose proof (Hs (nt / sr)%Z) as Hs1. rewrite Hcb in *. cbn [k_cf] in *.
  destruct (Z.leb_spec nt 0).
  { assert (nt / sr <= 0)%Z by (apply Z.div_le_upper_bound; lia). lia. }
  destruct (Z.eqb_spec (nt / sr) 0); [lia|]. intros E. injection E as _ _ <-. cbv beta. rewrite Hsep.
  rewrite range_down_one by exact HN. cbn [fold_left]. destruct (cmb i) eqn:Ec.
  - rewrite (chunk_combined (nt / sr)%Z (nt / sr)%Z G0 fam0 q Hs1 H0 Hsep (Hth _) (fun j => eq_refl) i Hi Ec).
    change (G_g S N K G0 q i) with (o0 K).
    rewrite (sumf_ext K _ _ (fun k => G1 k i)); [ring|]. intros k Hk.
    apply In_zrange in Hk. rewrite (HG' k Hk). cbn [fst k_init]. ring.
  - rewrite chunk_skipped by exact Ec. change (G_g S N K G0 q i) with (o0 K). symmetry. apply (sumf_zero K Kr). intros k Hk.
    apply In_zrange in Hk. apply HG0; auto.
Qed.
End User.
End Bwd.
End SRun.
