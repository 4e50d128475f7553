(** * Memory safety of the staggered-grid kernels.

    As in [Safety.v]: elements outside an allocation are poisoned; every action of a call, in any order, leaves the
    allocated elements unpoisoned and equal to those of the run on unpoisoned memory.  Writes: everything outside the
    block of the shot is unchanged. *)
From Coq Require Import List ZArith QArith Lia Bool.
From Verif Require Import Ops Sums Grid Stencil ScalarModel ScalarRefine Param ShotsModel Shots Safety Stag StagAdj StagKernel StagCell
  StagRefine StagGrad StagParam StagShotsModel StagShots StagShotsRun StagShotsThm.
Import ListNotations.
Local Open Scope K_scope.

Section SSafe.
Variable S : sys.
Variable N : kern S.
Variable K : ops.
Variable P0 : spar S K.
Variable num : (kM N -> arr K) -> knum S N K.
Variable numO : (kM N -> arr (opt K)) -> knum S N (opt K).
Variable NS : Z.
Variables nsrc nrec : sC S -> Z.
Variables srcs recs : sC S -> Z -> Z.
Variable bt : kM N -> bool.
Variable cmb : Z -> bool.
Notation OK := (opt K).
Notation shape := (sp_shape P0).
Notation nd := (length shape).
Notation n := (prodZ shape).
Notation kvar := (svar (sX S) (sE S) (kQ N) (kM N)).
Notation cell := (grp S (kQ N) (kM N) * (list Z * pt))%type.

(** Profiles with one element per cell of their dimension; scalars. *)
Definition sgpar : spar S OK :=
  @mkspar S OK (sp_acc P0) (sp_shape P0) (fun d => Some (sp_rd P0 d))
    (fun h d => guard (nth d (sp_shape P0) 0%Z) (sp_a P0 h d)) (fun h d => guard (nth d (sp_shape P0) 0%Z) (sp_b P0 h d))
    (fun _ => []) (fun _ => []).
(** Models: one block, or one per shot. *)
Definition sgmd (md : kM N -> arr K) : kM N -> arr OK := fun q => guard ((if bt q then NS else 1) * prodZ (sp_shape P0)) (md q).
(** Amplitudes of [ntr] steps. *)
Definition sgrow (ntr : Z) (cnt : sC S -> Z) (f : Z -> sC S -> arr K) (t : Z) (c : sC S) : arr OK :=
  gfam ntr (NS * cnt c) (fun t => f t c) t.
(** Arrays: a block per shot; [nsn] snapshots; gradient buffers (if [gb]) with a block per shot or per thread. *)
Definition vsize (nthr : Z) (v : kvar) : Z := (match v with VG q => if bt q then NS else nthr | _ => NS end * prodZ (sp_shape P0))%Z.
Definition vlive (gb : bool) (nsn : Z) (v : kvar) : bool :=
  match v with VQ _ si => (0 <=? si)%Z && (si <? nsn)%Z | VG _ => gb | _ => true end.
Definition sgmem (gb : bool) (nthr nsn ntr : Z) (cnt : sC S -> Z) (G : gmem S N K) : gmem S N OK :=
  mkgmem S N OK (fun v => if vlive gb nsn v then guard (vsize nthr v) (G_m S N K G v) else fun _ => None)
    (sgrow ntr cnt (G_r S N K G)) (fun q => guard (prodZ (sp_shape P0)) (G_g S N K G q)).

(** Nothing poisoned: every allocated element equals that of the run on unpoisoned memory. *)
Definition sdefined (gb : bool) (nthr nsn ntr : Z) (cnt : sC S -> Z) (G : gmem S N K) (G' : gmem S N OK) : Prop :=
  (forall v j, vlive gb nsn v = true -> (0 <= j < vsize nthr v)%Z -> G_m S N OK G' v j = Some (G_m S N K G v j)) /\
  (forall t c j, (0 <= t < ntr)%Z -> (0 <= j < NS * cnt c)%Z -> G_r S N OK G' t c j = Some (G_r S N K G t c j)) /\
  (forall q j, (0 <= j < prodZ (sp_shape P0))%Z -> G_g S N OK G' q j = Some (G_g S N K G q j)).

Lemma sgmem_defined gb nthr nsn ntr cnt G : sdefined gb nthr nsn ntr cnt G (sgmem gb nthr nsn ntr cnt G).
Proof.
  split; [|split].
  - intros v j Hv Hj. cbn [G_m sgmem]. rewrite Hv. apply guard_in. exact Hj.
  - intros t c j Ht Hj. cbn [G_r sgmem]. exact (gfam_in ntr (NS * cnt c) (fun t => G_r S N K G t c) t j Ht Hj).
  - intros q j Hj. cbn [G_g sgmem]. apply guard_in. exact Hj.
Qed.

Hypothesis Hnum : forall md md', (forall q i, (0 <= i < n)%Z -> defd K (md q i) (md' q i)) -> numrel S N K OK (defd K) n (num md) (numO md').
Hypothesis Sok : sys_ok S nd.
Hypothesis Nok : kern_ok S N nd.
Hypothesis Hn : (0 <= n)%Z.
Hypothesis Hsl : forall c j, (0 <= j < NS * nsrc c)%Z -> (srcs c j < n)%Z.
Hypothesis Hrl : forall c j, (0 <= j < NS * nrec c)%Z -> (recs c j < n)%Z.
Notation SP := (sshot_par S K P0 nsrc nrec srcs recs).
Notation GP := (sshot_par S OK sgpar nsrc nrec srcs recs).

Lemma sgpar_rel k : sprel S K OK (defd K) (SP k) (GP k).
Proof. split; try reflexivity; cbn; intros; unfold defd; apply guard_in; assumption. Qed.

Lemma sh_src_lt k : (0 <= k < NS)%Z -> forall c, Forall (fun l => (l < n)%Z) (sp_src (SP k) c).
Proof. intros Hk c. apply Forall_forall. intros x Hx. apply row_In in Hx. destruct Hx as (j & Hj & ->). apply Hsl. nia. Qed.
Lemma sh_rec_lt k : (0 <= k < NS)%Z -> forall c, Forall (fun l => (l < n)%Z) (sp_rec (SP k) c).
Proof. intros Hk c. apply Forall_forall. intros x Hx. apply row_In in Hx. destruct Hx as (j & Hj & ->). apply Hrl. nia. Qed.

Lemma sgmd_rel md k : (0 <= k < NS)%Z -> forall q i, (0 <= i < n)%Z ->
  defd K (sshot_md S N K P0 bt md k q i) (sshot_md S N OK sgpar bt (sgmd md) k q i).
Proof.
  intros Hk q i Hi. unfold defd, sshot_md, sgmd, bsh. cbn [sp_shape sgpar]. destruct (bt q); apply guard_in; nia.
Qed.
Lemma sgrow_rel ntr cnt f k t c : (0 <= k < NS)%Z -> (0 <= t < ntr)%Z -> Forall2 (defd K) (row (f t c) (cnt c) k) (row (sgrow ntr cnt f t c) (cnt c) k).
Proof.
  intros Hk Ht. unfold sgrow, gfam. destruct (Z.leb_spec 0 t), (Z.ltb_spec t ntr); try lia. cbn [andb].
  apply (row_guard K NS (f t c)). exact Hk.
Qed.

Section Run.
Variable gb : bool.
Variables nthr nsn ntr : Z.
Variable cnt : sC S -> Z.
Variable blk : kM N -> Z -> Z.
Hypothesis Hblk : gb = true -> forall q k, (0 <= k < NS)%Z -> (0 <= blk q k < if bt q then NS else nthr)%Z.
Notation LW := (fun v => vlive gb nsn v = true).
Notation TW := (twin ntr).
Notation view := (gview S N K P0 cnt blk).
Notation viewO := (gview S N OK sgpar cnt blk).
Notation prr k := (prrel S N K OK (defd K) (SP k) LW TW).

Lemma view_defd k G G' : (0 <= k < NS)%Z -> sdefined gb nthr nsn ntr cnt G G' -> prr k (view k G) (viewO k G').
Proof.
  intros Hk (H1 & H2 & H3). split; cbn [gview fst snd].
  - intros v Hv i Hi. unfold defd, bsh. cbn [sp_shape sshot_par sgpar] in Hi |- *. apply H1; [exact Hv|].
    unfold vsize, vblk. destruct v; try nia. specialize (Hblk Hv m k Hk). destruct (bt m); nia.
  - intros t c Ht. unfold row. unfold twin in Ht.
    assert (Hj : forall j, In j (zrange 0 (cnt c)) -> (0 <= j < cnt c)%Z) by (intros j Hj; apply In_zrange in Hj; exact Hj).
    induction (zrange 0 (cnt c)) as [|j l IH]; cbn; constructor.
    + unfold defd. apply H2; [exact Ht|]. specialize (Hj j (or_introl eq_refl)). nia.
    + apply IH. intros x Hx. apply Hj. right. exact Hx.
Qed.

Lemma nth_defd l l' i : Forall2 (defd K) l l' -> nth i l' (Some 0) = Some (nth i l 0).
Proof. intros H. revert i. induction H as [|x y l l' Hx _ IH]; intros [|i]; cbn; auto. Qed.

(** One action: [a], [a'] are the memory of the shot after it. *)
Lemma put_defd k G G' a a' : (0 <= k < NS)%Z -> sdefined gb nthr nsn ntr cnt G G' -> prr k a a' ->
  (forall v j, ~ (0 <= j < n)%Z -> fst a v j = fst (view k G) v j) ->
  (forall v j, ~ (0 <= j < n)%Z -> fst a' v j = fst (viewO k G') v j) ->
  sdefined gb nthr nsn ntr cnt (gput S N K P0 cnt blk k a G) (gput S N OK sgpar cnt blk k a' G').
Proof.
  intros Hk (H1 & H2 & H3) [Ha Hr] F F'. split; [|split].
  - intros v j Hv Hj. cbn [gput G_m]. unfold bunsh. cbn [sp_shape sgpar].
    destruct (Z_le_dec 0 (j - vblk S N blk k v * n)) as [A|A]; [destruct (Z_lt_dec (j - vblk S N blk k v * n) n) as [B|B]|].
    + apply (Ha v Hv). cbn. lia.
    + rewrite F, F' by lia. cbn [gview fst]. unfold bsh. cbn [sp_shape sgpar].
      replace (vblk S N blk k v * n + (j - vblk S N blk k v * n))%Z with j by lia. apply H1; assumption.
    + rewrite F, F' by lia. cbn [gview fst]. unfold bsh. cbn [sp_shape sgpar].
      replace (vblk S N blk k v * n + (j - vblk S N blk k v * n))%Z with j by lia. apply H1; assumption.
  - intros t c j Ht Hj. cbn [gput G_r]. unfold put_row. destruct ((k * cnt c <=? j)%Z && (j <? k * cnt c + cnt c)%Z); [|apply H2; assumption].
    apply nth_defd. apply Hr. exact Ht.
  - exact H3.
Qed.
End Run.

(** ** Forward *)

Section F.
Variables nsn ntr : Z.
Notation own := (own S N).
Variables (md : kM N -> arr K) (fq : kQ N -> bool) (sr : Z) (f : Z -> sC S -> arr K).
Notation gb := false.
Notation prr k := (prrel S N K OK (defd K) (SP k) (fun v => vlive gb nsn v = true) (twin ntr)).
Notation actK k := (sfact S N K (SP k) (num (sshot_md S N K P0 bt md k)) fq sr (fun t c => row (f t c) (nsrc c) k)).
Notation actO k := (sfact S N OK (GP k) (numO (sshot_md S N OK sgpar bt (sgmd md) k)) fq sr (fun t c => row (sgrow ntr nsrc f t c) (nsrc c) k)).

Lemma sfact_defd k a a' x : (0 <= k < NS)%Z -> saok S N K P0 x -> (0 <= stime S N x < ntr)%Z -> prr k a a' -> prr k (actK k a x) (actO k a' x).
Proof.
  intros Hk Hx Ht [Hm Hr]. pose proof (Hnum _ _ (sgmd_rel md k Hk)) as HU.
  destruct x as [A t|A t c|A t]; cbn [sfact]; split; cbn [fst snd]; auto.
  - apply kput_rel; [exact Hr|]. intros c o1 o2 _ Ho.
    apply (k_rec_rel S N K OK (defd K) (defd_ops K) (SP k) (fun v => vlive gb nsn v = true) (fun _ => eq_refl)); auto. apply sh_rec_lt. exact Hk.
  - apply (f_cell_rel S N K OK (defd K) (defd_ops K) (SP k) (GP k) (sgpar_rel k) _ _ HU Sok Nok
      (fun v => vlive gb nsn v = true) (fun _ => eq_refl) (fun _ => eq_refl) A); auto.
  - apply (fold_rel S N K OK (defd K) (SP k) (fun v => vlive gb nsn v = true)); [|exact Hm]. intros.
    apply (k_add_rel S N K OK (defd K) (defd_ops K) (SP k) (fun v => vlive gb nsn v = true) (fun _ => eq_refl)); auto.
    + apply sh_src_lt. exact Hk.
    + apply sgrow_rel; [exact Hk|]. cbn [stime] in Ht. exact Ht.
Qed.

Lemma sfexec_defd G G' k x : (0 <= k < NS)%Z -> saok S N K P0 x -> (0 <= stime S N x < ntr)%Z -> sdefined false 0 nsn ntr nrec G G' ->
  sdefined false 0 nsn ntr nrec (sfexec S N K P0 num nsrc nrec srcs recs bt md fq sr f G (k, x))
    (sfexec S N OK sgpar numO nsrc nrec srcs recs bt (sgmd md) fq sr (sgrow ntr nsrc f) G' (k, x)).
Proof.
  intros Hk Hx Ht HG.
  assert (Hb : false = true -> forall q k, (0 <= k < NS)%Z -> (0 <= own q k < if bt q then NS else 0)%Z) by discriminate.
  unfold sfexec. cbn [fst snd]. apply put_defd; auto.
  - apply sfact_defd; auto. apply (view_defd false 0); auto.
  - intros v j Hj. apply (sfact_frame S N K (SP k) (num (sshot_md S N K P0 bt md k))); auto. apply sh_src_lt. exact Hk.
  - intros v j Hj. apply (sfact_frame S N OK (GP k) (numO (sshot_md S N OK sgpar bt (sgmd md) k))); auto. apply sh_src_lt. exact Hk.
Qed.

(** Any sequence of actions of one call. *)
Lemma sfexec_all visA visB nt s0 l : (forall c, In c visA -> cellok S N K P0 true c) -> (forall c, In c visB -> cellok S N K P0 false c) ->
  (0 <= s0)%Z -> (s0 + nt <= ntr)%Z -> (forall k x, In (k, x) l -> (0 <= k < NS)%Z /\ In x (sfprog S N visA visB nt s0)) ->
  forall G G', sdefined false 0 nsn ntr nrec G G' ->
  sdefined false 0 nsn ntr nrec (fold_left (sfexec S N K P0 num nsrc nrec srcs recs bt md fq sr f) l G)
    (fold_left (sfexec S N OK sgpar numO nsrc nrec srcs recs bt (sgmd md) fq sr (sgrow ntr nsrc f)) l G').
Proof.
  intros HA HB Hs Hnt. induction l as [|[k x] l IH]; intros Hl G G' HG; [exact HG|]. cbn [fold_left].
  apply IH; [intros; apply Hl; right; assumption|]. destruct (Hl k x (or_introl eq_refl)) as [Hk Hx].
  apply sfexec_defd; auto.
  - apply (sfprog_aok S N K P0 visA visB nt s0); assumption.
  - unfold sfprog in Hx. apply in_flat_map in Hx. destruct Hx as (t & Ht & Hx). apply In_zrange in Ht. rewrite !in_app_iff, !in_map_iff in Hx.
    destruct Hx as [[<-|[]]|[(c & <- & Hc)|[[<-|[]]|[(c & <- & Hc)|[<-|[]]]]]]; cbn [stime]; lia.
Qed.
End F.

(** ** Backward *)

Section B.
Variables nthr nsn ntr : Z.
Variables (md : kM N -> arr K) (fm : kM N -> bool) (sr : Z) (gr : Z -> sC S -> arr K) (s0 : Z).
Variable th : Z -> Z.
Hypothesis Hsr : (0 < sr)%Z.
Hypothesis Hth : forall k, (0 <= k < NS)%Z -> (0 <= th k < nthr)%Z.
Hypothesis Hsn : (ntr <= nsn * sr)%Z.
Notation LW := (fun v => vlive true nsn v = true).
Notation prr k := (prrel S N K OK (defd K) (SP k) LW (twin ntr)).
Notation actK k := (sbact S N K (SP k) (num (sshot_md S N K P0 bt md k)) fm sr (fun t c => row (gr t c) (nrec c) k) s0).
Notation actO k := (sbact S N OK (GP k) (numO (sshot_md S N OK sgpar bt (sgmd md) k)) fm sr (fun t c => row (sgrow ntr nrec gr t c) (nrec c) k) s0).

Lemma sbact_defd k a a' x : (0 <= k < NS)%Z -> saok S N K P0 x -> (0 <= stime S N x < ntr)%Z -> prr k a a' -> prr k (actK k a x) (actO k a' x).
Proof.
  intros Hk Hx Ht Ha. pose proof (Hnum _ _ (sgmd_rel md k Hk)) as HU.
  assert (HQ : forall q, vlive true nsn (VQ q (stime S N x / sr)%Z) = true).
  { intros q. cbn [vlive]. apply andb_true_iff. rewrite Z.leb_le, Z.ltb_lt. split; [apply Z.div_pos; lia|apply Z.div_lt_upper_bound; lia]. }
  assert (B : forall b b', prr k b b' ->
    prr k (sbody S N K (SP k) (num (sshot_md S N K P0 bt md k)) fm sr (fun t c => row (gr t c) (nrec c) k) b x)
          (sbody S N OK (GP k) (numO (sshot_md S N OK sgpar bt (sgmd md) k)) fm sr (fun t c => row (sgrow ntr nrec gr t c) (nrec c) k) b' x)).
  { intros b b' [Hm Hr]. destruct x as [A t|A t c|A t]; cbn [sbody stime] in *; split; cbn [fst snd]; auto.
    - apply kput_rel; [exact Hr|]. intros c o1 o2 _ Ho.
      apply (k_rec_rel S N K OK (defd K) (defd_ops K) (SP k) LW (fun _ => eq_refl)); auto. apply sh_src_lt. exact Hk.
    - destruct A.
      + apply (bA_cell_rel S N K OK (defd K) (defd_ops K) (SP k) (GP k) (sgpar_rel k) _ _ HU Sok Nok LW (fun _ => eq_refl) (fun _ => eq_refl) true); auto.
      + apply (bB_cell_rel S N K OK (defd K) (defd_ops K) (SP k) (GP k) (sgpar_rel k) _ _ HU Sok Nok LW (fun _ => eq_refl) (fun _ => eq_refl) false); auto.
    - apply (fold_rel S N K OK (defd K) (SP k) LW); [|exact Hm]. intros.
      apply (k_add_rel S N K OK (defd K) (defd_ops K) (SP k) LW (fun _ => eq_refl)); auto.
      + apply sh_rec_lt. exact Hk.
      + apply sgrow_rel; [exact Hk|exact Ht]. }
  rewrite !sact_eq. destruct (Z.odd _); [|apply B; exact Ha].
  apply (mswap_rel S N K OK (defd K) (SP k) LW (fun _ => eq_refl) (fun _ => eq_refl)). apply B.
  apply (mswap_rel S N K OK (defd K) (SP k) LW (fun _ => eq_refl) (fun _ => eq_refl)). exact Ha.
Qed.

Lemma sbexec_defd G G' k x : (0 <= k < NS)%Z -> saok S N K P0 x -> (0 <= stime S N x < ntr)%Z -> sdefined true nthr nsn ntr nsrc G G' ->
  sdefined true nthr nsn ntr nsrc (sbexec S N K P0 num nsrc nrec srcs recs bt th md fm sr gr s0 G (k, x))
    (sbexec S N OK sgpar numO nsrc nrec srcs recs bt th (sgmd md) fm sr (sgrow ntr nrec gr) s0 G' (k, x)).
Proof.
  intros Hk Hx Ht HG.
  assert (Hb : true = true -> forall q k, (0 <= k < NS)%Z -> (0 <= sblk S N bt th q k < if bt q then NS else nthr)%Z).
  { intros _ q k' Hk'. unfold sblk. destruct (bt q); [exact Hk'|apply Hth; exact Hk']. }
  unfold sbexec. cbn [fst snd]. apply put_defd; auto.
  - apply sbact_defd; auto. apply (view_defd true nthr); auto.
  - intros v j Hj. apply (sbact_frame S N K (SP k) (num (sshot_md S N K P0 bt md k))); auto. apply sh_rec_lt. exact Hk.
  - intros v j Hj. apply (sbact_frame S N OK (GP k) (numO (sshot_md S N OK sgpar bt (sgmd md) k))); auto. apply sh_rec_lt. exact Hk.
Qed.

Lemma sbexec_all visA visB nt l : (forall c, In c visA -> cellok S N K P0 true c) -> (forall c, In c visB -> cellok S N K P0 false c) ->
  (nt <= s0)%Z -> (s0 <= ntr)%Z -> (forall k x, In (k, x) l -> (0 <= k < NS)%Z /\ In x (sbprog S N visA visB nt s0)) ->
  forall G G', sdefined true nthr nsn ntr nsrc G G' ->
  sdefined true nthr nsn ntr nsrc (fold_left (sbexec S N K P0 num nsrc nrec srcs recs bt th md fm sr gr s0) l G)
    (fold_left (sbexec S N OK sgpar numO nsrc nrec srcs recs bt th (sgmd md) fm sr (sgrow ntr nrec gr) s0) l G').
Proof.
  intros HA HB Hs Hnt. induction l as [|[k x] l IH]; intros Hl G G' HG; [exact HG|]. cbn [fold_left].
  apply IH; [intros; apply Hl; right; assumption|]. destruct (Hl k x (or_introl eq_refl)) as [Hk Hx].
  apply sbexec_defd; auto.
  - apply (sbprog_aok S N K P0 s0 visA visB nt); assumption.
  - unfold sbprog in Hx. apply in_flat_map in Hx. destruct Hx as (t & Ht & Hx). apply in_rev, In_zrange in Ht. rewrite !in_app_iff, !in_map_iff in Hx.
    destruct Hx as [[<-|[]]|[(c & <- & Hc)|[[<-|[]]|[(c & <- & Hc)|[<-|[]]]]]]; cbn [stime]; lia.
Qed.
End B.

Lemma fold_defd buf buf' th l g g' i :
  (forall t, In t l -> buf' (t * n + i)%Z = Some (buf (t * n + i)%Z)) -> g' = Some g ->
  fold_left (fun x t => oadd OK x (buf' (t * n + i)%Z)) l g' = Some (fold_left (fun x t => oadd K x (buf (t * n + i)%Z)) l g) \/ th = 0%Z.
Proof.
  intros H Hg. left. revert g g' Hg. induction l as [|t l IH]; intros g g' ->; [reflexivity|]. cbn [fold_left].
  apply IH; [intros; apply H; right; assumption|]. rewrite H by (left; reflexivity). reflexivity.
Qed.

(** A whole call of the compiled backward function, with the sum over the threads. *)
Lemma sbchunk_defd nthr nsn ntr md fm sr gr sched cf th visA visB s G G' :
  (forall c, In c visA -> cellok S N K P0 true c) -> (forall c, In c visB -> cellok S N K P0 false c) ->
  (0 < sr)%Z -> (0 <= cf)%Z -> (0 <= s)%Z -> (s * sr <= ntr)%Z -> (ntr <= nsn * sr)%Z ->
  (forall k, (0 <= k < NS)%Z -> (0 <= th s k < nthr)%Z) ->
  (forall k x, In (k, x) (sched s) -> (0 <= k < NS)%Z /\ In x (sbprog S N visA visB (Z.min s cf * sr) (s * sr))) ->
  sdefined true nthr nsn ntr nsrc G G' ->
  sdefined true nthr nsn ntr nsrc (sbatch_bchunk S N K P0 num nsrc nrec srcs recs bt cmb nthr th md fm sr gr sched cf G s)
    (sbatch_bchunk S N OK sgpar numO nsrc nrec srcs recs bt cmb nthr th (sgmd md) fm sr (sgrow ntr nrec gr) sched cf G' s).
Proof.
  intros HA HB Hsr Hcf Hs Hnt Hsn Hth Hl HG. unfold sbatch_bchunk.
  pose proof (sbexec_all nthr nsn ntr md fm sr gr (s * sr)%Z (th s) Hsr Hth Hsn visA visB (Z.min s cf * sr)%Z (sched s) HA HB ltac:(nia) Hnt Hl G G' HG) as H.
  set (G1 := fold_left (sbexec S N K P0 num nsrc nrec srcs recs bt (th s) md fm sr gr (s * sr)) (sched s) G) in *.
  set (G1' := fold_left (sbexec S N OK sgpar numO nsrc nrec srcs recs bt (th s) (sgmd md) fm sr (sgrow ntr nrec gr) (s * sr)) (sched s) G') in *.
  destruct H as (H1 & H2 & H3).
  assert (C : forall q j, (0 <= j < n)%Z ->
    (if sseparate S N bt fm nthr q then scombine S OK sgpar cmb nthr (G_m S N OK G1' (VG q)) (G_g S N OK G1' q) else G_g S N OK G1' q) j =
    Some ((if sseparate S N bt fm nthr q then scombine S K P0 cmb nthr (G_m S N K G1 (VG q)) (G_g S N K G1 q) else G_g S N K G1 q) j)).
  { intros q j Hj. destruct (sseparate S N bt fm nthr q) eqn:E; [|apply H3; exact Hj]. unfold scombine. cbn [sp_shape sgpar].
    destruct ((0 <=? j)%Z && (j <? n)%Z && cmb j); [|apply H3; exact Hj].
    unfold sseparate in E. apply andb_true_iff in E. destruct E as [E _]. apply andb_true_iff in E. destruct E as [_ E].
    destruct (bt q) eqn:Eb; [discriminate E|].
    destruct (fold_defd (G_m S N K G1 (VG q)) (G_m S N OK G1' (VG q)) 1 (zrange 0 nthr) (G_g S N K G1 q j) (G_g S N OK G1' q j) j) as [X|X];
      [|apply H3; exact Hj|exact X|discriminate X].
    intros t Ht. apply In_zrange in Ht. apply (H1 (VG q)); [reflexivity|]. unfold vsize. rewrite Eb. nia. }
  destruct (_ =? 0)%Z; split; cbn [G_m G_r G_g].
  - exact H1.
  - split; [exact H2|exact C].
  - intros v j Hv Hj. destruct v; cbn [kswap]; try (apply H1; assumption); destruct (eA S e); apply H1; auto.
  - split; [exact H2|exact C].
Qed.

(** ** Writes *)

Notation frame := (frame S N K P0).
Lemma g_same (G : gmem S N K) blk k v j (a : kmem S N K * (Z -> sC S -> list K)) : (forall w i, ~ (0 <= i < n)%Z -> fst a w i = G_m S N K G w (vblk S N blk k w * n + i)%Z) ->
  ~ (vblk S N blk k v * n <= j < vblk S N blk k v * n + n)%Z -> bunsh n (vblk S N blk k v) (fst a v) j = G_m S N K G v j.
Proof. intros H Hj. unfold bunsh. rewrite H by lia. f_equal. lia. Qed.

(** Arrays of snapshots: only those of the step; gradient buffers: not in the forward kernel. *)
Lemma fold_other {A} (w : kvar) (h : kmem S N K -> A -> kmem S N K) l : (forall m a, In a l -> h m a w = m w) -> forall m, fold_left h l m w = m w.
Proof.
  induction l as [|a l IH]; intros H m; [reflexivity|]. cbn [fold_left]. rewrite IH by (intros; apply H; right; assumption).
  apply H. left. reflexivity.
Qed.
Lemma setm_other m v i x w : w <> v -> setm S N K m v i x w = m w.
Proof. intros H. unfold setm. destruct (kvar_dec S N w v); [contradiction|reflexivity]. Qed.
Lemma seta_other m v a w : w <> v -> seta S N K m v a w = m w.
Proof. intros H. unfold seta. destruct (kvar_dec S N w v); [contradiction|reflexivity]. Qed.
Lemma k_add_other locs am c m w : (forall x, w <> VX x) -> k_add S N K locs am m c w = m w.
Proof. intros H. unfold k_add. apply fold_other. intros. apply seta_other. apply H. Qed.

Lemma sfact_other (P : spar S K) U fq sr f a x w :
  match w with VQ _ si => si <> (stime S N x / sr)%Z | VG _ => True | VN _ => True | _ => False end ->
  fst (sfact S N K P U fq sr f a x) w = fst a w.
Proof.
  intros H. assert (HX : forall x, w <> VX x) by (intros y ->; exact H). assert (HM : forall x, w <> VM x) by (intros y ->; exact H).
  destruct x as [A t|A t c|A t]; cbn [sfact fst stime] in *; [reflexivity| |].
  - destruct c as [g [reg p]]. unfold f_cell.
    assert (E : forall l T m, snd (fold_left (f_term S N K P reg p) l (T, m)) w = m w).
    { induction l as [|e l IH]; intros T m; [reflexivity|]. cbn [fold_left]. destruct (f_term S N K P reg p (T, m) e) as [T' m'] eqn:E.
      rewrite IH. unfold f_term in E. destruct (_ =? 1)%Z; injection E as _ <-; [reflexivity|]. apply setm_other, HM. }
    specialize (E (g_E g) (fun _ => 0) (fst a)). destruct (fold_left _ _ _) as [T m1]. cbn [snd] in E.
    rewrite fold_other by (intros; apply setm_other, HX). rewrite fold_other; [exact E|].
    intros m q _. destruct (_ && _); [|reflexivity]. apply setm_other. intros ->. contradiction.
  - apply fold_other. intros. apply k_add_other, HX.
Qed.

Lemma sbact_Q (P : spar S K) U fm sr gr s0 a x q si : fst (sbact S N K P U fm sr gr s0 a x) (VQ q si) = fst a (VQ q si).
Proof.
  assert (B : forall b, fst (sbody S N K P U fm sr gr b x) (VQ q si) = fst b (VQ q si)).
  { intros b. destruct x as [A t|A t c|A t]; cbn [sbody fst]; [reflexivity| |].
    - destruct c as [g [reg p]].
      assert (E1 : forall fm' r i l m, fold_left (b_grad S N K U fm' r si i) l m (VQ q si) = m (VQ q si)).
      { intros. apply fold_other. intros m' a' _. unfold b_grad. destruct (fm' a'); [apply setm_other; discriminate|reflexivity]. }
      destruct A; [unfold bA_cell|unfold bB_cell].
      + rewrite fold_other by (intros m a' _; unfold b_grad; destruct (_ && _); [apply setm_other; discriminate|reflexivity]).
        rewrite fold_other by (intros m a' _; unfold b_mem; destruct (_ && _); [reflexivity|apply setm_other; discriminate]).
        apply fold_other. intros. apply setm_other. discriminate.
      + rewrite fold_other by (intros; apply setm_other; discriminate).
        rewrite fold_other by (intros m a' _; unfold b_mem; destruct (_ && _); [reflexivity|apply setm_other; discriminate]).
        apply fold_other. intros m a' _. unfold b_grad. destruct (_ && _); [apply setm_other; discriminate|reflexivity].
    - apply fold_other. intros. apply k_add_other. discriminate. }
  rewrite sact_eq. destruct (Z.odd _); [|apply B]. cbn [mswap fst kswap]. rewrite B. reflexivity.
Qed.

Lemma row_same (l : list K) cnt k (a : arr K) j : l = row a cnt k -> put_row K l cnt k a j = a j.
Proof.
  intros ->. unfold put_row. destruct (Z.leb_spec (k * cnt) j), (Z.ltb_spec j (k * cnt + cnt)); cbn [andb]; try reflexivity.
  rewrite row_nth by lia. f_equal. lia.
Qed.

Lemma sf_writes md fq sr f G k x : (0 <= k < NS)%Z -> saok S N K P0 x ->
  let G' := sfexec S N K P0 num nsrc nrec srcs recs bt md fq sr f G (k, x) in
  (forall v j, ~ (k * n <= j < k * n + n)%Z -> G_m S N K G' v j = G_m S N K G v j) /\
  (forall q si j, si <> (stime S N x / sr)%Z -> G_m S N K G' (VQ q si) j = G_m S N K G (VQ q si) j) /\
  (forall e j, G_m S N K G' (VN e) j = G_m S N K G (VN e) j) /\ (forall q j, G_m S N K G' (VG q) j = G_m S N K G (VG q) j) /\
  (forall t c j, t <> stime S N x \/ ~ (k * nrec c <= j < k * nrec c + nrec c)%Z -> G_r S N K G' t c j = G_r S N K G t c j) /\
  G_g S N K G' = G_g S N K G.
Proof.
  intros Hk Hx G'.
  assert (V : forall v, vblk S N (own S N) k v = k) by (intros []; reflexivity).
  assert (F : forall w i, ~ (0 <= i < n)%Z -> fst (sfact S N K (SP k) (num (sshot_md S N K P0 bt md k)) fq sr (fun t c => row (f t c) (nsrc c) k)
      (gview S N K P0 nrec (own S N) k G) x) w i = G_m S N K G w (vblk S N (own S N) k w * n + i)%Z).
  { intros w i Hi. rewrite (sfact_frame S N K (SP k) (num (sshot_md S N K P0 bt md k)) (sh_src_lt k Hk) fq sr _ _ x Hx w i Hi). reflexivity. }
  assert (O : forall w, match w with VQ _ si => si <> (stime S N x / sr)%Z | VG _ => True | VN _ => True | _ => False end ->
     forall j, G_m S N K G' w j = G_m S N K G w j).
  { intros w Hw j. unfold G', sfexec. cbn [fst snd gput G_m]. rewrite sfact_other by exact Hw. cbn [gview fst]. unfold bunsh, bsh. f_equal. lia. }
  split; [|split; [|split; [|split; [|split]]]].
  - intros v j Hj. apply (g_same G (own S N) k v j _ F). rewrite V. exact Hj.
  - intros q si j Hq. apply (O (VQ q si)). exact Hq.
  - intros e j. apply (O (VN e)). exact I.
  - intros q j. apply (O (VG q)). exact I.
  - intros t c j Hc. unfold G', sfexec. cbn [fst snd gput G_r]. destruct Hc as [Hc|Hc].
    + apply row_same. destruct x as [A u|A u c'|A u]; cbn [sfact snd gview stime] in *; try reflexivity.
      unfold kput. destruct (Z.eqb_spec t u); [contradiction|reflexivity].
    + unfold put_row. destruct (Z.leb_spec (k * nrec c) j), (Z.ltb_spec j (k * nrec c + nrec c)); cbn [andb]; try reflexivity. exfalso. lia.
  - reflexivity.
Qed.

Lemma sb_writes (th : Z -> Z) md fm sr gr s0 G k x : (0 <= k < NS)%Z -> saok S N K P0 x ->
  let G' := sbexec S N K P0 num nsrc nrec srcs recs bt th md fm sr gr s0 G (k, x) in
  (forall v j, ~ (vblk S N (sblk S N bt th) k v * n <= j < vblk S N (sblk S N bt th) k v * n + n)%Z -> G_m S N K G' v j = G_m S N K G v j) /\
  (forall q si j, G_m S N K G' (VQ q si) j = G_m S N K G (VQ q si) j) /\
  (forall t c j, t <> stime S N x \/ ~ (k * nsrc c <= j < k * nsrc c + nsrc c)%Z -> G_r S N K G' t c j = G_r S N K G t c j) /\
  G_g S N K G' = G_g S N K G.
Proof.
  intros Hk Hx G'.
  split; [|split; [|split]].
  - intros v j Hj. refine (g_same G (sblk S N bt th) k v j _ _ Hj). intros w i Hi.
    rewrite (sbact_frame S N K (SP k) (num (sshot_md S N K P0 bt md k)) (sh_rec_lt k Hk) fm sr _ _ _ x Hx w i Hi). reflexivity.
  - intros q si j. unfold G', sbexec. cbn [fst snd gput G_m]. rewrite sbact_Q. cbn [gview fst]. unfold bunsh, bsh. f_equal. lia.
  - intros t c j Hc. unfold G', sbexec. cbn [fst snd gput G_r]. destruct Hc as [Hc|Hc].
    + apply row_same.
      assert (B : forall a, t <> stime S N x -> snd (sbody S N K (SP k) (num (sshot_md S N K P0 bt md k)) fm sr (fun t c => row (gr t c) (nrec c) k) a x) t c = snd a t c).
      { intros a Ht. destruct x as [A u|A u c'|A u]; cbn [sbody snd stime] in *; try reflexivity.
        unfold kput. destruct (Z.eqb_spec t u); [contradiction|reflexivity]. }
      rewrite sact_eq. destruct (Z.odd _); [cbn [mswap snd]|]; rewrite B by exact Hc; reflexivity.
    + unfold put_row. destruct (Z.leb_spec (k * nsrc c) j), (Z.ltb_spec j (k * nsrc c + nsrc c)); cbn [andb]; try reflexivity. exfalso. lia.
  - reflexivity.
Qed.
End SSafe.
