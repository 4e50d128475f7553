(** * A batch of shots gives what the shots give one by one. *)
From Coq Require Import List ZArith QArith Lia Bool Ring.
From Verif Require Import Ops Sums Grid Stencil ScalarModel ScalarRefine ScalarForward ScalarBackward ScalarFunc Param ShotsModel.
Import ListNotations.
Local Open Scope K_scope.

Lemma zrange_length lo hi : length (zrange lo hi) = Z.to_nat (hi - lo).
Proof. unfold zrange. rewrite map_length, seq_length. reflexivity. Qed.

Lemma nth_zrange lo hi i d : (Z.of_nat i < hi - lo)%Z -> nth i (zrange lo hi) d = (lo + Z.of_nat i)%Z.
Proof.
  intros H. unfold zrange. rewrite (nth_indep _ d (lo + Z.of_nat 0)%Z) by (rewrite map_length, seq_length; lia).
  rewrite (map_nth (fun i => lo + Z.of_nat i)%Z). rewrite seq_nth by lia. reflexivity.
Qed.

(** ** Interleavings *)

Section Interleave.
Context {G L A : Type}.
Variable exec : G -> Z * A -> G.       (* on the global memory *)
Variable act : Z -> L -> A -> L.       (* on the memory of one shot *)
Variable inv : G -> (Z -> L) -> Prop.
Definition fset (fam : Z -> L) (k : Z) (x : L) : Z -> L := fun j => if (j =? k)%Z then x else fam j.

(** If [inv] is kept by every action, it is kept by every interleaving. *)
Lemma interleave_inv l : forall g fam,
  (forall g fam k a, In (k, a) l -> inv g fam -> inv (exec g (k, a)) (fset fam k (act k (fam k) a))) ->
  (forall g fam fam', (forall k, fam k = fam' k) -> inv g fam -> inv g fam') ->
  inv g fam ->
  inv (fold_left exec l g) (fun k => fold_left (act k) (map snd (filter (fun x => fst x =? k)%Z l)) (fam k)).
Proof.
  induction l as [|[k a] l IH]; intros g fam Hs He Hi; cbn [fold_left filter].
  - exact Hi.
  - eapply He; [|apply IH with (fam := fset fam k (act k (fam k) a))].
    + intros j. cbn [fst]. unfold fset. destruct (Z.eqb_spec j k) as [->|Hn].
      * rewrite Z.eqb_refl. reflexivity.
      * destruct (Z.eqb_spec k j); [congruence|]. reflexivity.
    + intros. apply Hs; auto. right; assumption.
    + exact He.
    + apply Hs; [left; reflexivity|exact Hi].
Qed.
End Interleave.

Section Shots.
Variable K : ops.
Hypothesis Kr : is_ring K.
Add Ring KRing : Kr.
Variable P0 : par K.
Variable NS : Z.
Variables nsrc nrec : Z.
Variables srcs recs : Z -> Z.
Variable batched : bool.
Notation shape := (p_shape P0).
Notation nd := (length shape).
Notation n := (prodZ shape).
Notation SP := (shot_par K P0 nsrc nrec srcs recs).
Notation inint p := (interior K P0 p = true).
Notation row' := (@row K).

Hypothesis Hnsrc : (0 <= nsrc)%Z.
Hypothesis Hnrec : (0 <= nrec)%Z.
Hypothesis Hsrc : forall j, (0 <= j < NS * nsrc)%Z -> (srcs j < n)%Z.
Hypothesis Hrec : forall j, (0 <= j < NS * nrec)%Z -> (recs j < n)%Z.

Lemma row_length {A} (a : Z -> A) c k : (0 <= c)%Z -> length (row a c k) = Z.to_nat c.
Proof. intros. unfold row. rewrite map_length, zrange_length. f_equal; lia. Qed.

Lemma row_In {A} (a : Z -> A) c k x : In x (row a c k) -> exists j, (0 <= j < c)%Z /\ x = a (k * c + j)%Z.
Proof. intros H. apply in_map_iff in H. destruct H as (j & <- & Hj). apply In_zrange in Hj. exists j. auto. Qed.

Lemma row_ext {A} (a b : Z -> A) c k : (forall j, (0 <= j < c)%Z -> a (k * c + j)%Z = b (k * c + j)%Z) -> row a c k = row b c k.
Proof. intros H. apply map_ext_in. intros j Hj. apply In_zrange in Hj. auto. Qed.

Lemma row_nth {A} (a : Z -> A) c k j x0 : (0 <= j < c)%Z -> nth (Z.to_nat j) (row a c k) x0 = a (k * c + j)%Z.
Proof.
  intros Hj. unfold row. rewrite (nth_indep _ x0 (a (k * c + 0)%Z)) by (rewrite map_length, zrange_length; lia).
  rewrite (map_nth (fun j => a (k * c + j)%Z)). f_equal. f_equal. rewrite nth_zrange by lia. lia.
Qed.

Lemma row_put l c k a : length l = Z.to_nat c -> row (put_row K l c k a) c k = l.
Proof.
  intros Hl. apply (nth_ext _ _ 0 0).
  - unfold row. rewrite map_length, zrange_length. rewrite Hl. f_equal; lia.
  - intros i Hi. unfold row in Hi. rewrite map_length, zrange_length in Hi.
    replace i with (Z.to_nat (Z.of_nat i)) at 1 by lia. rewrite row_nth by lia. unfold put_row.
    destruct (Z.leb_spec (k * c) (k * c + Z.of_nat i)); [|lia].
    destruct (Z.ltb_spec (k * c + Z.of_nat i) (k * c + c)); [|lia]. cbn [andb]. f_equal. lia.
Qed.

Lemma row_put_other l c k k' a : k <> k' -> row (put_row K l c k a) c k' = row a c k'.
Proof.
  intros Hk. apply row_ext. intros j Hj. unfold put_row.
  destruct (Z.leb_spec (k * c) (k' * c + j)); [|reflexivity].
  destruct (Z.ltb_spec (k' * c + j) (k * c + c)); [|reflexivity]. exfalso. apply Hk. nia.
Qed.

Lemma sh_unsh k a i : sh K P0 k (unsh K P0 k a) i = a i.
Proof. unfold sh, unsh. f_equal. lia. Qed.

(** Outside of its window shot [k] leaves the arrays alone: shot [k'] sees no change. *)
Lemma sh_unsh_other k k' a b i : k <> k' -> (0 <= i < n)%Z ->
  (forall j, ~ (0 <= j < n)%Z -> a j = sh K P0 k b j) ->
  sh K P0 k' (unsh K P0 k a) i = sh K P0 k' b i.
Proof.
  intros Hk Hi H. unfold sh, unsh. rewrite H.
  - unfold sh. f_equal. lia.
  - intros Hc. apply Hk. nia.
Qed.

Lemma SP_src k : (0 <= k < NS)%Z -> Forall (fun l => (l < n)%Z) (p_src (SP k)).
Proof. intros Hk. apply Forall_forall. intros x Hx. apply row_In in Hx. destruct Hx as (j & Hj & ->). apply Hsrc. nia. Qed.
Lemma SP_rec k : (0 <= k < NS)%Z -> Forall (fun l => (l < n)%Z) (p_rec (SP k)).
Proof. intros Hk. apply Forall_forall. intros x Hx. apply row_In in Hx. destruct Hx as (j & Hj & ->). apply Hrec. nia. Qed.

Lemma prel_refl P : prel K K eq P P.
Proof. split; intros; reflexivity. Qed.

Notation ceq P := (crel K K eq P (fun _ => True) (fun _ => True)).
Notation TT := (fun _ : Z => True).

Lemma Forall2_eq {A} (l1 l2 : list A) : Forall2 eq l1 l2 <-> l1 = l2.
Proof.
  split; [|intros ->; induction l2; auto].
  induction 1; congruence.
Qed.

Lemma ceq_SP k m1 m2 : ceq P0 m1 m2 <-> ceq (SP k) m1 m2.
Proof. split; intros []; split; assumption. Qed.

(** ** Forward *)

Section Fwd.
Variables (v : arr K) (vrg : bool) (sr : Z) (f : Z -> arr K) (s0 : Z).
Notation fk k := (fun t => row (f t) nsrc k).
Notation vk k := (shot_v K P0 batched v k).
Notation act := (fun k m a => fact K (SP k) (vk k) vrg sr (fk k) s0 m a).
Notation exec := (fexec K P0 nsrc nrec srcs recs batched v vrg sr f s0).
Notation view := (fview K P0 nrec).

Definition aok (a : action) : Prop := match a with Cell _ (_, p) => inint p | Fin _ => True end.

(** Every action is local ... *)
Lemma fact_local k m1 m2 a : (0 <= k < NS)%Z -> aok a -> ceq P0 m1 m2 -> ceq P0 (act k m1 a) (act k m2 a).
Proof.
  intros Hk Ha Hm.
  assert (Hc : forall m1 m2, ceq P0 m1 m2 -> ceq P0 (c_swap K m1) (c_swap K m2)).
  { intros a1 a2 []. split; cbn; auto. }
  assert (Hb : forall m1 m2, ceq P0 m1 m2 ->
    ceq P0 (match a with
            | Cell t rp => c_fwd_cell K (SP k) (vk k) (vrg && (t mod sr =? 0)%Z) (t / sr)%Z m1 rp
            | Fin t => c_fwd_body K (SP k) (vk k) [] vrg sr (fk k) t m1 end)
           (match a with
            | Cell t rp => c_fwd_cell K (SP k) (vk k) (vrg && (t mod sr =? 0)%Z) (t / sr)%Z m2 rp
            | Fin t => c_fwd_body K (SP k) (vk k) [] vrg sr (fk k) t m2 end)).
  { intros a1 a2 H. apply (ceq_SP k) in H. destruct a as [t [reg p]|t]; apply (ceq_SP k).
    - apply (crel_cell K K eq (oprel_eq K) (SP k) (SP k) (prel_refl _) TT TT); auto.
      intros i Hi. reflexivity.
    - apply (crel_body K K eq (oprel_eq K) (SP k) (SP k) (prel_refl _) (SP_src k Hk) (SP_rec k Hk) TT TT); auto.
      all: try (intros i Hi; reflexivity).
      intros u Hu. apply Forall2_eq. reflexivity. }
  unfold fact. destruct (Z.odd _); auto.
Qed.

(** ... and writes only inside the window. *)
Record framed (m m' : cmem K) : Prop := {
  fr_wfc : forall j, ~ (0 <= j < n)%Z -> m_wfc K m' j = m_wfc K m j;
  fr_wfp : forall j, ~ (0 <= j < n)%Z -> m_wfp K m' j = m_wfp K m j;
  fr_psi : forall d j, ~ (0 <= j < n)%Z -> m_psi K m' d j = m_psi K m d j;
  fr_psin : forall d j, ~ (0 <= j < n)%Z -> m_psin K m' d j = m_psin K m d j;
  fr_zeta : forall d j, ~ (0 <= j < n)%Z -> m_zeta K m' d j = m_zeta K m d j;
  fr_store : forall s j, ~ (0 <= j < n)%Z -> m_store K m' s j = m_store K m s j;
  fr_r : (forall t, length (m_r K m t) = Z.to_nat nrec) -> forall t, length (m_r K m' t) = Z.to_nat nrec
}.

Lemma add_frame (wf : arr K) locs amps j : Forall (fun l => (l < n)%Z) locs -> ~ (0 <= j < n)%Z ->
  add_to_wavefield K wf locs amps j = wf j.
Proof.
  intros Hl Hj. unfold add_to_wavefield. revert wf amps. induction locs as [|l locs IH]; intros wf amps; [reflexivity|].
  destruct amps as [|x amps]; [reflexivity|]. inversion Hl as [|? ? Hl1 Hl2]; subst. cbn [combine fold_left fst snd].
  rewrite IH by assumption. destruct (Z.leb_spec 0 l); [|reflexivity].
  unfold upd. destruct (Z.eqb_spec j l); [lia|reflexivity].
Qed.

Lemma fact_frame k m a : (0 <= k < NS)%Z -> aok a -> framed m (act k m a).
Proof.
  intros Hk Ha.
  assert (Hs : forall m m', framed (c_swap K m) m' -> framed m (c_swap K m')).
  { intros m1 m2 []. split; cbn in *; auto. }
  assert (Hb : forall m, framed m (match a with
            | Cell t rp => c_fwd_cell K (SP k) (vk k) (vrg && (t mod sr =? 0)%Z) (t / sr)%Z m rp
            | Fin t => c_fwd_body K (SP k) (vk k) [] vrg sr (fk k) t m end)).
  { intros m1. destruct a as [t [reg p]|t].
    - pose proof (c_fwd_cell_spec K Kr (SP k) (vk k) (vrg && (t mod sr =? 0)%Z) (t / sr)%Z m1 reg p) as H.
      cbv zeta in H. destruct H as (E1 & E2 & E3 & E4 & E5 & E6 & E7).
      pose proof (win_idx K (SP k) p Ha) as Hi.
      split; intros.
      + rewrite E1. reflexivity.
      + rewrite E4. destruct (Z.eqb_spec j (idx (p_shape (SP k)) p)); [subst; contradiction|reflexivity].
      + rewrite E2. reflexivity.
      + rewrite E5. destruct (Z.eqb_spec j (idx (p_shape (SP k)) p)); [subst; contradiction|]. rewrite andb_false_r. reflexivity.
      + rewrite E6. destruct (Z.eqb_spec j (idx (p_shape (SP k)) p)); [subst; contradiction|]. rewrite andb_false_r. reflexivity.
      + rewrite E7. destruct (Z.eqb_spec j (idx (p_shape (SP k)) p)); [subst; contradiction|]. rewrite andb_false_r. reflexivity.
      + rewrite E3. auto.
    - split; cbn; intros; auto.
      + apply add_frame; [apply (SP_src k Hk)|assumption].
      + destruct (t0 =? t)%Z; [|auto]. unfold record_from_wavefield. rewrite map_length, combine_length, H.
        rewrite row_length by exact Hnrec. lia. }
  unfold fact. destruct (Z.odd _); auto.
Qed.

Definition finv (M : fglob K) (fam : Z -> cmem K) : Prop :=
  forall k, (0 <= k < NS)%Z -> ceq P0 (view k M) (fam k).

Lemma ceq_trans m1 m2 m3 : ceq P0 m1 m2 -> ceq P0 m2 m3 -> ceq P0 m1 m3.
Proof.
  intros A B. split.
  - intros i Hi. rewrite (cr_wfc _ _ _ _ _ _ _ _ A i Hi). apply (cr_wfc _ _ _ _ _ _ _ _ B i Hi).
  - intros i Hi. rewrite (cr_wfp _ _ _ _ _ _ _ _ A i Hi). apply (cr_wfp _ _ _ _ _ _ _ _ B i Hi).
  - intros d Hd i Hi. rewrite (cr_psi _ _ _ _ _ _ _ _ A d Hd i Hi). apply (cr_psi _ _ _ _ _ _ _ _ B d Hd i Hi).
  - intros d Hd i Hi. rewrite (cr_psin _ _ _ _ _ _ _ _ A d Hd i Hi). apply (cr_psin _ _ _ _ _ _ _ _ B d Hd i Hi).
  - intros d Hd i Hi. rewrite (cr_zeta _ _ _ _ _ _ _ _ A d Hd i Hi). apply (cr_zeta _ _ _ _ _ _ _ _ B d Hd i Hi).
  - intros s Hs i Hi. rewrite (cr_store _ _ _ _ _ _ _ _ A s Hs i Hi). apply (cr_store _ _ _ _ _ _ _ _ B s Hs i Hi).
  - intros t Ht. apply Forall2_eq. pose proof (cr_r _ _ _ _ _ _ _ _ A t Ht) as E1. pose proof (cr_r _ _ _ _ _ _ _ _ B t Ht) as E2.
    apply Forall2_eq in E1, E2. congruence.
Qed.

Lemma fexec_own k M a : (0 <= k < NS)%Z -> aok a -> ceq P0 (view k (exec M (k, a))) (act k (view k M) a).
Proof.
  intros Hk Ha. unfold fexec. cbn [fst snd]. set (m' := fact _ _ _ _ _ _ _ _ _).
  pose proof (fact_frame k (view k M) a Hk Ha) as Hf. cbn beta in Hf. fold m' in Hf.
  split; cbn; intros; intros; try (intros i Hi; apply sh_unsh).
  apply Forall2_eq. apply row_put. apply (fr_r _ _ Hf). intros u. cbn. apply row_length. exact Hnrec.
Qed.

Lemma fexec_other k k' M a : (0 <= k < NS)%Z -> aok a -> k <> k' -> ceq P0 (view k' (exec M (k, a))) (view k' M).
Proof.
  intros Hk Ha Hn. unfold fexec. cbn [fst snd]. set (m' := fact _ _ _ _ _ _ _ _ _).
  pose proof (fact_frame k (view k M) a Hk Ha) as Hf. cbn beta in Hf. fold m' in Hf.
  destruct Hf. split; cbn; intros.
  - intros i Hi. apply sh_unsh_other; auto.
  - intros i Hi. apply sh_unsh_other; auto.
  - intros i Hi. apply sh_unsh_other; auto. intros j Hj. apply (fr_psi0 d j Hj).
  - intros i Hi. apply sh_unsh_other; auto. intros j Hj. apply (fr_psin0 d j Hj).
  - intros i Hi. apply sh_unsh_other; auto. intros j Hj. apply (fr_zeta0 d j Hj).
  - intros i Hi. apply sh_unsh_other; auto. intros j Hj. apply (fr_store0 s j Hj).
  - apply Forall2_eq. apply row_put_other. exact Hn.
Qed.

Lemma finv_exec M fam k a : (0 <= k < NS)%Z -> aok a -> finv M fam ->
  finv (exec M (k, a)) (fset fam k (act k (fam k) a)).
Proof.
  intros Hk Ha Hi j Hj. unfold fset. destruct (Z.eqb_spec j k) as [->|Hn].
  - eapply ceq_trans; [apply fexec_own; assumption|]. apply fact_local; auto.
  - eapply ceq_trans; [apply fexec_other; auto|]. apply Hi. exact Hj.
Qed.

(** The program of one shot is the compiled time loop. *)
Lemma fprog_forward k vis nt m :
  fold_left (act k) (fprog vis nt s0) m = c_forward K (SP k) (vk k) vis vrg sr (fk k) nt s0 m.
Proof.
  unfold fprog, c_forward. generalize (zrange s0 (s0 + nt)) as ts. intros ts. revert m.
  induction ts as [|t ts IH]; intros m; [reflexivity|]. cbn [flat_map fold_left].
  rewrite fold_left_app, IH. f_equal. rewrite fold_left_app. cbn [fold_left].
  assert (E : forall l m, fold_left (act k) (map (Cell t) l) m =
     if Z.odd (t - s0) then c_swap K (fold_left (c_fwd_cell K (SP k) (vk k) (vrg && (t mod sr =? 0)%Z) (t / sr)%Z) l (c_swap K m))
     else fold_left (c_fwd_cell K (SP k) (vk k) (vrg && (t mod sr =? 0)%Z) (t / sr)%Z) l m).
  { induction l as [|x l IHl]; intros m1; cbn [map fold_left].
    - destruct (Z.odd _); destruct m1; reflexivity.
    - rewrite IHl. unfold fact. destruct (Z.odd (t - s0)); [rewrite c_swap_swap|]; reflexivity. }
  rewrite E. unfold fact, c_fwd_t. destruct (Z.odd (t - s0)); [rewrite c_swap_swap|]; reflexivity.
Qed.

Lemma fprog_aok vis nt a : (forall reg p, In (reg, p) vis -> inint p) -> In a (fprog vis nt s0) -> aok a.
Proof.
  intros Hv Ha. apply in_flat_map in Ha. destruct Ha as (t & _ & Ha). apply in_app_or in Ha.
  destruct Ha as [Ha|[<-|[]]]; [|exact I]. apply in_map_iff in Ha. destruct Ha as ([reg p] & <- & Hp). cbn. eauto.
Qed.

(** One call on the batch. *)
Lemma batch_call vis nt l M fam : (forall reg p, In (reg, p) vis -> inint p) ->
  interleaves NS (fun _ => fprog vis nt s0) l -> finv M fam ->
  finv (fold_left exec l M) (fun k => c_forward K (SP k) (vk k) vis vrg sr (fk k) nt s0 (fam k)).
Proof.
  intros Hv [Hl Hp] Hi.
  pose proof (interleave_inv exec act finv l M fam) as H.
  assert (E : forall k, (0 <= k < NS)%Z -> fold_left (act k) (map snd (filter (fun x => fst x =? k)%Z l)) (fam k)
     = c_forward K (SP k) (vk k) vis vrg sr (fk k) nt s0 (fam k)).
  { intros k Hk. rewrite (Hp k Hk). apply fprog_forward. }
  intros k Hk. rewrite <- E by exact Hk. apply H; auto.
  - intros g fm j a Hin Hg. rewrite Forall_forall in Hl. specialize (Hl _ Hin). cbn in Hl. apply finv_exec; auto.
    apply (fprog_aok vis nt); [exact Hv|]. rewrite <- (Hp j Hl). apply in_map_iff. exists (j, a). split; [reflexivity|].
    apply filter_In. split; [exact Hin|]. cbn. apply Z.eqb_refl.
  - intros g fm fm' He Hg j Hj. rewrite <- He. auto.
Qed.

End Fwd.

Lemma finv_swap M fam : finv M fam -> finv (fswap K M) (fun k => c_swap K (fam k)).
Proof. intros H k Hk. destruct (H k Hk). split; cbn in *; auto. Qed.

Lemma stack_sh k a i : (0 <= i < n)%Z -> sh K P0 k (stack K P0 a) i = a k i.
Proof.
  intros Hi. unfold sh, stack. f_equal.
  - rewrite Z.div_add_l by lia. rewrite Z.div_small by lia. lia.
  - rewrite Z.add_comm, Z.mod_add by lia. apply Z.mod_small. lia.
Qed.

Lemma finv_init pw store0 u :
  finv (batch_init K P0 nsrc nrec srcs recs pw store0 u) (fun k => fwd_init K (SP k) pw (fun s => sh K P0 k (store0 s)) (u k)).
Proof.
  intros k Hk. split; cbn; intros; try (intros i Hi; rewrite stack_sh by exact Hi; reflexivity).
  - intros i Hi; reflexivity.
  - apply Forall2_eq. unfold row. rewrite map_map. reflexivity.
Qed.

(** The whole run. *)
Lemma batch_forward_shot pw v vis vrg sr f nt cb sched store0 u k :
  (forall reg p, In (reg, p) vis -> inint p) ->
  fsched_ok NS vis sr nt cb sched -> (0 <= k < NS)%Z ->
  match batch_forward K P0 nsrc nrec srcs recs batched pw v vrg sr f nt cb sched store0 u,
        scalar_forward K (SP k) pw (shot_v K P0 batched v k) vis vrg sr (fun t => row (f t) nsrc k) nt cb
          (fun s => sh K P0 k (store0 s)) (u k) with
  | Some (U, r, St), Some (U1, r1, St1) =>
      ueq K P0 (U k) U1 /\ (forall t, row (r t) nrec k = r1 t) /\
      (forall s i, (0 <= i < n)%Z -> St s (k * n + i)%Z = St1 s i)
  | None, None => True
  | _, _ => False
  end.
Proof.
  intros Hv Hs Hk. unfold batch_forward, scalar_forward, fwd_driver.
  set (M0 := batch_init _ _ _ _ _ _ _ _ _). set (fam0 := fun k => fwd_init K (SP k) pw (fun s => sh K P0 k (store0 s)) (u k)).
  assert (H0 : finv M0 fam0) by apply finv_init. fold (fam0 k).
  set (N := (nt / sr)%Z). set (cf := match cb with Some c => c | None => N end).
  assert (Hout : forall M m, ceq P0 (fview K P0 nrec k M) m ->
     ueq K P0 (mkst K (crop K P0 (sh K P0 k (F_wfc K M))) (crop K P0 (sh K P0 k (F_wfp K M)))
                           (fun d => crop K P0 (sh K P0 k (F_psi K M d))) (fun d => crop K P0 (sh K P0 k (F_zeta K M d))))
              (mkst K (crop K (SP k) (m_wfc K m)) (crop K (SP k) (m_wfp K m))
                       (fun d => crop K (SP k) (m_psi K m d)) (fun d => crop K (SP k) (m_zeta K m d))) /\
     (forall t, row (F_r K M t) nrec k = m_r K m t) /\
     (forall s i, (0 <= i < n)%Z -> F_store K M s (k * n + i)%Z = m_store K m s i)).
  { intros M m [c1 c2 c3 c4 c5 c6 c7]. split; [|split].
    - intros q Hq. pose proof (win_idx K P0 (topad K P0 q)) as W. apply In_upts in Hq. specialize (W Hq).
      cbn. split; [|split]; [apply c1; exact W|apply c2; exact W|]. intros d Hd.
      split; [apply (c3 d Hd); exact W|apply (c5 d Hd); exact W].
    - intros t. apply Forall2_eq. apply (c7 t I).
    - intros s i Hi. apply (c6 s I i Hi). }
  destruct (Z.leb_spec nt 0); [apply Hout; apply H0; exact Hk|].
  destruct (Z.eqb_spec cf 0); [exact I|]. apply Hout.
  assert (G : forall l M fam, finv M fam ->
    finv (fold_left (batch_chunk K P0 nsrc nrec srcs recs batched v vrg sr f sched N cf) l M)
         (fun k => fold_left (fwd_chunk K (SP k) (shot_v K P0 batched v k) vis vrg sr (fun t => row (f t) nsrc k) N cf) l (fam k))).
  { induction l as [|s l IH]; intros M fam Hi; [exact Hi|]. cbn [fold_left].
    apply IH with (fam := fun k => fwd_chunk K (SP k) (shot_v K P0 batched v k) vis vrg sr (fun t => row (f t) nsrc k) N cf (fam k) s).
    unfold batch_chunk, fwd_chunk. specialize (Hs s). fold N in Hs. fold cf in Hs.
    pose proof (batch_call v vrg sr f (s * sr)%Z vis _ (sched s) M fam Hv Hs Hi) as HC.
    destruct (_ =? 0)%Z; [exact HC|]. apply finv_swap. exact HC. }
  apply (G _ M0 fam0 H0 k Hk).
Qed.


(** ** Backward *)

Notation beq P := (brelm K K eq P (fun _ => True)).

Lemma beq_SP k m1 m2 : beq P0 m1 m2 <-> beq (SP k) m1 m2.
Proof. split; intros []; split; assumption. Qed.

(** The memory of a shot apart from its model gradient. *)
Definition setv (m : bmem K) (x : arr K) : bmem K :=
  mkbmem K (g_wfc K m) (g_wfp K m) (g_psi K m) (g_psin K m) (g_zeta K m) (g_zetan K m) (g_f K m) x.
Definition zv : arr K := fun _ => 0.
Definition beqv (m1 m2 : bmem K) : Prop := beq P0 (setv m1 zv) (setv m2 zv).

Lemma bwd_dims_setv P v2 reg p ds : forall w m x,
  fold_left (c_bwd_dim K P v2 reg p) ds (w, setv m x) =
  (fst (fold_left (c_bwd_dim K P v2 reg p) ds (w, m)), setv (snd (fold_left (c_bwd_dim K P v2 reg p) ds (w, m))) x).
Proof.
  induction ds as [|d ds IH]; intros w m x; [reflexivity|]. cbn [fold_left].
  assert (E : c_bwd_dim K P v2 reg p (w, setv m x) d =
     (fst (c_bwd_dim K P v2 reg p (w, m) d), setv (snd (c_bwd_dim K P v2 reg p (w, m) d)) x)).
  { unfold c_bwd_dim. destruct (_ =? 1)%Z; reflexivity. }
  rewrite E, IH. destruct (c_bwd_dim K P v2 reg p (w, m) d). reflexivity.
Qed.

Lemma setv_swap m x : b_swap K (setv m x) = setv (b_swap K m) x.
Proof. reflexivity. Qed.

Section Bwd.
Variables (th : Z -> Z) (v2 : arr K) (store : Z -> arr K) (vrg : bool) (sr : Z) (gr : Z -> arr K) (s0 : Z).
Notation grk k := (fun t => row (gr t) nrec k).
Notation vk k := (shot_v K P0 batched v2 k).
Notation stk k := (fun s => sh K P0 k (store s)).
Notation act := (fun k m a => bact K (SP k) (vk k) (stk k) vrg sr (grk k) s0 m a).
Notation exec := (bexec K P0 nsrc nrec srcs recs batched th v2 store vrg sr gr s0).
Notation view := (bview K P0 nsrc batched th).
Notation blk := (gblock batched th).

Definition abody (k : Z) (m : bmem K) (a : action) : bmem K :=
  match a with
  | Cell t rp => c_bwd_cell K (SP k) (vk k) (stk k) (vrg && (t mod sr =? 0)%Z) sr (t / sr)%Z m rp
  | Fin t => c_bwd_body K (SP k) (vk k) [] (stk k) vrg sr (grk k) t m
  end.
Definition atime (a : action) : Z := match a with Cell t _ => t | Fin t => t end.

Lemma act_eq k m a : act k m a = if Z.odd (s0 - 1 - atime a) then b_swap K (abody k (b_swap K m) a) else abody k m a.
Proof. destruct a; reflexivity. Qed.

Lemma abody_setv k m a x y : setv (abody k (setv m x) a) y = setv (abody k m a) y.
Proof.
  destruct a as [t [reg p]|t]; cbn [abody].
  - unfold c_bwd_cell. rewrite bwd_dims_setv.
    destruct (fold_left (c_bwd_dim K (SP k) (vk k) reg p) (dims K (SP k)) (0, m)) as [w m1]. reflexivity.
  - reflexivity.
Qed.

Lemma act_setv k m a x y : setv (act k (setv m x) a) y = setv (act k m a) y.
Proof.
  cbv beta. rewrite !act_eq. destruct (Z.odd _); [|apply abody_setv].
  change (b_swap K (setv (abody k (setv (b_swap K m) x) a) y) = b_swap K (setv (abody k (b_swap K m) a) y)).
  rewrite abody_setv. reflexivity.
Qed.

Lemma bact_local0 k m1 m2 a : (0 <= k < NS)%Z -> aok a -> beq P0 m1 m2 -> beq P0 (act k m1 a) (act k m2 a).
Proof.
  intros Hk Ha Hm.
  assert (Hc : forall m1 m2, beq P0 m1 m2 -> beq P0 (b_swap K m1) (b_swap K m2)).
  { intros a1 a2 []. split; cbn; auto. }
  assert (Hb : forall m1 m2, beq P0 m1 m2 -> beq P0 (abody k m1 a) (abody k m2 a)).
  { intros a1 a2 H. apply (beq_SP k) in H. destruct a as [t [reg p]|t]; apply (beq_SP k).
    - apply (brelm_cell K K eq (oprel_eq K) (SP k) (SP k) (prel_refl _) TT); auto; intros; intros i Hi; reflexivity.
    - apply (brelm_body K K eq (oprel_eq K) (SP k) (SP k) (prel_refl _) (SP_src k Hk) (SP_rec k Hk) TT TT); auto.
      all: try (intros i Hi; reflexivity).
      + intros u Hu. apply Forall2_eq. reflexivity.
      + intros s Hs i Hi. reflexivity. }
  cbv beta. rewrite !act_eq. destruct (Z.odd _); auto.
Qed.

Lemma beq_setv m1 m2 x : beq P0 m1 m2 -> beq P0 (setv m1 x) (setv m2 x).
Proof. intros []. split; cbn; auto. intros i Hi. reflexivity. Qed.

Lemma bact_local k m1 m2 a : (0 <= k < NS)%Z -> aok a -> beqv m1 m2 -> beqv (act k m1 a) (act k m2 a).
Proof.
  intros Hk Ha H. unfold beqv. rewrite <- (act_setv k m1 a zv zv), <- (act_setv k m2 a zv zv).
  apply beq_setv. apply bact_local0; auto.
Qed.

(** What an action adds to the model gradient depends on the rest of the memory only. *)
Definition contrib (k : Z) (m : bmem K) (a : action) (i : Z) : K :=
  match a with
  | Cell t (reg, p) =>
      if (vrg && (t mod sr =? 0)%Z) && (i =? idx shape p)%Z
      then (if Z.odd (s0 - 1 - t) then g_wfp K m i else g_wfc K m i) * store (t / sr)%Z (k * n + i)%Z * ofZ K sr
      else 0
  | Fin _ => 0
  end.

Lemma act_gv k m a i : g_v K (act k m a) i = g_v K m i + contrib k m a i.
Proof.
  cbv beta. rewrite act_eq. destruct a as [t [reg p]|t]; cbn [abody atime contrib].
  - destruct (Z.odd (s0 - 1 - t)); cbn [b_swap g_v g_wfc].
    + pose proof (c_bwd_cell_spec K Kr (SP k) (vk k) (stk k) sr (vrg && (t mod sr =? 0)%Z) (t / sr)%Z (b_swap K m) reg p) as H.
      cbv zeta in H. destruct H as (_ & _ & _ & _ & _ & _ & _ & E). rewrite E. cbn [b_swap g_v g_wfc p_shape shot_par].
      destruct (vrg && (t mod sr =? 0)%Z); cbn [andb]; [|ring].
      destruct (Z.eqb_spec i (idx shape p)); [subst; reflexivity|ring].
    + pose proof (c_bwd_cell_spec K Kr (SP k) (vk k) (stk k) sr (vrg && (t mod sr =? 0)%Z) (t / sr)%Z m reg p) as H.
      cbv zeta in H. destruct H as (_ & _ & _ & _ & _ & _ & _ & E). rewrite E. cbn [p_shape shot_par].
      destruct (vrg && (t mod sr =? 0)%Z); cbn [andb]; [|ring].
      destruct (Z.eqb_spec i (idx shape p)); [subst; reflexivity|ring].
  - destruct (Z.odd _); cbn; ring.
Qed.

Lemma contrib_out k m a i : aok a -> ~ (0 <= i < n)%Z -> contrib k m a i = 0.
Proof.
  intros Ha Hi. destruct a as [t [reg p]|t]; [|reflexivity]. cbn in Ha |- *.
  pose proof (win_idx K P0 p Ha). destruct (Z.eqb_spec i (idx shape p)); [subst; contradiction|].
  rewrite andb_false_r. reflexivity.
Qed.

Lemma contrib_local k m1 m2 a i : beqv m1 m2 -> (0 <= i < n)%Z -> contrib k m1 a i = contrib k m2 a i.
Proof.
  intros H Hi. destruct a as [t [reg p]|t]; [|reflexivity]. cbn.
  pose proof (br_wfc _ _ _ _ _ _ _ H i Hi) as E1. pose proof (br_wfp _ _ _ _ _ _ _ H i Hi) as E2. cbn in E1, E2.
  rewrite E1, E2. reflexivity.
Qed.

Record bframed (m m' : bmem K) : Prop := {
  bf_wfc : forall j, ~ (0 <= j < n)%Z -> g_wfc K m' j = g_wfc K m j;
  bf_wfp : forall j, ~ (0 <= j < n)%Z -> g_wfp K m' j = g_wfp K m j;
  bf_psi : forall d j, ~ (0 <= j < n)%Z -> g_psi K m' d j = g_psi K m d j;
  bf_psin : forall d j, ~ (0 <= j < n)%Z -> g_psin K m' d j = g_psin K m d j;
  bf_zeta : forall d j, ~ (0 <= j < n)%Z -> g_zeta K m' d j = g_zeta K m d j;
  bf_zetan : forall d j, ~ (0 <= j < n)%Z -> g_zetan K m' d j = g_zetan K m d j;
  bf_f : (forall t, length (g_f K m t) = Z.to_nat nsrc) -> forall t, length (g_f K m' t) = Z.to_nat nsrc
}.

Lemma bact_frame k m a : (0 <= k < NS)%Z -> aok a -> bframed m (act k m a).
Proof.
  intros Hk Ha.
  assert (Hs : forall m m', bframed (b_swap K m) m' -> bframed m (b_swap K m')).
  { intros m1 m2 []. split; cbn in *; auto. }
  assert (Hb : forall m, bframed m (abody k m a)).
  { intros m1. destruct a as [t [reg p]|t]; cbn [abody].
    - pose proof (c_bwd_cell_spec K Kr (SP k) (vk k) (stk k) sr (vrg && (t mod sr =? 0)%Z) (t / sr)%Z m1 reg p) as H.
      cbv zeta in H. destruct H as (E1 & E2 & E3 & E4 & E5 & E6 & E7 & _).
      pose proof (win_idx K (SP k) p Ha) as Hi.
      split; intros.
      + rewrite E1. reflexivity.
      + rewrite E5. destruct (Z.eqb_spec j (idx (p_shape (SP k)) p)); [subst; contradiction|reflexivity].
      + rewrite E2. reflexivity.
      + rewrite E6. destruct (Z.eqb_spec j (idx (p_shape (SP k)) p)); [subst; contradiction|]. rewrite andb_false_r. reflexivity.
      + rewrite E3. reflexivity.
      + rewrite E7. destruct (Z.eqb_spec j (idx (p_shape (SP k)) p)); [subst; contradiction|]. rewrite andb_false_r. reflexivity.
      + rewrite E4. auto.
    - split; cbn; intros; auto.
      + apply add_frame; [apply (SP_rec k Hk)|assumption].
      + destruct (t0 =? t)%Z; [|auto]. unfold record_from_wavefield. rewrite map_length, combine_length, H.
        rewrite row_length by exact Hnsrc. lia. }
  cbv beta. rewrite act_eq. destruct (Z.odd _); auto.
Qed.

Lemma beqv_trans m1 m2 m3 : beqv m1 m2 -> beqv m2 m3 -> beqv m1 m3.
Proof.
  intros A B. split.
  - intros i Hi. rewrite (br_wfc _ _ _ _ _ _ _ A i Hi). apply (br_wfc _ _ _ _ _ _ _ B i Hi).
  - intros i Hi. rewrite (br_wfp _ _ _ _ _ _ _ A i Hi). apply (br_wfp _ _ _ _ _ _ _ B i Hi).
  - intros d Hd i Hi. rewrite (br_psi _ _ _ _ _ _ _ A d Hd i Hi). apply (br_psi _ _ _ _ _ _ _ B d Hd i Hi).
  - intros d Hd i Hi. rewrite (br_psin _ _ _ _ _ _ _ A d Hd i Hi). apply (br_psin _ _ _ _ _ _ _ B d Hd i Hi).
  - intros d Hd i Hi. rewrite (br_zeta _ _ _ _ _ _ _ A d Hd i Hi). apply (br_zeta _ _ _ _ _ _ _ B d Hd i Hi).
  - intros d Hd i Hi. rewrite (br_zetan _ _ _ _ _ _ _ A d Hd i Hi). apply (br_zetan _ _ _ _ _ _ _ B d Hd i Hi).
  - intros t Ht. apply Forall2_eq. pose proof (br_f _ _ _ _ _ _ _ A t Ht) as E1. pose proof (br_f _ _ _ _ _ _ _ B t Ht) as E2.
    apply Forall2_eq in E1, E2. congruence.
  - intros i Hi. reflexivity.
Qed.

(** Memory seen by shot [k] apart from the model gradient: independent of the threads. *)
Lemma bexec_own k M a : (0 <= k < NS)%Z -> aok a -> beqv (view k (exec M (k, a))) (act k (view k M) a).
Proof.
  intros Hk Ha. unfold bexec. cbn [fst snd]. set (m' := bact _ _ _ _ _ _ _ _ _ _).
  pose proof (bact_frame k (view k M) a Hk Ha) as Hf. cbn beta in Hf. fold m' in Hf.
  split; cbn; intros; intros; try (intros i Hi; apply sh_unsh).
  - apply Forall2_eq. apply row_put. apply (bf_f _ _ Hf). intros u. cbn. apply row_length. exact Hnsrc.
  - intros i Hi. reflexivity.
Qed.

Lemma bexec_other k k' M a : (0 <= k < NS)%Z -> aok a -> k <> k' -> beqv (view k' (exec M (k, a))) (view k' M).
Proof.
  intros Hk Ha Hn. unfold bexec. cbn [fst snd]. set (m' := bact _ _ _ _ _ _ _ _ _ _).
  pose proof (bact_frame k (view k M) a Hk Ha) as Hf. cbn beta in Hf. fold m' in Hf.
  destruct Hf as [b1 b2 b3 b4 b5 b6 b7]. split; cbn; intros.
  - intros i Hi. apply sh_unsh_other; auto.
  - intros i Hi. apply sh_unsh_other; auto.
  - intros i Hi. apply sh_unsh_other; auto. intros j Hj. apply (b3 d j Hj).
  - intros i Hi. apply sh_unsh_other; auto. intros j Hj. apply (b4 d j Hj).
  - intros i Hi. apply sh_unsh_other; auto. intros j Hj. apply (b5 d j Hj).
  - intros i Hi. apply sh_unsh_other; auto. intros j Hj. apply (b6 d j Hj).
  - apply Forall2_eq. apply row_put_other. exact Hn.
  - intros i Hi. reflexivity.
Qed.

(** Every block of the gradient buffer gains what its shots contribute. *)
Lemma bexec_buf k M a : aok a -> forall b i, (0 <= i < n)%Z ->
  B_buf K (exec M (k, a)) (b * n + i)%Z =
  B_buf K M (b * n + i)%Z + (if (blk k =? b)%Z then contrib k (view k M) a i else 0).
Proof.
  intros Ha b i Hi. unfold bexec. cbn [fst snd bput B_buf]. unfold unsh.
  rewrite (act_gv k (view k M) a). cbn [bview g_v]. unfold sh.
  replace (blk k * n + (b * n + i - blk k * n))%Z with (b * n + i)%Z by lia.
  f_equal. destruct (Z.eqb_spec (blk k) b) as [E|E].
  - f_equal. rewrite E. lia.
  - apply contrib_out; [exact Ha|]. intros Hc. apply E. nia.
Qed.

Definition shots : list Z := zrange 0 NS.

(** [M] after some actions, [fam k] the memory of shot [k] alone after its actions;
    [B0], [fam0] at the beginning. *)
Definition binv (B0 : arr K) (fam0 : Z -> bmem K) (M : bglob K) (fam : Z -> bmem K) : Prop :=
  (forall k, (0 <= k < NS)%Z -> beqv (view k M) (fam k)) /\
  forall b i, (0 <= i < n)%Z ->
    B_buf K M (b * n + i)%Z = B0 (b * n + i)%Z
      + sumf (filter (fun k => blk k =? b)%Z shots) (fun k => g_v K (fam k) i - g_v K (fam0 k) i).

Lemma sumf_fset fam fam0 k m' b i : (0 <= k < NS)%Z ->
  sumf (filter (fun k => blk k =? b)%Z shots) (fun j => g_v K (fset fam k m' j) i - g_v K (fam0 j) i) =
  sumf (filter (fun k => blk k =? b)%Z shots) (fun j => g_v K (fam j) i - g_v K (fam0 j) i)
  + (if (blk k =? b)%Z then g_v K m' i - g_v K (fam k) i else 0).
Proof.
  intros Hk.
  assert (E : sumf (filter (fun k => blk k =? b)%Z shots) (fun j => if (j =? k)%Z then g_v K m' i - g_v K (fam k) i else 0)
     = if (blk k =? b)%Z then g_v K m' i - g_v K (fam k) i else 0).
  { destruct (blk k =? b)%Z eqn:Eb.
    - rewrite (sumf_single K Kr _ k).
      + rewrite Z.eqb_refl. reflexivity.
      + apply NoDup_filter. apply NoDup_zrange.
      + apply filter_In. split; [apply In_zrange; exact Hk|exact Eb].
      + intros x _ Hx. destruct (Z.eqb_spec x k); [congruence|reflexivity].
    - apply (sumf_zero K Kr). intros x Hx. apply filter_In in Hx. destruct Hx as [_ Hx].
      destruct (Z.eqb_spec x k); [subst; congruence|reflexivity]. }
  rewrite <- E, <- (sumf_add K Kr). apply sumf_ext. intros j _. unfold fset.
  destruct (Z.eqb_spec j k); [subst|]; ring.
Qed.

Lemma binv_exec B0 fam0 M fam k a : (0 <= k < NS)%Z -> aok a -> binv B0 fam0 M fam ->
  binv B0 fam0 (exec M (k, a)) (fset fam k (act k (fam k) a)).
Proof.
  intros Hk Ha [H1 H2]. split.
  - intros j Hj. unfold fset. destruct (Z.eqb_spec j k) as [->|Hn].
    + eapply beqv_trans; [apply bexec_own; assumption|]. apply bact_local; auto.
    + eapply beqv_trans; [apply bexec_other; auto|]. apply H1. exact Hj.
  - intros b i Hi. rewrite bexec_buf by assumption. rewrite H2 by exact Hi. rewrite sumf_fset by exact Hk.
    destruct (blk k =? b)%Z; [|ring].
    rewrite (act_gv k (fam k) a). rewrite (contrib_local k (view k M) (fam k) a i (H1 k Hk) Hi). ring.
Qed.

Lemma bprog_backward k vis nt m :
  fold_left (act k) (bprog vis nt s0) m = c_backward K (SP k) (vk k) vis (stk k) vrg sr (grk k) nt s0 m.
Proof.
  unfold bprog, c_backward. generalize (rev (zrange (s0 - nt) s0)) as ts. intros ts. revert m.
  induction ts as [|t ts IH]; intros m; [reflexivity|]. cbn [flat_map fold_left].
  rewrite fold_left_app, IH. f_equal. rewrite fold_left_app. cbn [fold_left].
  assert (E : forall l m, fold_left (act k) (map (Cell t) l) m =
     if Z.odd (s0 - 1 - t) then b_swap K (fold_left (c_bwd_cell K (SP k) (vk k) (stk k) (vrg && (t mod sr =? 0)%Z) sr (t / sr)%Z) l (b_swap K m))
     else fold_left (c_bwd_cell K (SP k) (vk k) (stk k) (vrg && (t mod sr =? 0)%Z) sr (t / sr)%Z) l m).
  { induction l as [|x l IHl]; intros m1; cbn [map fold_left].
    - destruct (Z.odd _); destruct m1; reflexivity.
    - rewrite IHl. unfold bact. destruct (Z.odd (s0 - 1 - t)); [rewrite b_swap_swap|]; reflexivity. }
  rewrite E. unfold bact, c_bwd_t. destruct (Z.odd (s0 - 1 - t)); [rewrite b_swap_swap|]; reflexivity.
Qed.

Lemma bprog_aok vis nt a : (forall reg p, In (reg, p) vis -> inint p) -> In a (bprog vis nt s0) -> aok a.
Proof.
  intros Hv Ha. apply in_flat_map in Ha. destruct Ha as (t & _ & Ha). apply in_app_or in Ha.
  destruct Ha as [Ha|[<-|[]]]; [|exact I]. apply in_map_iff in Ha. destruct Ha as ([reg p] & <- & Hp). cbn. eauto.
Qed.

(** One call on the batch. *)
Lemma batch_bcall vis nt l M fam : (forall reg p, In (reg, p) vis -> inint p) ->
  interleaves NS (fun _ => bprog vis nt s0) l ->
  (forall k, (0 <= k < NS)%Z -> beqv (view k M) (fam k)) ->
  binv (B_buf K M) fam (fold_left exec l M)
       (fun k => c_backward K (SP k) (vk k) vis (stk k) vrg sr (grk k) nt s0 (fam k)).
Proof.
  intros Hv [Hl Hp] Hi.
  pose proof (interleave_inv exec act (binv (B_buf K M) fam) l M fam) as H.
  assert (E : forall k, (0 <= k < NS)%Z -> fold_left (act k) (map snd (filter (fun x => fst x =? k)%Z l)) (fam k)
     = c_backward K (SP k) (vk k) vis (stk k) vrg sr (grk k) nt s0 (fam k)).
  { intros k Hk. rewrite (Hp k Hk). apply bprog_backward. }
  assert (X : binv (B_buf K M) fam (fold_left exec l M)
                (fun k => fold_left (act k) (map snd (filter (fun x => fst x =? k)%Z l)) (fam k))).
  { apply H.
    - intros g fm j a Hin Hg. rewrite Forall_forall in Hl. specialize (Hl _ Hin). cbn in Hl. apply binv_exec; auto.
      apply (bprog_aok vis nt); [exact Hv|]. rewrite <- (Hp j Hl). apply in_map_iff. exists (j, a). split; [reflexivity|].
      apply filter_In. split; [exact Hin|]. cbn. apply Z.eqb_refl.
    - intros g fm fm' He [G1 G2]. split.
      + intros j Hj. rewrite <- He. auto.
      + intros b i Hbi. rewrite G2 by exact Hbi. f_equal. apply sumf_ext. intros j _. rewrite He. reflexivity.
    - split; [exact Hi|]. intros b i Hbi. rewrite (sumf_zero K Kr); [ring|]. intros; ring. }
  destruct X as [X1 X2]. split.
  - intros k Hk. rewrite <- E by exact Hk. apply X1. exact Hk.
  - intros b i Hbi. rewrite X2 by exact Hbi. f_equal. apply sumf_ext. intros k Hk. apply filter_In in Hk.
    destruct Hk as [Hk _]. apply In_zrange in Hk. rewrite E by exact Hk. reflexivity.
Qed.

Lemma bexec_gv l M : B_gv K (fold_left exec l M) = B_gv K M.
Proof. revert M. induction l as [|x l IH]; intros M; [reflexivity|]. cbn [fold_left]. rewrite IH. reflexivity. Qed.

End Bwd.

End Shots.
