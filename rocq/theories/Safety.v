(** * Memory safety of the scalar kernels.

    Reads: the kernels are run on arrays whose elements outside the allocation are poisoned
    ([None]; any arithmetic on [None] gives [None]).  If no element of the result is poisoned,
    no out-of-bounds element was used.  Writes: everything outside the block of the shot is
    unchanged. *)
From Coq Require Import List ZArith QArith Lia Bool.
From Verif Require Import Ops Sums Grid Stencil ScalarModel ScalarRefine ScalarForward ScalarBackward ScalarFunc Param ShotsModel Shots ShotsThm.
Import ListNotations.
Local Open Scope K_scope.

Definition lift1 {A B} (f : A -> B) (x : option A) : option B :=
  match x with Some a => Some (f a) | None => None end.
Definition lift2 {A B C} (f : A -> B -> C) (x : option A) (y : option B) : option C :=
  match x, y with Some a, Some b => Some (f a b) | _, _ => None end.

(** Numbers with a poisoned value. *)
Definition opt (K : ops) : ops :=
  mkops (option K) (Some 0) (Some 1) (lift2 (oadd K)) (lift2 (omul K)) (lift2 (osub K)) (lift1 (oopp K))
        (fun q => Some (oq K q)).

Definition defd (K : ops) (x : K) (y : opt K) : Prop := y = Some x.

Lemma defd_ops K : oprel K (opt K) (defd K).
Proof.
  unfold defd. split; cbn; try reflexivity; intros; subst; reflexivity.
Qed.

(** An array of [m] elements. *)
Definition guard {A} (m : Z) (a : Z -> A) : Z -> option A :=
  fun i => if (0 <=? i)%Z && (i <? m)%Z then Some (a i) else None.
(** A family of [m] arrays. *)
Definition gfam {A} (m c : Z) (a : Z -> Z -> A) : Z -> Z -> option A :=
  fun s => if (0 <=? s)%Z && (s <? m)%Z then guard c (a s) else fun _ => None.

Lemma guard_in {A} m (a : Z -> A) i : (0 <= i < m)%Z -> guard m a i = Some (a i).
Proof. intros H. unfold guard. destruct (Z.leb_spec 0 i), (Z.ltb_spec i m); try lia. reflexivity. Qed.
Lemma gfam_in {A} m c (a : Z -> Z -> A) s i : (0 <= s < m)%Z -> (0 <= i < c)%Z -> gfam m c a s i = Some (a s i).
Proof. intros H Hi. unfold gfam. destruct (Z.leb_spec 0 s), (Z.ltb_spec s m); try lia. cbn [andb]. apply guard_in. exact Hi. Qed.

Section Safe.
Variable K : ops.
Variable P0 : par K.
Variables NS nsrc nrec : Z.
Variables srcs recs : Z -> Z.
Variable batched : bool.
Notation shape := (p_shape P0).
Notation nd := (length shape).
Notation n := (prodZ shape).
Notation OK := (opt K).
Notation SP := (shot_par K P0 nsrc nrec srcs recs).

(** Profiles with one element per cell of their dimension; scalars. *)
Definition gpar : par OK :=
  @mkpar OK (p_acc P0) shape (fun d => Some (p_rd P0 d)) (fun d => Some (p_rd2 P0 d))
    (fun d => guard (nth d shape 0%Z) (p_a P0 d)) (fun d => guard (nth d shape 0%Z) (p_b P0 d))
    (fun d => guard (nth d shape 0%Z) (p_db P0 d)) (Some (p_dt2 P0)) [] [].
Notation GP := (shot_par OK gpar nsrc nrec srcs recs).

Lemma gpar_rel k : prel K OK (defd K) (SP k) (GP k).
Proof.
  split; try reflexivity; cbn; intros; unfold defd; try (apply guard_in; assumption); reflexivity.
Qed.

Lemma sh_guard k a : (0 <= k < NS)%Z -> arel K OK (defd K) n (sh K P0 k a) (sh OK gpar k (guard (NS * n) a)).
Proof.
  intros Hk i Hi. unfold defd, sh. cbn [p_shape gpar]. apply guard_in. nia.
Qed.

Lemma row_guard (a : Z -> K) c k : (0 <= k < NS)%Z -> Forall2 (defd K) (row a c k) (row (guard (NS * c) a) c k).
Proof.
  intros Hk. unfold row. assert (H : forall j, In j (zrange 0 c) -> (0 <= j < c)%Z) by (intros j Hj; apply In_zrange in Hj; exact Hj).
  induction (zrange 0 c) as [|j l IH]; cbn; constructor.
  - unfold defd. apply guard_in. specialize (H j (or_introl eq_refl)). nia.
  - apply IH. intros x Hx. apply H. right. exact Hx.
Qed.

(** ** Forward *)

(** Global arrays of the forward pass: wavefields [n_shots, ...], [nsn] snapshots,
    [ntr] rows of receiver amplitudes. *)
Definition gfmem (nsn ntr : Z) (M : fglob K) : fglob OK :=
  mkfglob OK (guard (NS * n) (F_wfc K M)) (guard (NS * n) (F_wfp K M)) (fun d => guard (NS * n) (F_psi K M d))
    (fun d => guard (NS * n) (F_psin K M d)) (fun d => guard (NS * n) (F_zeta K M d))
    (gfam nsn (NS * n) (F_store K M)) (gfam ntr (NS * nrec) (F_r K M)).
Definition gv_arr (v : arr K) : arr OK := guard ((if batched then NS else 1) * n) v.

Definition twin (ntr : Z) (t : Z) : Prop := (0 <= t < ntr)%Z.

Lemma gfmem_rel nsn ntr M k : (0 <= k < NS)%Z ->
  crel K OK (defd K) (SP k) (twin ntr) (twin nsn) (fview K P0 nrec k M) (fview OK gpar nrec k (gfmem nsn ntr M)).
Proof.
  intros Hk. split; cbn; intros; try (apply sh_guard; exact Hk).
  - intros i Hi. unfold defd, sh. apply gfam_in; [exact H|]. cbn [p_shape gpar]. cbn in Hi. nia.
  - unfold gfam. unfold twin in H. destruct (Z.leb_spec 0 t), (Z.ltb_spec t ntr); try lia. cbn [andb]. apply row_guard. exact Hk.
Qed.

Lemma gv_rel v k : (0 <= k < NS)%Z -> arel K OK (defd K) n (shot_v K P0 batched v k) (shot_v OK gpar batched (gv_arr v) k).
Proof.
  intros Hk. unfold shot_v, gv_arr. destruct batched; [apply sh_guard; exact Hk|].
  intros i Hi. apply guard_in. lia.
Qed.

Hypothesis Hnsrc : (0 <= nsrc)%Z.
Hypothesis Hnrec : (0 <= nrec)%Z.
Variable pw : nat -> Z * Z.
Hypothesis Hg : geom_ok K P0 pw.
Hypothesis Hsrc : forall j, (0 <= j < NS * nsrc)%Z -> loc_ok K P0 (srcs j).
Hypothesis Hrec : forall j, (0 <= j < NS * nrec)%Z -> loc_ok K P0 (recs j).

Lemma src_lt k : (0 <= k < NS)%Z -> Forall (fun l => (l < prodZ (p_shape (SP k)))%Z) (p_src (SP k)).
Proof.
  intros Hk. apply Forall_forall. intros x Hx. apply row_In in Hx. destruct Hx as (j & Hj & ->).
  apply (loc_lt K P0 pw Hg). apply Hsrc. nia.
Qed.
Lemma rec_lt k : (0 <= k < NS)%Z -> Forall (fun l => (l < prodZ (p_shape (SP k)))%Z) (p_rec (SP k)).
Proof.
  intros Hk. apply Forall_forall. intros x Hx. apply row_In in Hx. destruct Hx as (j & Hj & ->).
  apply (loc_lt K P0 pw Hg). apply Hrec. nia.
Qed.

(** Nothing poisoned: every element of the shot's block equals that of the unguarded run. *)
Definition fdefined (nsn ntr : Z) (m : cmem K) (m' : cmem OK) : Prop :=
  (forall i, (0 <= i < n)%Z -> m_wfc OK m' i = Some (m_wfc K m i) /\ m_wfp OK m' i = Some (m_wfp K m i) /\
     (forall d, (d < nd)%nat -> m_psi OK m' d i = Some (m_psi K m d i) /\ m_psin OK m' d i = Some (m_psin K m d i) /\
        m_zeta OK m' d i = Some (m_zeta K m d i)) /\
     forall s, (0 <= s < nsn)%Z -> m_store OK m' s i = Some (m_store K m s i)) /\
  forall t, (0 <= t < ntr)%Z -> m_r OK m' t = map Some (m_r K m t).

Lemma defd_list l l' : Forall2 (defd K) l l' -> l' = map Some l.
Proof. induction 1 as [|x y l l' H _ IH]; [reflexivity|]. cbn. rewrite IH. unfold defd in H. rewrite H. reflexivity. Qed.

Lemma crel_defined nsn ntr k m m' : crel K OK (defd K) (SP k) (twin ntr) (twin nsn) m m' -> fdefined nsn ntr m m'.
Proof.
  intros [c1 c2 c3 c4 c5 c6 c7]. split.
  - intros i Hi. split; [apply c1; exact Hi|]. split; [apply c2; exact Hi|]. split.
    + intros d Hd. split; [apply (c3 d Hd i Hi)|]. split; [apply (c4 d Hd i Hi)|apply (c5 d Hd i Hi)].
    + intros s Hs. apply (c6 s Hs i Hi).
  - intros t Ht. apply defd_list. apply (c7 t Ht).
Qed.

(** One call of the compiled forward function, on the memory of shot [k]. *)
Lemma forward_safe (v : arr K) vis vrg sr f nt s0 nsn ntr M k :
  fvis K P0 pw vis -> (0 <= k < NS)%Z -> (0 < sr)%Z -> (0 <= s0)%Z -> (s0 + nt <= ntr)%Z -> (ntr <= nsn * sr)%Z ->
  fdefined nsn ntr
    (c_forward K (SP k) (shot_v K P0 batched v k) vis vrg sr (fun t => row (f t) nsrc k) nt s0 (fview K P0 nrec k M))
    (c_forward OK (GP k) (shot_v OK gpar batched (gv_arr v) k) vis vrg sr
       (fun t => row (gfam ntr (NS * nsrc) f t) nsrc k) nt s0 (fview OK gpar nrec k (gfmem nsn ntr M))).
Proof.
  intros Hv Hk Hsr Hs0 Hnt Hsn. apply (crel_defined nsn ntr k).
  apply (crel_forward K OK (defd K) (defd_ops K) (SP k) (GP k) (gpar_rel k) (src_lt k Hk) (rec_lt k Hk) (twin ntr) (twin nsn)).
  - intros reg p Hp. apply (fvis_in K P0 pw Hg vis reg p Hv Hp).
  - apply gv_rel. exact Hk.
  - intros t Ht. unfold gfam. unfold twin in Ht. destruct (Z.leb_spec 0 t), (Z.ltb_spec t ntr); try lia. cbn [andb]. apply row_guard. exact Hk.
  - intros t [Ht1 Ht2]. split; [apply Z.div_pos; lia|]. apply Z.div_lt_upper_bound; lia.
  - intros t Ht. apply In_zrange in Ht. unfold twin. lia.
  - apply gfmem_rel. exact Hk.
Qed.

(** ** Backward *)

Definition gbmem (nth ntr : Z) (M : bglob K) : bglob OK :=
  mkbglob OK (guard (NS * n) (B_wfc K M)) (guard (NS * n) (B_wfp K M)) (fun d => guard (NS * n) (B_psi K M d))
    (fun d => guard (NS * n) (B_psin K M d)) (fun d => guard (NS * n) (B_zeta K M d)) (fun d => guard (NS * n) (B_zetan K M d))
    (gfam ntr (NS * nsrc) (B_f K M)) (guard ((if batched then NS else nth) * n) (B_buf K M)) (guard n (B_gv K M)).

Definition bdefined (ntr : Z) (m : bmem K) (m' : bmem OK) : Prop :=
  (forall i, (0 <= i < n)%Z -> g_wfc OK m' i = Some (g_wfc K m i) /\ g_wfp OK m' i = Some (g_wfp K m i) /\
     (forall d, (d < nd)%nat -> g_psi OK m' d i = Some (g_psi K m d i) /\ g_psin OK m' d i = Some (g_psin K m d i) /\
        g_zeta OK m' d i = Some (g_zeta K m d i) /\ g_zetan OK m' d i = Some (g_zetan K m d i)) /\
     g_v OK m' i = Some (g_v K m i)) /\
  forall t, (0 <= t < ntr)%Z -> g_f OK m' t = map Some (g_f K m t).

Lemma backward_safe (v2 : arr K) vis store vrg sr gr nt s0 nsn ntr nth th M k :
  bvis K P0 pw vis -> (0 <= k < NS)%Z -> (0 <= th k < nth)%Z ->
  (0 < sr)%Z -> (nt <= s0)%Z -> (s0 <= ntr)%Z -> (ntr <= nsn * sr)%Z ->
  bdefined ntr
    (c_backward K (SP k) (shot_v K P0 batched v2 k) vis (fun s => sh K P0 k (store s)) vrg sr (fun t => row (gr t) nrec k) nt s0
       (bview K P0 nsrc batched th k M))
    (c_backward OK (GP k) (shot_v OK gpar batched (gv_arr v2) k) vis (fun s => sh OK gpar k (gfam nsn (NS * n) store s)) vrg sr
       (fun t => row (gfam ntr (NS * nrec) gr t) nrec k) nt s0 (bview OK gpar nsrc batched th k (gbmem nth ntr M))).
Proof.
  intros Hv Hk Hth Hsr Hs0 Hnt Hsn.
  pose proof (brelm_backward K OK (defd K) (defd_ops K) (SP k) (GP k) (gpar_rel k) (src_lt k Hk) (rec_lt k Hk) (twin ntr) (twin nsn)
    (shot_v K P0 batched v2 k) (shot_v OK gpar batched (gv_arr v2) k) vis vrg sr (fun s => sh K P0 k (store s))
    (fun s => sh OK gpar k (gfam nsn (NS * n) store s)) (fun t => row (gr t) nrec k) (fun t => row (gfam ntr (NS * nrec) gr t) nrec k)) as H.
  assert (X : brelm K OK (defd K) (SP k) (twin ntr)
    (c_backward K (SP k) (shot_v K P0 batched v2 k) vis (fun s => sh K P0 k (store s)) vrg sr (fun t => row (gr t) nrec k) nt s0
       (bview K P0 nsrc batched th k M))
    (c_backward OK (GP k) (shot_v OK gpar batched (gv_arr v2) k) vis (fun s => sh OK gpar k (gfam nsn (NS * n) store s)) vrg sr
       (fun t => row (gfam ntr (NS * nrec) gr t) nrec k) nt s0 (bview OK gpar nsrc batched th k (gbmem nth ntr M)))).
  { apply H; clear H.
    - intros reg p Hp. apply (bvis_in K P0 pw Hg vis reg p Hv Hp).
    - apply gv_rel. exact Hk.
    - intros t Ht. unfold gfam. unfold twin in Ht. destruct (Z.leb_spec 0 t), (Z.ltb_spec t ntr); try lia. cbn [andb]. apply row_guard. exact Hk.
    - intros t [Ht1 Ht2]. split; [apply Z.div_pos; lia|]. apply Z.div_lt_upper_bound; lia.
    - intros s Hs i Hi. unfold defd, sh. apply gfam_in; [exact Hs|]. cbn [p_shape gpar]. cbn in Hi. nia.
    - intros t Ht. apply in_rev, In_zrange in Ht. unfold twin. lia.
    - split; cbn; intros; try (apply sh_guard; exact Hk).
      + unfold gfam. unfold twin in H. destruct (Z.leb_spec 0 t), (Z.ltb_spec t ntr); try lia. cbn [andb]. apply row_guard. exact Hk.
      + intros i Hi. unfold defd, sh. cbn [p_shape gpar]. cbn in Hi. apply guard_in. unfold gblock. destruct batched; nia. }
  destruct X as [c1 c2 c3 c4 c5 c6 c7 c8]. split.
  - intros i Hi. split; [apply c1; exact Hi|]. split; [apply c2; exact Hi|]. split; [|apply c8; exact Hi].
    intros d Hd. split; [apply (c3 d Hd i Hi)|]. split; [apply (c4 d Hd i Hi)|]. split; [apply (c5 d Hd i Hi)|apply (c6 d Hd i Hi)].
  - intros t Ht. apply defd_list. apply (c7 t Ht).
Qed.

End Safe.

(** ** Writes *)

Section Writes.
Variable K : ops.
Hypothesis Kr : is_ring K.
Variable P0 : par K.
Variables NS nsrc nrec : Z.
Variables srcs recs : Z -> Z.
Variable batched : bool.
Notation shape := (p_shape P0).
Notation n := (prodZ shape).
Hypothesis Hnsrc : (0 <= nsrc)%Z.
Hypothesis Hnrec : (0 <= nrec)%Z.
Variable pw : nat -> Z * Z.
Hypothesis Hg : geom_ok K P0 pw.
Hypothesis Hsrc : forall j, (0 <= j < NS * nsrc)%Z -> loc_ok K P0 (srcs j).
Hypothesis Hrec : forall j, (0 <= j < NS * nrec)%Z -> loc_ok K P0 (recs j).

(** Cells of the shot's own block. *)
Definition own (k c j : Z) : Prop := (k * c <= j < k * c + c)%Z.

Lemma forward_writes (v : arr K) vis vrg sr f s0 nt M k a :
  fvis K P0 pw vis -> (0 <= k < NS)%Z -> In a (fprog vis nt s0) ->
  let M' := fexec K P0 nsrc nrec srcs recs batched v vrg sr f s0 M (k, a) in
  (forall j, ~ own k n j -> F_wfc K M' j = F_wfc K M j /\ F_wfp K M' j = F_wfp K M j /\
     (forall d, F_psi K M' d j = F_psi K M d j /\ F_psin K M' d j = F_psin K M d j /\ F_zeta K M' d j = F_zeta K M d j) /\
     forall s, F_store K M' s j = F_store K M s j) /\
  (forall s j, ~ (exists t, s = t / sr /\ s0 <= t < s0 + nt)%Z -> F_store K M' s j = F_store K M s j) /\
  (forall t j, ~ (s0 <= t < s0 + nt)%Z \/ ~ own k nrec j -> F_r K M' t j = F_r K M t j).
Proof.
  intros Hv Hk Ha M'.
  assert (Hok : aok K P0 a).
  { apply (fprog_aok K P0 s0 vis nt a); [|exact Ha]. intros reg p Hp. apply (fvis_in K P0 pw Hg vis reg p Hv Hp). }
  pose proof (fact_frame K Kr P0 NS nsrc nrec srcs recs batched Hnsrc Hnrec
    (fun j H => loc_lt K P0 pw Hg (srcs j) (Hsrc j H)) v vrg sr f s0 k (fview K P0 nrec k M) a Hk Hok) as Hf.
  cbv beta in Hf. match type of Hf with framed _ _ _ _ ?x => set (m' := x) in * end.
  assert (Ht : (s0 <= atime a < s0 + nt)%Z).
  { apply in_flat_map in Ha. destruct Ha as (t & Ht & Ha). apply In_zrange in Ht. apply in_app_or in Ha.
    destruct Ha as [Ha|[<-|[]]]; [|exact Ht]. apply in_map_iff in Ha. destruct Ha as (x & <- & _). exact Ht. }
  destruct Hf as [f1 f2 f3 f4 f5 f6 _]. unfold own. split; [|split].
  - intros j Hj. assert (Hj' : ~ (0 <= j - k * n < n)%Z) by lia.
    unfold M', fexec; cbn [fst snd fput F_wfc F_wfp F_psi F_psin F_zeta F_store]. fold m'. unfold unsh.
    assert (E : forall (x : arr K), sh K P0 k x (j - k * n)%Z = x j) by (intros x; unfold sh; f_equal; lia).
    rewrite f1, f2 by exact Hj'. cbn [fview m_wfc m_wfp]. rewrite !E. split; [reflexivity|]. split; [reflexivity|].
    split; [intros d; rewrite f3, f4, f5 by exact Hj'; cbn [fview m_psi m_psin m_zeta]; rewrite !E; auto|].
    intros s. rewrite f6 by exact Hj'. cbn [fview m_store]. apply E.
  - intros s j Hs. unfold M', fexec; cbn [fst snd fput F_store]. fold m'. unfold unsh.
    assert (E : m_store K m' s = m_store K (fview K P0 nrec k M) s \/ s = (atime a / sr)%Z).
    { destruct (Z.eq_dec s (atime a / sr)%Z) as [e|e]; [right; exact e|left]. unfold m', fact.
      destruct a as [t [reg p]|t]; cbn [atime] in *.
      - assert (G : forall m, m_store K (c_fwd_cell K (shot_par K P0 nsrc nrec srcs recs k) (shot_v K P0 batched v k) (vrg && (t mod sr =? 0)%Z) (t / sr)%Z m (reg, p)) s = m_store K m s).
        { intros m. unfold c_fwd_cell.
          assert (G2 : forall ds w m, m_store K (snd (fold_left (c_fwd_dim K (shot_par K P0 nsrc nrec srcs recs k) reg p) ds (w, m))) = m_store K m).
          { induction ds as [|d ds IH]; intros w m1; [reflexivity|]. cbn [fold_left].
            destruct (c_fwd_dim K (shot_par K P0 nsrc nrec srcs recs k) reg p (w, m1) d) as [w' m2] eqn:Ed. rewrite IH.
            unfold c_fwd_dim in Ed. destruct (_ =? 1)%Z in Ed; injection Ed as <- <-; reflexivity. }
          specialize (G2 (dims K (shot_par K P0 nsrc nrec srcs recs k)) 0 m).
          destruct (fold_left _ _ _) as [w m1]. cbn [snd] in G2. cbn [m_store].
          destruct (vrg && _); [|rewrite G2; reflexivity]. destruct (Z.eqb_spec s (t / sr)%Z); [contradiction|]. rewrite G2. reflexivity. }
        destruct (Z.odd _); [cbn [c_swap m_store]|]; rewrite G; reflexivity.
      - destruct (Z.odd _); reflexivity. }
    destruct E as [E|E].
    + rewrite E. cbn [fview m_store]. unfold sh. f_equal. lia.
    + exfalso. apply Hs. exists (atime a). auto.
  - intros t j Hc. unfold M', fexec; cbn [fst snd fput F_r]. fold m'. unfold put_row.
    destruct (Z.leb_spec (k * nrec) j), (Z.ltb_spec j (k * nrec + nrec)); cbn [andb]; try reflexivity.
    destruct Hc as [Hc|Hc]; [|lia].
    assert (E : m_r K m' t = m_r K (fview K P0 nrec k M) t).
    { unfold m', fact. destruct a as [t' [reg p]|t']; cbn [atime] in *.
      - assert (G : forall m, m_r K (c_fwd_cell K (shot_par K P0 nsrc nrec srcs recs k) (shot_v K P0 batched v k) (vrg && (t' mod sr =? 0)%Z) (t' / sr)%Z m (reg, p)) = m_r K m).
        { intros m. pose proof (c_fwd_cell_spec K Kr (shot_par K P0 nsrc nrec srcs recs k) (shot_v K P0 batched v k) (vrg && (t' mod sr =? 0)%Z) (t' / sr)%Z m reg p) as H1.
          cbv zeta in H1. tauto. }
        destruct (Z.odd _); [cbn [c_swap m_r]|]; rewrite G; reflexivity.
      - assert (G : (t =? t')%Z = false) by (apply Z.eqb_neq; lia).
        destruct (Z.odd _); cbn; rewrite G; reflexivity. }
    rewrite E. cbn [fview m_r]. replace j with (k * nrec + (j - k * nrec))%Z at 2 by lia. apply row_nth. lia.
Qed.

Lemma backward_writes (th : Z -> Z) (v2 : arr K) store vis vrg sr gr s0 nt M k a :
  bvis K P0 pw vis -> (0 <= k < NS)%Z -> In a (bprog vis nt s0) ->
  let M' := bexec K P0 nsrc nrec srcs recs batched th v2 store vrg sr gr s0 M (k, a) in
  (forall j, ~ own k n j -> B_wfc K M' j = B_wfc K M j /\ B_wfp K M' j = B_wfp K M j /\
     (forall d, B_psi K M' d j = B_psi K M d j /\ B_psin K M' d j = B_psin K M d j /\
                B_zeta K M' d j = B_zeta K M d j /\ B_zetan K M' d j = B_zetan K M d j)) /\
  (forall j, ~ own (gblock batched th k) n j -> B_buf K M' j = B_buf K M j) /\
  (forall t j, ~ (s0 - nt <= t < s0)%Z \/ ~ own k nsrc j -> B_f K M' t j = B_f K M t j).
Proof.
  intros Hv Hk Ha M'.
  assert (Hok : aok K P0 a).
  { apply (bprog_aok K P0 s0 vis nt a); [|exact Ha]. intros reg p Hp. apply (bvis_in K P0 pw Hg vis reg p Hv Hp). }
  pose proof (bact_frame K Kr P0 NS nsrc nrec srcs recs batched Hnsrc Hnrec
    (fun j H => loc_lt K P0 pw Hg (recs j) (Hrec j H)) v2 store vrg sr gr s0 k (bview K P0 nsrc batched th k M) a Hk Hok) as Hf.
  cbv beta in Hf. match type of Hf with bframed _ _ _ _ ?x => set (m' := x) in * end.
  assert (Ht : (s0 - nt <= atime a < s0)%Z).
  { apply in_flat_map in Ha. destruct Ha as (t & Ht & Ha). apply in_rev, In_zrange in Ht. apply in_app_or in Ha.
    destruct Ha as [Ha|[<-|[]]]; [|exact Ht]. apply in_map_iff in Ha. destruct Ha as (x & <- & _). exact Ht. }
  destruct Hf as [f1 f2 f3 f4 f5 f6 _]. unfold own. split; [|split].
  - intros j Hj. assert (Hj' : ~ (0 <= j - k * n < n)%Z) by lia.
    unfold M', bexec; cbn [fst snd bput B_wfc B_wfp B_psi B_psin B_zeta B_zetan]. fold m'. unfold unsh.
    assert (E : forall (x : arr K), sh K P0 k x (j - k * n)%Z = x j) by (intros x; unfold sh; f_equal; lia).
    rewrite f1, f2 by exact Hj'. cbn [bview g_wfc g_wfp]. rewrite !E. split; [reflexivity|]. split; [reflexivity|].
    intros d; rewrite f3, f4, f5, f6 by exact Hj'; cbn [bview g_psi g_psin g_zeta g_zetan]; rewrite !E; auto.
  - intros j Hj. unfold M', bexec; cbn [fst snd bput B_buf]. unfold unsh.
    rewrite (act_gv K Kr P0 nsrc nrec srcs recs batched v2 store vrg sr gr s0 k (bview K P0 nsrc batched th k M) a).
    rewrite (contrib_out K P0 store vrg sr s0 k _ a _ Hok) by lia. cbn [bview g_v]. unfold sh.
    replace (gblock batched th k * n + (j - gblock batched th k * n))%Z with j by lia.
    rewrite (Radd_comm Kr). apply (Radd_0_l Kr).
  - intros t j Hc. unfold M', bexec; cbn [fst snd bput B_f]. fold m'. unfold put_row.
    destruct (Z.leb_spec (k * nsrc) j), (Z.ltb_spec j (k * nsrc + nsrc)); cbn [andb]; try reflexivity.
    destruct Hc as [Hc|Hc]; [|lia].
    assert (E : g_f K m' t = g_f K (bview K P0 nsrc batched th k M) t).
    { unfold m', bact. destruct a as [t' [reg p]|t']; cbn [atime] in *.
      - assert (G : forall m, g_f K (c_bwd_cell K (shot_par K P0 nsrc nrec srcs recs k) (shot_v K P0 batched v2 k) (fun s => sh K P0 k (store s)) (vrg && (t' mod sr =? 0)%Z) sr (t' / sr)%Z m (reg, p)) = g_f K m).
        { intros m. pose proof (c_bwd_cell_spec K Kr (shot_par K P0 nsrc nrec srcs recs k) (shot_v K P0 batched v2 k) (fun s => sh K P0 k (store s)) sr (vrg && (t' mod sr =? 0)%Z) (t' / sr)%Z m reg p) as H1.
          cbv zeta in H1. tauto. }
        destruct (Z.odd _); [cbn [b_swap g_f]|]; rewrite G; reflexivity.
      - assert (G : (t =? t')%Z = false) by (apply Z.eqb_neq; lia).
        destruct (Z.odd _); cbn; rewrite G; reflexivity. }
    rewrite E. cbn [bview g_f]. replace j with (k * nsrc + (j - k * nsrc))%Z at 2 by lia. apply row_nth. lia.
Qed.

End Writes.
