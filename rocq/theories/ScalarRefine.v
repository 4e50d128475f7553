(** * The compiled scalar kernels compute the central step.

    Proof files: no definition here models code. *)
From Coq Require Import List ZArith QArith Ring Ring_theory Lia Bool Permutation.
From Verif Require Import Ops Sums Grid Stencil ScalarModel.
Import ListNotations.
Local Open Scope K_scope.

(** ** Index arithmetic *)

Lemma idx_unidx s i :
  Forall (fun n => 0 < n)%Z s -> (0 <= i < prodZ s)%Z -> idx s (unidx s i) = i.
Proof.
  intros Hs. revert i; induction Hs as [|n s Hn Hs IH]; intros i Hi; cbn in *; [lia|].
  assert (Hp : (0 < prodZ s)%Z).
  { clear - Hs. induction Hs; cbn; [lia|]. nia. }
  rewrite IH by (apply Z.mod_pos_bound; lia).
  pose proof (Z.div_mod i (prodZ s)). lia.
Qed.

Lemma unidx_in_array s i :
  Forall (fun n => 0 < n)%Z s -> (0 <= i < prodZ s)%Z -> inb (abox s) (unidx s i) = true.
Proof.
  intros Hs. revert i; induction Hs as [|n s Hn Hs IH]; intros i Hi; cbn in *; [reflexivity|].
  assert (Hp : (0 < prodZ s)%Z).
  { clear - Hs. induction Hs; cbn; [lia|]. nia. }
  assert (0 <= i / prodZ s < n)%Z.
  { split; [apply Z.div_pos; lia|]. apply Z.div_lt_upper_bound; lia. }
  rewrite !andb_true_iff, Z.leb_le, Z.ltb_lt.
  split; [lia|]. apply IH. apply Z.mod_pos_bound. lia.
Qed.

Lemma inb_abox_pos s p : inb (abox s) p = true -> Forall (fun n => 0 < n)%Z s.
Proof.
  revert p; induction s as [|n s IH]; intros [|x p]; cbn; try discriminate; intros H; constructor.
  - rewrite !andb_true_iff, Z.leb_le, Z.ltb_lt in H. lia.
  - rewrite !andb_true_iff in H. apply (IH p). tauto.
Qed.

Lemma unidx_idx s p : inb (abox s) p = true -> unidx s (idx s p) = p.
Proof.
  intros H. pose proof (inb_abox_pos s p H) as Hs. pose proof (idx_bound s p H) as Hb.
  apply (idx_inj s); auto using unidx_in_array, idx_unidx.
Qed.

Lemma fd_pad_pos a : (1 <= fd_pad a)%Z.
Proof. destruct a; cbn; lia. Qed.

Section Refine.
Variable K : ops.
Hypothesis Kr : is_ring K.
Add Ring KRing : Kr.
Variable P : par K.

Notation shape := (p_shape P).
Notation fd := (fd_pad (p_acc P)).
Notation inarr p := (inb (abox shape) p = true).
Notation inint p := (interior K P p = true).

(** What the property-level theorems assume about locations: ignored, or an interior cell
    (guaranteed by [extract_locations], property C19). *)
Definition loc_ok (l : Z) : Prop :=
  (l < 0)%Z \/ ((0 <= l < prodZ shape)%Z /\ inint (unidx shape l)).

Lemma inint_arr p : inint p -> inarr p.
Proof. intros H. apply (interior_in_array fd); [pose proof (fd_pad_pos (p_acc P)); lia|exact H]. Qed.

Lemma inint_shift d k p : inint p -> (- fd <= k <= fd)%Z -> inarr (shift d k p).
Proof.
  intros H Hk. apply (interior_shift_in_array fd); auto.
  pose proof (fd_pad_pos (p_acc P)); lia.
Qed.

Lemma inint_length p : inint p -> length p = length shape.
Proof. intros H. apply inb_length in H. rewrite ibox_length in H. exact H. Qed.

Lemma inarr_length p : inarr p -> length p = length shape.
Proof. intros H. apply inb_length in H. rewrite abox_length in H. exact H. Qed.

Lemma loc_ok_idx l : loc_ok l -> (0 <= l)%Z ->
  exists p, inint p /\ idx shape p = l /\ unidx shape l = p.
Proof.
  intros [H|[H1 H2]] Hl; [lia|].
  exists (unidx shape l). split; [exact H2|]. split; [|reflexivity].
  apply idx_unidx; auto. apply (inb_abox_pos _ (unidx shape l)). apply inint_arr, H2.
Qed.

(** ** Injection and recording *)

Lemma add_to_wavefield_inject locs amps (m : arr K) (f : field K) :
  Forall loc_ok locs ->
  (forall p, inarr p -> m (idx shape p) = f p) ->
  forall p, inarr p ->
    add_to_wavefield K m locs amps (idx shape p) = inject K P locs amps f p.
Proof.
  intros Hl Hm p Hp. unfold add_to_wavefield, inject.
  assert (G : forall l (m : arr K), Forall (fun la : Z * K => loc_ok (fst la)) l ->
    fold_left (fun m la => if (0 <=? fst la)%Z then upd m (fst la) (m (fst la) + snd la) else m)
      l m (idx shape p)
    = m (idx shape p) + sumf l (fun la => if (0 <=? fst la)%Z &&
         (if pt_eq_dec (unidx shape (fst la)) p then true else false) then snd la else 0)).
  { clear m Hm Hl f. induction l as [|[l x] ls IH]; intros m Hl; cbn [fold_left sumf fst snd].
    - ring.
    - inversion Hl as [|? ? Hl1 Hl2]; subst. rewrite IH by assumption. clear IH Hl2. cbn [fst] in Hl1.
      destruct (Z.leb_spec 0 l) as [H0|H0]; cbn [andb]; [|ring].
      destruct (loc_ok_idx l Hl1 H0) as (q & Hq & Eq & Eu). rewrite Eu.
      unfold upd. destruct (Z.eqb_spec (idx shape p) l) as [E|E].
      + destruct (pt_eq_dec q p) as [->|N]; [rewrite E; ring|].
        exfalso. apply N. apply (idx_inj shape); auto using inint_arr. lia.
      + destruct (pt_eq_dec q p) as [->|N]; [congruence|ring]. }
  rewrite G.
  - rewrite Hm by exact Hp. reflexivity.
  - apply Forall_forall. intros [l x] Hin. apply in_combine_l in Hin.
    rewrite Forall_forall in Hl. apply Hl. exact Hin.
Qed.

Lemma record_gather locs old (m : arr K) (f : field K) :
  Forall loc_ok locs -> old = map (fun _ => 0) locs ->
  (forall p, inarr p -> m (idx shape p) = f p) ->
  record_from_wavefield K m locs old = gather K P locs f.
Proof.
  intros Hl -> Hm. unfold record_from_wavefield, gather.
  induction Hl as [|l ls Hl1 Hl2 IH]; cbn; [reflexivity|].
  rewrite IH. f_equal.
  destruct (Z.leb_spec 0 l) as [H0|H0]; [|reflexivity].
  destruct (loc_ok_idx l Hl1 H0) as (q & Hq & Eq & Eu). rewrite Eu, <- Eq.
  apply Hm. apply inint_arr, Hq.
Qed.

(** ** One dimension, one cell *)

Definition cD1 (w : arr K) (p : pt) (d : nat) : K :=
  DIFF1 (p_acc P) (p_rd P d) (fun k => w (idx shape p + k * stride shape d)%Z).
Definition cD2 (w : arr K) (p : pt) (d : nat) : K :=
  DIFF2 (p_acc P) (p_rd2 P d) (fun k => w (idx shape p + k * stride shape d)%Z).
Definition cDA (psi : arr K) (p : pt) (d : nat) : K :=
  DIFF1 (p_acc P) (p_rd P d)
    (fun k => p_a P d (coord d p + k)%Z * psi (idx shape p + k * stride shape d)%Z).
Definition ctmp (w psi : arr K) (p : pt) (d : nat) : K :=
  (1 + pb K P d p) * cD2 w p d + pdb K P d p * cD1 w p d + cDA psi p d.

Definition in1 (reg : list Z) (d : nat) : bool := (nth d reg 0 =? 1)%Z.

Definition ccontrib (reg : list Z) (m : cmem K) (p : pt) (d : nat) : K :=
  if in1 reg d then cD2 (m_wfc K m) p d
  else (1 + pb K P d p) * ctmp (m_wfc K m) (m_psi K m d) p d
       + pa K P d p * m_zeta K m d (idx shape p).

Lemma c_fwd_dims reg p ds m ws :
  NoDup ds ->
  let '(ws', m') := fold_left (c_fwd_dim K P reg p) ds (ws, m) in
  ws' = ws + sumf ds (ccontrib reg m p) /\
  m_wfc K m' = m_wfc K m /\ m_wfp K m' = m_wfp K m /\ m_psi K m' = m_psi K m /\
  m_store K m' = m_store K m /\ m_r K m' = m_r K m /\
  (forall d i, m_psin K m' d i =
     if (existsb (Nat.eqb d) ds && negb (in1 reg d) && (i =? idx shape p)%Z)
     then pb K P d p * cD1 (m_wfc K m) p d + pa K P d p * m_psi K m d (idx shape p)
     else m_psin K m d i) /\
  (forall d i, m_zeta K m' d i =
     if (existsb (Nat.eqb d) ds && negb (in1 reg d) && (i =? idx shape p)%Z)
     then pb K P d p * ctmp (m_wfc K m) (m_psi K m d) p d + pa K P d p * m_zeta K m d (idx shape p)
     else m_zeta K m d i).
Proof.
  revert m ws. induction ds as [|d ds IH]; intros m ws Hn.
  - cbn. repeat split; intros; ring.
  - inversion Hn as [|? ? Hd Hn']; subst.
    cbn [fold_left]. set (m1 := snd (c_fwd_dim K P reg p (ws, m) d)).
    set (w1 := fst (c_fwd_dim K P reg p (ws, m) d)).
    specialize (IH m1 w1 Hn').
    replace (c_fwd_dim K P reg p (ws, m) d) with (w1, m1)
      by (unfold w1, m1; symmetry; apply surjective_pairing).
    destruct (fold_left (c_fwd_dim K P reg p) ds (w1, m1)) as [ws' m'].
    destruct IH as (E1 & E2 & E3 & E4 & E5 & E6 & E7 & E8).
    assert (Hm1 : m_wfc K m1 = m_wfc K m /\ m_wfp K m1 = m_wfp K m /\ m_psi K m1 = m_psi K m /\
                  m_store K m1 = m_store K m /\ m_r K m1 = m_r K m).
    { unfold m1, c_fwd_dim. destruct (nth d reg 0 =? 1)%Z; cbn; auto. }
    destruct Hm1 as (F2 & F3 & F4 & F5 & F6).
    assert (Hw1 : w1 = ws + ccontrib reg m p d).
    { unfold w1, c_fwd_dim, ccontrib, in1.
      destruct (nth d reg 0 =? 1)%Z; cbn; reflexivity. }
    assert (Hz : forall e i, e <> d -> m_zeta K m1 e i = m_zeta K m e i).
    { intros e i Ne. unfold m1, c_fwd_dim. destruct (nth d reg 0 =? 1)%Z; cbn; [reflexivity|].
      unfold updd. destruct (Nat.eqb_spec e d); [contradiction|reflexivity]. }
    assert (Hp : forall e i, e <> d -> m_psin K m1 e i = m_psin K m e i).
    { intros e i Ne. unfold m1, c_fwd_dim. destruct (nth d reg 0 =? 1)%Z; cbn; [reflexivity|].
      unfold updd. destruct (Nat.eqb_spec e d); [contradiction|reflexivity]. }
    assert (Hex : existsb (Nat.eqb d) ds = false).
    { apply not_true_is_false. rewrite existsb_exists. intros (x & Hx & Ex).
      apply Nat.eqb_eq in Ex. subst. contradiction. }
    repeat split; try congruence.
    + rewrite E1, Hw1. cbn [sumf].
      rewrite (sumf_ext K ds (ccontrib reg m1 p) (ccontrib reg m p)); [ring|].
      intros e He. unfold ccontrib. rewrite F2, F4.
      rewrite Hz; [reflexivity|]. intros ->. contradiction.
    + intros e i. rewrite E7, F2, F4. cbn [existsb].
      destruct (Nat.eqb_spec e d) as [->|Ne]; cbn [orb andb].
      * rewrite Hex. cbn [andb]. unfold m1, c_fwd_dim, in1.
        destruct (nth d reg 0 =? 1)%Z; cbn; [reflexivity|].
        unfold updd. rewrite Nat.eqb_refl. unfold upd. reflexivity.
      * rewrite Hp by assumption. reflexivity.
    + intros e i. rewrite E8, F2, F4. cbn [existsb].
      destruct (Nat.eqb_spec e d) as [->|Ne]; cbn [orb andb].
      * rewrite Hex. cbn [andb]. unfold m1, c_fwd_dim, in1.
        destruct (nth d reg 0 =? 1)%Z; cbn; [reflexivity|].
        unfold updd. rewrite Nat.eqb_refl. unfold upd. reflexivity.
      * rewrite !Hz by assumption. reflexivity.
Qed.

Definition indims (d : nat) : bool := existsb (Nat.eqb d) (dims K P).

Lemma indims_spec d : indims d = true <-> (d < length shape)%nat.
Proof.
  unfold indims, dims. rewrite existsb_exists. split.
  - intros (x & Hx & E). apply in_seq in Hx. apply Nat.eqb_eq in E. lia.
  - intros H. exists d. split; [apply in_seq; lia|apply Nat.eqb_refl].
Qed.

Lemma NoDup_dims : NoDup (dims K P).
Proof. apply seq_NoDup. Qed.

Definition cwsum (reg : list Z) (m : cmem K) (p : pt) : K := sumf (dims K P) (ccontrib reg m p).

(** Effect of one cell on every array. *)
Lemma c_fwd_cell_spec v sto si m reg p :
  let m' := c_fwd_cell K P v sto si m (reg, p) in
  let i := idx shape p in
  m_wfc K m' = m_wfc K m /\ m_psi K m' = m_psi K m /\ m_r K m' = m_r K m /\
  (forall j, m_wfp K m' j = if (j =? i)%Z
     then v i * v i * p_dt2 P * cwsum reg m p + two * m_wfc K m i - m_wfp K m i
     else m_wfp K m j) /\
  (forall d j, m_psin K m' d j =
     if (indims d && negb (in1 reg d) && (j =? i)%Z)
     then pb K P d p * cD1 (m_wfc K m) p d + pa K P d p * m_psi K m d i
     else m_psin K m d j) /\
  (forall d j, m_zeta K m' d j =
     if (indims d && negb (in1 reg d) && (j =? i)%Z)
     then pb K P d p * ctmp (m_wfc K m) (m_psi K m d) p d + pa K P d p * m_zeta K m d i
     else m_zeta K m d j) /\
  (forall s j, m_store K m' s j = if (sto && (s =? si)%Z && (j =? i)%Z)
     then two * v i * p_dt2 P * cwsum reg m p else m_store K m s j).
Proof.
  pose proof (c_fwd_dims reg p (dims K P) m 0 NoDup_dims) as H.
  unfold c_fwd_cell. destruct (fold_left _ _ _) as [ws m1].
  destruct H as (E1 & E2 & E3 & E4 & E5 & E6 & E7 & E8).
  assert (Ews : ws = cwsum reg m p) by (rewrite E1; unfold cwsum; ring).
  clear E1. subst ws. cbn.
  repeat split; auto.
  - intros j. unfold upd. rewrite E2, E3. reflexivity.
  - intros s j. rewrite E5. destruct sto; cbn [andb]; [|reflexivity].
    destruct (Z.eqb_spec s si) as [->|N]; cbn [andb]; [|reflexivity].
    unfold upd. reflexivity.
Qed.

(** ** All cells, in any order *)

Lemma ccontrib_ext reg m m' p d :
  m_wfc K m' = m_wfc K m -> m_psi K m' = m_psi K m ->
  m_zeta K m' d (idx shape p) = m_zeta K m d (idx shape p) ->
  ccontrib reg m' p d = ccontrib reg m p d.
Proof. intros H1 H2 H3. unfold ccontrib. rewrite H1, H2, H3. reflexivity. Qed.

Lemma cwsum_ext reg m m' p :
  m_wfc K m' = m_wfc K m -> m_psi K m' = m_psi K m ->
  (forall d, m_zeta K m' d (idx shape p) = m_zeta K m d (idx shape p)) ->
  cwsum reg m' p = cwsum reg m p.
Proof.
  intros H1 H2 H3. apply sumf_ext. intros d _. apply ccontrib_ext; auto.
Qed.

(** Result at the cell [p] visited in region [reg], as a function of the initial memory. *)
Definition cell_result (v : arr K) (sto : bool) (si : Z) (m m' : cmem K) (rp : list Z * pt) : Prop :=
  let '(reg, p) := rp in let i := idx shape p in
  m_wfp K m' i = v i * v i * p_dt2 P * cwsum reg m p + two * m_wfc K m i - m_wfp K m i /\
  (forall d, m_psin K m' d i =
     if (indims d && negb (in1 reg d))
     then pb K P d p * cD1 (m_wfc K m) p d + pa K P d p * m_psi K m d i
     else m_psin K m d i) /\
  (forall d, m_zeta K m' d i =
     if (indims d && negb (in1 reg d))
     then pb K P d p * ctmp (m_wfc K m) (m_psi K m d) p d + pa K P d p * m_zeta K m d i
     else m_zeta K m d i) /\
  (sto = true -> m_store K m' si i = two * v i * p_dt2 P * cwsum reg m p).

Lemma c_fwd_cells_spec v sto si vis m :
  NoDup (map (fun rp : list Z * pt => idx shape (snd rp)) vis) ->
  let m' := fold_left (c_fwd_cell K P v sto si) vis m in
  m_wfc K m' = m_wfc K m /\ m_psi K m' = m_psi K m /\ m_r K m' = m_r K m /\
  (forall rp, In rp vis -> cell_result v sto si m m' rp) /\
  (forall j, (forall rp, In rp vis -> idx shape (snd rp) <> j) ->
     m_wfp K m' j = m_wfp K m j /\
     (forall d, m_psin K m' d j = m_psin K m d j) /\
     (forall d, m_zeta K m' d j = m_zeta K m d j)) /\
  (forall s j, (sto && (s =? si)%Z = false \/ (forall rp, In rp vis -> idx shape (snd rp) <> j)) ->
     m_store K m' s j = m_store K m s j).
Proof.
  revert m. induction vis as [|[reg p] vis IH]; intros m Hn; cbn [fold_left].
  - repeat split; auto; intros rp [].
  - cbn [map snd] in Hn. inversion Hn as [|? ? Hp Hn']; subst.
    set (m1 := c_fwd_cell K P v sto si m (reg, p)).
    pose proof (c_fwd_cell_spec v sto si m reg p) as C. cbv zeta in C. fold m1 in C.
    destruct C as (C1 & C2 & C3 & C4 & C5 & C6 & C7).
    specialize (IH m1 Hn'). cbv zeta in IH.
    set (m' := fold_left (c_fwd_cell K P v sto si) vis m1) in *.
    destruct IH as (I1 & I2 & I3 & I4 & I5 & I6).
    assert (Hne : forall rp, In rp vis -> idx shape (snd rp) <> idx shape p).
    { intros rp Hin E. apply Hp. rewrite <- E. apply in_map_iff. exists rp. auto. }
    split; [congruence|]. split; [congruence|]. split; [congruence|].
    split; [|split].
    + intros [reg' q] [E|Hin].
      * inversion E; subst reg' q. clear E.
        destruct (I5 (idx shape p) Hne) as (J1 & J2 & J3).
        unfold cell_result. rewrite J1, C4, Z.eqb_refl. split; [reflexivity|].
        split; [|split].
        -- intros d. rewrite J2, C5, Z.eqb_refl, andb_true_r. reflexivity.
        -- intros d. rewrite J3, C6, Z.eqb_refl, andb_true_r. reflexivity.
        -- intros Hs. rewrite I6 by (right; exact Hne). rewrite C7, Hs, !Z.eqb_refl. reflexivity.
      * specialize (I4 (reg', q) Hin). unfold cell_result in I4 |- *.
        assert (Nq : idx shape q <> idx shape p) by (apply (Hne (reg', q)); exact Hin).
        destruct I4 as (J1 & J2 & J3 & J4).
        assert (Z1 : forall d, m_zeta K m1 d (idx shape q) = m_zeta K m d (idx shape q)).
        { intros d. rewrite C6. destruct (Z.eqb_spec (idx shape q) (idx shape p)); [contradiction|].
          rewrite andb_false_r. reflexivity. }
        assert (P1 : forall d, m_psin K m1 d (idx shape q) = m_psin K m d (idx shape q)).
        { intros d. rewrite C5. destruct (Z.eqb_spec (idx shape q) (idx shape p)); [contradiction|].
          rewrite andb_false_r. reflexivity. }
        assert (W1 : m_wfp K m1 (idx shape q) = m_wfp K m (idx shape q)).
        { rewrite C4. destruct (Z.eqb_spec (idx shape q) (idx shape p)); [contradiction|reflexivity]. }
        assert (S1 : cwsum reg' m1 q = cwsum reg' m q) by (apply cwsum_ext; auto).
        rewrite S1, C1, W1 in J1. rewrite S1 in J4. repeat split; auto.
        -- intros d. rewrite J2, P1, C1, C2. reflexivity.
        -- intros d. rewrite J3, Z1, C1, C2. reflexivity.
    + intros j Hj.
      assert (Hj' : forall rp, In rp vis -> idx shape (snd rp) <> j) by (intros; apply Hj; right; auto).
      assert (Hpj : (j =? idx shape p)%Z = false).
      { apply Z.eqb_neq. intros ->. apply (Hj (reg, p)); [left; reflexivity|reflexivity]. }
      destruct (I5 j Hj') as (J1 & J2 & J3).
      rewrite J1, C4, Hpj. split; [reflexivity|].
      split; intros d; [rewrite J2, C5 | rewrite J3, C6]; rewrite Hpj, andb_false_r; reflexivity.
    + intros s j Hj. rewrite I6.
      2:{ destruct Hj as [Hj|Hj]; [left; exact Hj|right; intros; apply Hj; right; auto]. }
      rewrite C7. destruct Hj as [Hj|Hj]; [rewrite Hj; reflexivity|].
      assert (Hpj : (j =? idx shape p)%Z = false).
      { apply Z.eqb_neq. intros ->. apply (Hj (reg, p)); [left; reflexivity|reflexivity]. }
      rewrite Hpj, andb_false_r. reflexivity.
Qed.

(** ** From flat stencils to field stencils *)

Lemma cD1_field (w : arr K) (f : field K) p d :
  inint p -> (forall q, inarr q -> w (idx shape q) = f q) -> cD1 w p d = d1 K P d f p.
Proof.
  intros Hp Hw. unfold cD1, d1, D1. apply DIFF1_ext. intros j Hj _.
  rewrite <- idx_shift by (apply inint_length; exact Hp). apply Hw. apply inint_shift; auto.
Qed.

Lemma cD2_field (w : arr K) (f : field K) p d :
  inint p -> (forall q, inarr q -> w (idx shape q) = f q) -> cD2 w p d = d2 K P d f p.
Proof.
  intros Hp Hw. unfold cD2, d2, D2. apply DIFF2_ext. intros j Hj.
  rewrite <- idx_shift by (apply inint_length; exact Hp). apply Hw. apply inint_shift; auto.
Qed.

Lemma cDA_field (psi : arr K) (f : field K) p d :
  inint p -> (d < length shape)%nat -> (forall q, inarr q -> psi (idx shape q) = f q) ->
  cDA psi p d = d1 K P d (fun q => pa K P d q * f q) p.
Proof.
  intros Hp Hd Hw. unfold cDA, d1, D1. apply DIFF1_ext. intros j Hj _.
  rewrite <- idx_shift by (apply inint_length; exact Hp). unfold pa.
  rewrite coord_shift_same by (rewrite inint_length; auto).
  f_equal. apply Hw. apply inint_shift; auto.
Qed.

(** ** Regions *)

(** The part of the interior in which the PML variables of dimension [d] are updated. *)
Definition inpml (pml0 pml1 : nat -> Z) (d : nat) (p : pt) : bool :=
  negb ((pml0 d <=? coord d p) && (coord d p <? pml1 d))%Z.

(** Requirements on the profiles: zero where the kernels skip them. *)
Definition prof_ok (pml0 pml1 : nat -> Z) : Prop :=
  forall d y, (d < length shape)%nat ->
    ((pml0 d - fd <= y < pml1 d + fd)%Z -> (pml0 d < pml1 d)%Z -> p_a P d y = 0) /\
    ((pml0 d <= y < pml1 d)%Z -> p_b P d y = 0 /\ p_db P d y = 0).

(** What is needed of a visiting order: every interior cell exactly once, in a region code
    which is 1 exactly when the cell is between the PML boundaries. *)
Definition vis_ok (pml0 pml1 : nat -> Z) (vis : list (list Z * pt)) : Prop :=
  NoDup (map snd vis) /\
  (forall p, inint p <-> exists reg, In (reg, p) vis) /\
  (forall reg p d, In (reg, p) vis -> (d < length shape)%nat ->
     in1 reg d = negb (inpml pml0 pml1 d p)).

Lemma vis_ok_perm pml0 pml1 vis vis' :
  Permutation vis vis' -> vis_ok pml0 pml1 vis -> vis_ok pml0 pml1 vis'.
Proof.
  intros Hp (H1 & H2 & H3). split; [|split].
  - apply (Permutation_NoDup (l := map snd vis)); auto using Permutation_map.
  - intros p. rewrite H2. split; intros (r & Hr); exists r;
      [apply (Permutation_in _ Hp)|apply (Permutation_in _ (Permutation_sym Hp))]; exact Hr.
  - intros reg p d Hin. apply H3. apply (Permutation_in _ (Permutation_sym Hp)). exact Hin.
Qed.

Lemma region_bounds_fst_snd pml0 pml1 r d (H : (d < length shape)%nat) :
  nth d (region_box K P pml0 pml1 r) (0%Z, 0%Z) = region_bounds K P pml0 pml1 d (nth d r 0%Z).
Proof.
  unfold region_box, dims.
  rewrite (nth_indep _ (0%Z,0%Z) (region_bounds K P pml0 pml1 (length shape) (nth (length shape) r 0%Z)))
    by (rewrite map_length, seq_length; exact H).
  rewrite (map_nth (fun d => region_bounds K P pml0 pml1 d (nth d r 0%Z))).
  rewrite seq_nth by exact H. reflexivity.
Qed.

Lemma In_visits pml0 pml1 r p :
  In (r, p) (visits K P pml0 pml1) <->
  length r = length shape /\ length p = length shape /\
  forall d, (d < length shape)%nat ->
    (0 <= nth d r 0 < 3)%Z /\
    (fst (region_bounds K P pml0 pml1 d (nth d r 0)) <= coord d p
     < snd (region_bounds K P pml0 pml1 d (nth d r 0)))%Z.
Proof.
  unfold visits. rewrite in_flat_map.
  assert (Hr : forall r, In r (regions K P) <->
             length r = length shape /\ forall d, (d < length shape)%nat -> (0 <= nth d r 0 < 3)%Z).
  { intros x. unfold regions. rewrite In_box_pts, inb_spec, repeat_length.
    split; intros [H1 H2]; (split; [exact H1|]); intros d Hd; specialize (H2 d Hd);
      rewrite nth_repeat in * || idtac; unfold coord in *.
    - assert (E : nth d (repeat (0%Z, 3%Z) (length shape)) (0%Z,0%Z) = (0%Z,3%Z)).
      { rewrite (nth_indep _ _ (0%Z,3%Z)) by (rewrite repeat_length; lia). apply nth_repeat. }
      rewrite E in H2. exact H2.
    - assert (E : nth d (repeat (0%Z, 3%Z) (length shape)) (0%Z,0%Z) = (0%Z,3%Z)).
      { rewrite (nth_indep _ _ (0%Z,3%Z)) by (rewrite repeat_length; lia). apply nth_repeat. }
      rewrite E. exact H2. }
  assert (Hb : forall x, In p (box_pts (region_box K P pml0 pml1 x)) <->
             length p = length shape /\ forall d, (d < length shape)%nat ->
               (fst (region_bounds K P pml0 pml1 d (nth d x 0)) <= coord d p
                < snd (region_bounds K P pml0 pml1 d (nth d x 0)))%Z).
  { intros x. rewrite In_box_pts, inb_spec.
    assert (E : length (region_box K P pml0 pml1 x) = length shape)
      by (unfold region_box, dims; rewrite map_length, seq_length; reflexivity).
    rewrite E. split; intros [H1 H2]; (split; [exact H1|]); intros d Hd; specialize (H2 d Hd);
      rewrite region_bounds_fst_snd in * by exact Hd; exact H2. }
  split.
  - intros (x & Hx & Hin). apply in_map_iff in Hin. destruct Hin as (q & E & Hq).
    inversion E; subst x q. apply Hr in Hx. apply Hb in Hq.
    destruct Hx as [? Hx]. destruct Hq as [? Hq]. repeat split; auto; try apply Hx; try apply Hq; auto.
  - intros (H1 & H2 & H3). exists r. split.
    + apply Hr. split; [exact H1|]. intros d Hd. apply H3; exact Hd.
    + apply in_map_iff. exists p. split; [reflexivity|]. apply Hb. split; [exact H2|].
      intros d Hd. apply H3. exact Hd.
Qed.

(** The program order satisfies [vis_ok], provided the boundaries are ordered. *)
Definition bounds_ok (pml0 pml1 : nat -> Z) : Prop :=
  forall d, (d < length shape)%nat ->
    (fd <= pml0 d <= pml1 d)%Z /\ (pml1 d <= nth d shape 0 - fd)%Z.

Definition code (pml0 pml1 : nat -> Z) (p : pt) (d : nat) : Z :=
  if (coord d p <? pml0 d)%Z then 0%Z else if (coord d p <? pml1 d)%Z then 1%Z else 2%Z.

Lemma visits_ok pml0 pml1 :
  bounds_ok pml0 pml1 -> vis_ok pml0 pml1 (visits K P pml0 pml1).
Proof.
  intros Hb.
  assert (Hcode : forall r p, In (r, p) (visits K P pml0 pml1) ->
            r = map (code pml0 pml1 p) (seq 0 (length shape))).
  { intros r p Hin. apply In_visits in Hin. destruct Hin as (H1 & H2 & H3).
    apply (nth_ext _ _ 0%Z (code pml0 pml1 p 0)).
    - rewrite map_length, seq_length. exact H1.
    - intros d Hd. rewrite H1 in Hd. rewrite map_nth, seq_nth by exact Hd. cbn [plus].
      specialize (H3 d Hd). destruct (Hb d Hd) as [B1 B2]. unfold region_bounds in H3.
      unfold code. destruct H3 as [H3 H4].
      destruct (Z.eqb_spec (nth d r 0%Z) 0) as [E|E]; cbn [fst snd] in H4.
      + destruct (Z.ltb_spec (coord d p) (pml0 d)); lia.
      + destruct (Z.eqb_spec (nth d r 0%Z) 1) as [E'|E']; cbn [fst snd] in H4.
        * destruct (Z.ltb_spec (coord d p) (pml0 d)); [lia|].
          destruct (Z.ltb_spec (coord d p) (pml1 d)); lia.
        * destruct (Z.ltb_spec (coord d p) (pml0 d)); [lia|].
          destruct (Z.ltb_spec (coord d p) (pml1 d)); lia. }
  split; [|split].
  - apply NoDup_map_inj.
    + intros [r p] [r' p'] H1 H2 E. cbn in E. subst p'.
      rewrite (Hcode r p H1), (Hcode r' p H2). reflexivity.
    + unfold visits. apply NoDup_flat_map.
      * apply NoDup_box_pts.
      * intros r _. apply NoDup_map_inj; [|apply NoDup_box_pts].
        intros x y _ _ E. inversion E. reflexivity.
      * intros r r' [s q] _ _ H1 H2. apply in_map_iff in H1, H2.
        destruct H1 as (? & E1 & _). destruct H2 as (? & E2 & _). congruence.
  - intros p. unfold interior. rewrite inb_ibox. split.
    + intros [Hl Hp]. exists (map (code pml0 pml1 p) (seq 0 (length shape))).
      apply In_visits. split; [rewrite map_length, seq_length; reflexivity|]. split; [exact Hl|].
      intros d Hd. specialize (Hp d Hd). destruct (Hb d Hd) as [B1 B2].
      rewrite (nth_indep _ 0%Z (code pml0 pml1 p 0)) by (rewrite map_length, seq_length; exact Hd).
      rewrite map_nth, seq_nth by exact Hd. cbn [plus]. unfold code, region_bounds.
      destruct (Z.ltb_spec (coord d p) (pml0 d)); cbn [Z.eqb fst snd]; [lia|].
      destruct (Z.ltb_spec (coord d p) (pml1 d)); cbn [Z.eqb Pos.eqb fst snd]; lia.
    + intros (r & Hin). apply In_visits in Hin. destruct Hin as (H1 & H2 & H3).
      split; [exact H2|]. intros d Hd. specialize (H3 d Hd). destruct (Hb d Hd) as [B1 B2].
      unfold region_bounds in H3. destruct H3 as [H3 H4].
      pose proof (fd_pad_pos (p_acc P)).
      destruct (Z.eqb_spec (nth d r 0%Z) 0) as [E|E]; cbn [fst snd] in H4;
        [|destruct (Z.eqb_spec (nth d r 0%Z) 1) as [E'|E']; cbn [fst snd] in H4].
      all: lia.
  - intros r p d Hin Hd. rewrite (Hcode r p Hin). unfold in1, inpml.
    rewrite (nth_indep _ 0%Z (code pml0 pml1 p 0)) by (rewrite map_length, seq_length; exact Hd).
    rewrite map_nth, seq_nth by exact Hd. cbn [plus]. unfold code.
    destruct (Hb d Hd) as [B1 B2]. rewrite negb_involutive.
    destruct (Z.ltb_spec (coord d p) (pml0 d)), (Z.leb_spec (pml0 d) (coord d p)),
      (Z.ltb_spec (coord d p) (pml1 d)); cbn; lia || reflexivity.
Qed.

(** ** Simulation *)

Variables pml0 pml1 : nat -> Z.
Hypothesis Hprof : prof_ok pml0 pml1.

(** Memory [m] represents the central state [s]. *)
Definition rel (m : cmem K) (s : st K) : Prop :=
  (forall p, inarr p -> m_wfc K m (idx shape p) = s_wfc K s p) /\
  (forall p, inarr p -> m_wfp K m (idx shape p) = s_wfp K s p) /\
  (forall d p, (d < length shape)%nat -> inarr p -> m_psi K m d (idx shape p) = s_psi K s d p) /\
  (forall d p, (d < length shape)%nat -> inarr p -> m_zeta K m d (idx shape p) = s_zeta K s d p) /\
  (forall d p, (d < length shape)%nat -> inarr p ->
     interior K P p && inpml pml0 pml1 d p = false -> m_psin K m d (idx shape p) = 0) /\
  (forall p, interior K P p = false -> s_wfc K s p = 0 /\ s_wfp K s p = 0) /\
  (forall d p, (d < length shape)%nat ->
     interior K P p && inpml pml0 pml1 d p = false -> s_psi K s d p = 0 /\ s_zeta K s d p = 0).

Lemma tmpf_region1 (w psi : field K) d p :
  (d < length shape)%nat -> inint p -> inpml pml0 pml1 d p = false ->
  tmpf K P w psi d p = d2 K P d w p /\ pa K P d p = 0 /\ pb K P d p = 0.
Proof.
  intros Hd Hp H1. unfold inpml in H1. apply negb_false_iff, andb_true_iff in H1.
  rewrite Z.leb_le, Z.ltb_lt in H1.
  pose proof (fd_pad_pos (p_acc P)) as Hfd.
  assert (Ea : forall k, (- fd <= k <= fd)%Z -> p_a P d (coord d p + k) = 0).
  { intros k Hk. apply (Hprof d (coord d p + k)%Z Hd); lia. }
  destruct (Hprof d (coord d p) Hd) as [_ Hb]. destruct (Hb H1) as [Eb Edb].
  assert (Ea0 : p_a P d (coord d p) = 0).
  { rewrite <- (Ea 0%Z) by lia. f_equal. lia. }
  split; [|split; [exact Ea0|exact Eb]].
  unfold tmpf, pb, pdb. rewrite Eb, Edb.
  assert (E : d1 K P d (fun q => pa K P d q * psi q) p = 0).
  { unfold d1, D1. apply DIFF1_zero; [exact Kr|]. intros j Hj _. unfold pa.
    rewrite coord_shift_same by (rewrite inint_length; auto). rewrite Ea by exact Hj. ring. }
  rewrite E. ring.
Qed.

Lemma ctmp_field (w psi : arr K) (fw fpsi : field K) p d :
  inint p -> (d < length shape)%nat ->
  (forall q, inarr q -> w (idx shape q) = fw q) ->
  (forall q, inarr q -> psi (idx shape q) = fpsi q) ->
  ctmp w psi p d = tmpf K P fw fpsi d p.
Proof.
  intros Hp Hd Hw Hpsi. unfold ctmp, tmpf.
  rewrite (cD1_field w fw), (cD2_field w fw), (cDA_field psi fpsi) by auto. reflexivity.
Qed.

Lemma cwsum_field vis m s reg p :
  vis_ok pml0 pml1 vis -> rel m s -> In (reg, p) vis -> cwsum reg m p = wsum K P s p.
Proof.
  intros (V1 & V2 & V3) (R1 & R2 & R3 & R4 & R5 & R6 & R7) Hin.
  assert (Hp : inint p) by (apply V2; exists reg; exact Hin).
  unfold cwsum, wsum. apply sumf_ext. intros d Hd.
  assert (Hd' : (d < length shape)%nat) by (apply in_seq in Hd; lia).
  unfold ccontrib. rewrite (V3 reg p d Hin Hd').
  destruct (inpml pml0 pml1 d p) eqn:E; cbn [negb].
  - rewrite (ctmp_field _ _ (s_wfc K s) (s_psi K s d)) by auto.
    rewrite R4 by auto using inint_arr. reflexivity.
  - destruct (tmpf_region1 (s_wfc K s) (s_psi K s d) d p Hd' Hp E) as (T1 & T2 & T3).
    rewrite T1, T2, T3, (cD2_field _ (s_wfc K s)) by auto. ring.
Qed.

Lemma mask_in (f : field K) p : inint p -> mask K P f p = f p.
Proof. intros H. unfold mask. rewrite H. reflexivity. Qed.
Lemma mask_out (f : field K) p : interior K P p = false -> mask K P f p = 0.
Proof. intros H. unfold mask. rewrite H. reflexivity. Qed.

Lemma inject_out locs amps (f : field K) p :
  Forall loc_ok locs -> interior K P p = false -> inject K P locs amps f p = f p.
Proof.
  intros Hl Hp. unfold inject. rewrite sumf_zero; [ring|exact Kr|].
  intros [l x] Hin. apply in_combine_l in Hin. rewrite Forall_forall in Hl.
  specialize (Hl l Hin). cbn. destruct (Z.leb_spec 0 l) as [H0|H0]; cbn; [|reflexivity].
  destruct (loc_ok_idx l Hl H0) as (q & Hq & _ & Eu). rewrite Eu.
  destruct (pt_eq_dec q p) as [->|N]; [congruence|reflexivity].
Qed.

(** One time step. *)
Lemma c_fwd_body_spec v (vf : field K) vis vrg sr f t m s :
  vis_ok pml0 pml1 vis -> Forall loc_ok (p_src P) -> Forall loc_ok (p_rec P) ->
  (forall p, inint p -> v (idx shape p) = vf p) ->
  rel m s -> m_r K m t = map (fun _ => 0) (p_rec P) ->
  let m' := c_fwd_body K P v vis vrg sr f t m in
  rel (c_swap K m') (step K P vf (f t) s) /\
  m_r K m' t = gather K P (p_rec P) (s_wfc K s) /\
  (forall u, u <> t -> m_r K m' u = m_r K m u) /\
  (vrg = true -> (t mod sr = 0)%Z -> forall p, inint p ->
     m_store K m' (t / sr)%Z (idx shape p) = two * vf p * p_dt2 P * wsum K P s p) /\
  (forall k j, (vrg = true /\ (t mod sr = 0)%Z -> k <> (t / sr)%Z) ->
     m_store K m' k j = m_store K m k j).
Proof.
  intros Hvis Hsrc Hrec Hv Hrel Hr. pose proof Hvis as (V1 & V2 & V3).
  pose proof Hrel as (R1 & R2 & R3 & R4 & R5 & R6 & R7).
  unfold c_fwd_body. set (sto := vrg && (t mod sr =? 0)%Z).
  assert (Hn : NoDup (map (fun rp : list Z * pt => idx shape (snd rp)) vis)).
  { rewrite <- (map_map snd (idx shape)). apply NoDup_map_inj; [|exact V1].
    intros x y Hx Hy. apply in_map_iff in Hx, Hy.
    destruct Hx as ([r1 x'] & E1 & Hx). destruct Hy as ([r2 y'] & E2 & Hy). cbn in E1, E2. subst x' y'.
    apply idx_inj; apply inint_arr, V2; eexists; eassumption. }
  pose proof (c_fwd_cells_spec v sto (t / sr)%Z vis m Hn) as C. cbv zeta in C.
  set (m1 := fold_left (c_fwd_cell K P v sto (t / sr)%Z) vis m) in *.
  destruct C as (C1 & C2 & C3 & C4 & C5 & C6). cbv zeta.
  assert (Hin_r : forall p, inint p -> exists reg, In (reg, p) vis /\ cell_result v sto (t/sr)%Z m m1 (reg, p)).
  { intros p Hp. apply V2 in Hp. destruct Hp as (reg & Hp). exists reg. split; [exact Hp|]. apply C4, Hp. }
  assert (Hout_r : forall p, inarr p -> interior K P p = false -> forall rp, In rp vis -> idx shape (snd rp) <> idx shape p).
  { intros p Hp Hi [reg q] Hin E. cbn in E.
    assert (Hq : inint q) by (apply V2; exists reg; exact Hin).
    assert (q = p) by (apply (idx_inj shape); auto using inint_arr). subst. congruence. }
  assert (Hwfp : forall p, inarr p -> m_wfp K m1 (idx shape p) =
            mask K P (fun p => vf p * vf p * p_dt2 P * wsum K P s p + two * s_wfc K s p - s_wfp K s p) p).
  { intros p Hp. destruct (interior K P p) eqn:E.
    - rewrite mask_in by exact E. destruct (Hin_r p E) as (reg & Hin & J1 & _).
      rewrite J1, (cwsum_field vis m s) by auto. rewrite Hv, R1, R2 by auto. reflexivity.
    - rewrite mask_out by exact E. destruct (C5 _ (Hout_r p Hp E)) as (J & _).
      rewrite J, R2 by auto. apply R6. exact E. }
  assert (Hpsi : forall d p, (d < length shape)%nat -> inarr p -> m_psin K m1 d (idx shape p) =
            mask K P (fun p => pb K P d p * d1 K P d (s_wfc K s) p + pa K P d p * s_psi K s d p) p).
  { intros d p Hd Hp. destruct (interior K P p) eqn:E.
    - rewrite mask_in by exact E. destruct (Hin_r p E) as (reg & Hin & _ & J2 & _).
      rewrite J2, (V3 reg p d Hin Hd), negb_involutive.
      rewrite (proj2 (indims_spec d) Hd). cbn [andb].
      destruct (inpml pml0 pml1 d p) eqn:Ei.
      + rewrite (cD1_field _ (s_wfc K s)), R3 by auto. reflexivity.
      + destruct (tmpf_region1 (s_wfc K s) (s_psi K s d) d p Hd E Ei) as (_ & T2 & T3).
        rewrite T2, T3, R5; [ring|auto|auto|]. rewrite E, Ei. reflexivity.
    - rewrite mask_out by exact E. destruct (C5 _ (Hout_r p Hp E)) as (_ & J & _).
      rewrite J. apply R5; auto. rewrite E. reflexivity. }
  assert (Hzeta : forall d p, (d < length shape)%nat -> inarr p -> m_zeta K m1 d (idx shape p) =
            mask K P (fun p => pb K P d p * tmpf K P (s_wfc K s) (s_psi K s d) d p + pa K P d p * s_zeta K s d p) p).
  { intros d p Hd Hp. destruct (interior K P p) eqn:E.
    - rewrite mask_in by exact E. destruct (Hin_r p E) as (reg & Hin & _ & _ & J3 & _).
      rewrite J3, (V3 reg p d Hin Hd), negb_involutive.
      rewrite (proj2 (indims_spec d) Hd). cbn [andb].
      destruct (inpml pml0 pml1 d p) eqn:Ei.
      + rewrite (ctmp_field _ _ (s_wfc K s) (s_psi K s d)), R4 by auto. reflexivity.
      + destruct (tmpf_region1 (s_wfc K s) (s_psi K s d) d p Hd E Ei) as (_ & T2 & T3).
        rewrite T2, T3, R4 by auto.
        assert (Ez : s_zeta K s d p = 0) by (apply R7; [exact Hd|rewrite E, Ei; reflexivity]).
        rewrite Ez. ring.
    - rewrite mask_out by exact E. destruct (C5 _ (Hout_r p Hp E)) as (_ & _ & J).
      rewrite J, R4 by auto. apply R7; auto. rewrite E. reflexivity. }
  split; [|split; [|split; [|split]]].
  - unfold rel, c_swap, step. cbn.
    split; [|split; [|split; [|split; [|split; [|split]]]]].
    + intros p Hp. apply add_to_wavefield_inject; auto.
    + intros p Hp. rewrite C1. auto.
    + exact Hpsi.
    + exact Hzeta.
    + intros d p Hd Hp Ei. rewrite C2, R3 by auto. apply R7; auto.
    + intros p Ei. split; [|apply R6; exact Ei].
      rewrite inject_out by auto. apply mask_out. exact Ei.
    + intros d p Hd Ei. destruct (interior K P p) eqn:E; cbn [andb] in Ei.
      * rewrite !mask_in by exact E.
        destruct (tmpf_region1 (s_wfc K s) (s_psi K s d) d p Hd E Ei) as (_ & T2 & T3).
        rewrite T2, T3. split; ring.
      * rewrite !mask_out by exact E. auto.
  - cbn. rewrite Z.eqb_refl, C3, Hr. apply record_gather; auto. intros p Hp. rewrite C1. auto.
  - intros u Hu. cbn. destruct (Z.eqb_spec u t); [contradiction|]. rewrite C3. reflexivity.
  - intros Hg Ht p Hp. cbn. destruct (Hin_r p Hp) as (reg & Hin & _ & _ & _ & J4).
    rewrite J4.
    + rewrite (cwsum_field vis m s) by auto. rewrite Hv by exact Hp. reflexivity.
    + unfold sto. rewrite Hg, Ht. reflexivity.
  - intros k j Hk. cbn. apply C6. left. unfold sto.
    destruct vrg; cbn [andb]; [|reflexivity].
    destruct (Z.eqb_spec (t mod sr) 0) as [E|E]; cbn [andb]; [|reflexivity].
    apply Z.eqb_neq. auto.
Qed.

End Refine.
