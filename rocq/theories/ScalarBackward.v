(** * The compiled scalar backward kernel computes the central backward step; its time loop
    and driver. *)
From Coq Require Import List ZArith QArith Ring Ring_theory Lia Bool Permutation.
From Verif Require Import Ops Sums Grid Stencil ScalarModel ScalarRefine ScalarForward.
Import ListNotations.
Local Open Scope K_scope.

Section Refine.
Variable K : ops.
Hypothesis Kr : is_ring K.
Add Ring KRing : Kr.
Variable P : par K.

Notation shape := (p_shape P).
Notation fd := (fd_pad (p_acc P)).
Notation inarr p := (inb (abox shape) p = true).
Notation inint p := (interior K P p = true).
Notation loc_ok := (loc_ok K P).
Notation in1 := in1.

Variable v2 : arr K.

(** One-dimensional terms at cell [p], read from flat memory. *)
Definition bV (w : arr K) (p : pt) (d : nat) (k : Z) : K :=
  v2 (idx shape p + k * stride shape d)%Z * w (idx shape p + k * stride shape d)%Z.
Definition bB (p : pt) (d : nat) (k : Z) : K := p_b P d (coord d p + k)%Z.
Definition bPT (w zeta : arr K) (p : pt) (d : nat) (k : Z) : K :=
  (1 + bB p d k) * bV w p d k + bB p d k * zeta (idx shape p + k * stride shape d)%Z.
Definition bU1 (w psi zeta : arr K) (p : pt) (d : nat) (k : Z) : K :=
  p_db P d (coord d p + k)%Z * bPT w zeta p d k
  + bB p d k * psi (idx shape p + k * stride shape d)%Z.
Definition bU2 (w zeta : arr K) (p : pt) (d : nat) (k : Z) : K :=
  (1 + bB p d k) * bPT w zeta p d k.

Definition bcontrib (reg : list Z) (m : bmem K) (p : pt) (d : nat) : K :=
  if in1 reg d then DIFF2 (p_acc P) (p_rd2 P d) (bV (g_wfc K m) p d)
  else - DIFF1 (p_acc P) (p_rd P d) (bU1 (g_wfc K m) (g_psi K m d) (g_zeta K m d) p d)
       + DIFF2 (p_acc P) (p_rd2 P d) (bU2 (g_wfc K m) (g_zeta K m d) p d).
Definition bpsi (m : bmem K) (p : pt) (d : nat) : K :=
  (- pa K P d p) * DIFF1 (p_acc P) (p_rd P d) (bPT (g_wfc K m) (g_zeta K m d) p d)
  + pa K P d p * g_psi K m d (idx shape p).
Definition bzeta (m : bmem K) (p : pt) (d : nat) : K :=
  pa K P d p * bV (g_wfc K m) p d 0%Z + pa K P d p * g_zeta K m d (idx shape p).

Lemma c_bwd_dims reg p ds m ws :
  NoDup ds ->
  let '(ws', m') := fold_left (c_bwd_dim K P v2 reg p) ds (ws, m) in
  ws' = ws + sumf ds (bcontrib reg m p) /\
  g_wfc K m' = g_wfc K m /\ g_wfp K m' = g_wfp K m /\ g_psi K m' = g_psi K m /\
  g_zeta K m' = g_zeta K m /\ g_f K m' = g_f K m /\ g_v K m' = g_v K m /\
  (forall d i, g_psin K m' d i =
     if (existsb (Nat.eqb d) ds && negb (in1 reg d) && (i =? idx shape p)%Z)
     then bpsi m p d else g_psin K m d i) /\
  (forall d i, g_zetan K m' d i =
     if (existsb (Nat.eqb d) ds && negb (in1 reg d) && (i =? idx shape p)%Z)
     then bzeta m p d else g_zetan K m d i).
Proof.
  revert m ws. induction ds as [|d ds IH]; intros m ws Hn.
  - cbn. repeat split; intros; ring.
  - inversion Hn as [|? ? Hd Hn']; subst.
    cbn [fold_left]. set (m1 := snd (c_bwd_dim K P v2 reg p (ws, m) d)).
    set (w1 := fst (c_bwd_dim K P v2 reg p (ws, m) d)).
    specialize (IH m1 w1 Hn').
    replace (c_bwd_dim K P v2 reg p (ws, m) d) with (w1, m1)
      by (unfold w1, m1; symmetry; apply surjective_pairing).
    destruct (fold_left (c_bwd_dim K P v2 reg p) ds (w1, m1)) as [ws' m'].
    destruct IH as (E1 & E2 & E3 & E4 & E5 & E6 & E9 & E7 & E8).
    assert (Hm1 : g_wfc K m1 = g_wfc K m /\ g_wfp K m1 = g_wfp K m /\ g_psi K m1 = g_psi K m /\
                  g_zeta K m1 = g_zeta K m /\ g_f K m1 = g_f K m /\ g_v K m1 = g_v K m).
    { unfold m1, c_bwd_dim. destruct (nth d reg 0 =? 1)%Z; cbn; auto 10. }
    destruct Hm1 as (F2 & F3 & F4 & F5 & F6 & F9).
    assert (Hw1 : w1 = ws + bcontrib reg m p d).
    { unfold w1, c_bwd_dim, bcontrib, in1.
      destruct (nth d reg 0 =? 1)%Z; cbn [fst]; reflexivity. }
    assert (Hz : forall e i, e <> d -> g_zetan K m1 e i = g_zetan K m e i).
    { intros e i Ne. unfold m1, c_bwd_dim. destruct (nth d reg 0 =? 1)%Z; cbn; [reflexivity|].
      unfold updd. destruct (Nat.eqb_spec e d); [contradiction|reflexivity]. }
    assert (Hp : forall e i, e <> d -> g_psin K m1 e i = g_psin K m e i).
    { intros e i Ne. unfold m1, c_bwd_dim. destruct (nth d reg 0 =? 1)%Z; cbn; [reflexivity|].
      unfold updd. destruct (Nat.eqb_spec e d); [contradiction|reflexivity]. }
    assert (Hex : existsb (Nat.eqb d) ds = false).
    { apply not_true_is_false. rewrite existsb_exists. intros (x & Hx & Ex).
      apply Nat.eqb_eq in Ex. subst. contradiction. }
    repeat split; try congruence.
    + rewrite E1, Hw1. cbn [sumf].
      rewrite (sumf_ext K ds (bcontrib reg m1 p) (bcontrib reg m p)); [ring|].
      intros e He. unfold bcontrib. rewrite F2, F4, F5. reflexivity.
    + intros e i. rewrite E7. unfold bpsi. rewrite F2, F4, F5. cbn [existsb].
      destruct (Nat.eqb_spec e d) as [->|Ne]; cbn [orb andb].
      * rewrite Hex. cbn [andb]. unfold m1, c_bwd_dim, in1.
        destruct (nth d reg 0 =? 1)%Z; cbn [snd negb andb]; [reflexivity|].
        cbn. unfold updd. rewrite Nat.eqb_refl. unfold upd. reflexivity.
      * rewrite Hp by assumption. reflexivity.
    + intros e i. rewrite E8. unfold bzeta. rewrite F2, F5. cbn [existsb].
      destruct (Nat.eqb_spec e d) as [->|Ne]; cbn [orb andb].
      * rewrite Hex. cbn [andb]. unfold m1, c_bwd_dim, in1.
        destruct (nth d reg 0 =? 1)%Z; cbn [snd negb andb]; [reflexivity|].
        cbn. unfold updd. rewrite Nat.eqb_refl. unfold upd. reflexivity.
      * rewrite !Hz by assumption. reflexivity.
Qed.

Notation indims := (indims K P).
Definition bwsum (reg : list Z) (m : bmem K) (p : pt) : K := sumf (dims K P) (bcontrib reg m p).

Variable store : Z -> arr K.
Variable sr : Z.

Lemma c_bwd_cell_spec sto si m reg p :
  let m' := c_bwd_cell K P v2 store sto sr si m (reg, p) in
  let i := idx shape p in
  g_wfc K m' = g_wfc K m /\ g_psi K m' = g_psi K m /\ g_zeta K m' = g_zeta K m /\
  g_f K m' = g_f K m /\
  (forall j, g_wfp K m' j = if (j =? i)%Z
     then bwsum reg m p + two * g_wfc K m i - g_wfp K m i else g_wfp K m j) /\
  (forall d j, g_psin K m' d j =
     if (indims d && negb (in1 reg d) && (j =? i)%Z) then bpsi m p d else g_psin K m d j) /\
  (forall d j, g_zetan K m' d j =
     if (indims d && negb (in1 reg d) && (j =? i)%Z) then bzeta m p d else g_zetan K m d j) /\
  (forall j, g_v K m' j = if (sto && (j =? i)%Z)
     then g_v K m i + g_wfc K m i * store si i * ofZ K sr else g_v K m j).
Proof.
  pose proof (c_bwd_dims reg p (dims K P) m 0 (NoDup_dims K P)) as H.
  unfold c_bwd_cell. destruct (fold_left _ _ _) as [ws m1].
  destruct H as (E1 & E2 & E3 & E4 & E5 & E6 & E9 & E7 & E8).
  assert (Ews : ws = bwsum reg m p) by (rewrite E1; unfold bwsum; ring).
  clear E1. subst ws. cbn.
  repeat split; auto.
  - intros j. unfold upd. rewrite E2, E3. reflexivity.
  - intros j. rewrite E9, E2. destruct sto; cbn [andb]; reflexivity.
Qed.

Definition bcell_result (sto : bool) (si : Z) (m m' : bmem K) (rp : list Z * pt) : Prop :=
  let '(reg, p) := rp in let i := idx shape p in
  g_wfp K m' i = bwsum reg m p + two * g_wfc K m i - g_wfp K m i /\
  (forall d, g_psin K m' d i =
     if (indims d && negb (in1 reg d)) then bpsi m p d else g_psin K m d i) /\
  (forall d, g_zetan K m' d i =
     if (indims d && negb (in1 reg d)) then bzeta m p d else g_zetan K m d i) /\
  g_v K m' i = if sto then g_v K m i + g_wfc K m i * store si i * ofZ K sr else g_v K m i.

Lemma bfns_ext m m' : g_wfc K m' = g_wfc K m -> g_psi K m' = g_psi K m ->
  g_zeta K m' = g_zeta K m -> forall p,
  (forall reg, bwsum reg m' p = bwsum reg m p) /\
  (forall d, bpsi m' p d = bpsi m p d) /\ (forall d, bzeta m' p d = bzeta m p d).
Proof.
  intros H1 H2 H3 p. repeat split.
  - intros reg. apply sumf_ext. intros d _. unfold bcontrib. rewrite H1, H2, H3. reflexivity.
  - intros d. unfold bpsi. rewrite H1, H2, H3. reflexivity.
  - intros d. unfold bzeta. rewrite H1, H3. reflexivity.
Qed.

Lemma c_bwd_cells_spec sto si vis m :
  NoDup (map (fun rp : list Z * pt => idx shape (snd rp)) vis) ->
  let m' := fold_left (c_bwd_cell K P v2 store sto sr si) vis m in
  g_wfc K m' = g_wfc K m /\ g_psi K m' = g_psi K m /\ g_zeta K m' = g_zeta K m /\
  g_f K m' = g_f K m /\
  (forall rp, In rp vis -> bcell_result sto si m m' rp) /\
  (forall j, (forall rp, In rp vis -> idx shape (snd rp) <> j) ->
     g_wfp K m' j = g_wfp K m j /\
     (forall d, g_psin K m' d j = g_psin K m d j) /\
     (forall d, g_zetan K m' d j = g_zetan K m d j) /\ g_v K m' j = g_v K m j).
Proof.
  revert m. induction vis as [|[reg p] vis IH]; intros m Hn; cbn [fold_left].
  - repeat split; auto; intros rp [].
  - cbn [map snd] in Hn. inversion Hn as [|? ? Hp Hn']; subst.
    set (m1 := c_bwd_cell K P v2 store sto sr si m (reg, p)).
    pose proof (c_bwd_cell_spec sto si m reg p) as C. cbv zeta in C. fold m1 in C.
    destruct C as (C1 & C2 & C3 & C4 & C5 & C6 & C7 & C8).
    specialize (IH m1 Hn'). cbv zeta in IH.
    set (m' := fold_left (c_bwd_cell K P v2 store sto sr si) vis m1) in *.
    destruct IH as (I1 & I2 & I3 & I4 & I5 & I6).
    assert (Hne : forall rp, In rp vis -> idx shape (snd rp) <> idx shape p).
    { intros rp Hin E. apply Hp. rewrite <- E. apply in_map_iff. exists rp. auto. }
    split; [congruence|]. split; [congruence|]. split; [congruence|]. split; [congruence|].
    split.
    + intros [reg' q] [E|Hin].
      * inversion E; subst reg' q. clear E.
        destruct (I6 (idx shape p) Hne) as (J1 & J2 & J3 & J4).
        unfold bcell_result. rewrite J1, C5, Z.eqb_refl. split; [reflexivity|].
        split; [|split].
        -- intros d. rewrite J2, C6, Z.eqb_refl, andb_true_r. reflexivity.
        -- intros d. rewrite J3, C7, Z.eqb_refl, andb_true_r. reflexivity.
        -- rewrite J4, C8, Z.eqb_refl, andb_true_r. reflexivity.
      * specialize (I5 (reg', q) Hin). unfold bcell_result in I5 |- *.
        assert (Nq : (idx shape q =? idx shape p)%Z = false)
          by (apply Z.eqb_neq, (Hne (reg', q)); exact Hin).
        destruct I5 as (J1 & J2 & J3 & J4).
        destruct (bfns_ext m m1 C1 C2 C3 q) as (X1 & X2 & X3).
        rewrite X1, C1, C5, Nq in J1. rewrite C8, C1, Nq, andb_false_r in J4.
        repeat split; auto.
        -- intros d. rewrite J2, X2, C6, Nq, andb_false_r. reflexivity.
        -- intros d. rewrite J3, X3, C7, Nq, andb_false_r. reflexivity.
    + intros j Hj.
      assert (Hj' : forall rp, In rp vis -> idx shape (snd rp) <> j) by (intros; apply Hj; right; auto).
      assert (Hpj : (j =? idx shape p)%Z = false).
      { apply Z.eqb_neq. intros ->. apply (Hj (reg, p)); [left; reflexivity|reflexivity]. }
      destruct (I6 j Hj') as (J1 & J2 & J3 & J4).
      rewrite J1, C5, Hpj. split; [reflexivity|].
      split; [|split].
      * intros d. rewrite J2, C6, Hpj, andb_false_r. reflexivity.
      * intros d. rewrite J3, C7, Hpj, andb_false_r. reflexivity.
      * rewrite J4, C8, Hpj, andb_false_r. reflexivity.
Qed.

(** ** Simulation *)

Variables pml0 pml1 : nat -> Z.

(** Requirements on the profiles for the backward kernel. *)
Definition bprof_ok : Prop :=
  forall d y, (d < length shape)%nat ->
    ((pml0 d - fd <= y < pml1 d + fd)%Z -> (pml0 d < pml1 d)%Z -> p_b P d y = 0 /\ p_db P d y = 0) /\
    ((pml0 d <= y < pml1 d)%Z -> p_a P d y = 0).
Hypothesis Hprof : bprof_ok.

Variable v2f : field K.
Hypothesis Hv2 : forall p, inarr p -> v2 (idx shape p) = v2f p.

Definition brel (m : bmem K) (s : st K) : Prop :=
  (forall p, inarr p -> g_wfc K m (idx shape p) = s_wfc K s p) /\
  (forall p, inarr p -> g_wfp K m (idx shape p) = s_wfp K s p) /\
  (forall d p, (d < length shape)%nat -> inarr p -> g_psi K m d (idx shape p) = s_psi K s d p) /\
  (forall d p, (d < length shape)%nat -> inarr p -> g_zeta K m d (idx shape p) = s_zeta K s d p) /\
  (forall d p, (d < length shape)%nat -> inarr p ->
     interior K P p && inpml pml0 pml1 d p = false ->
     g_psin K m d (idx shape p) = 0 /\ g_zetan K m d (idx shape p) = 0) /\
  (forall p, interior K P p = false -> s_wfc K s p = 0 /\ s_wfp K s p = 0) /\
  (forall d p, (d < length shape)%nat ->
     interior K P p && inpml pml0 pml1 d p = false -> s_psi K s d p = 0 /\ s_zeta K s d p = 0).

Lemma bterms_field m s p d k :
  brel m s -> inint p -> (d < length shape)%nat -> (- fd <= k <= fd)%Z ->
  bV (g_wfc K m) p d k = v2f (shift d k p) * s_wfc K s (shift d k p) /\
  bPT (g_wfc K m) (g_zeta K m d) p d k
    = psiterm K P v2f (s_wfc K s) (s_zeta K s d) d (shift d k p) /\
  bU1 (g_wfc K m) (g_psi K m d) (g_zeta K m d) p d k
    = ut1 K P v2f (s_wfc K s) (s_psi K s d) (s_zeta K s d) d (shift d k p) /\
  bU2 (g_wfc K m) (g_zeta K m d) p d k
    = ut2 K P v2f (s_wfc K s) (s_zeta K s d) d (shift d k p).
Proof.
  intros (R1 & R2 & R3 & R4 & _) Hp Hd Hk.
  assert (Hs : inarr (shift d k p)) by (apply inint_shift; auto).
  assert (Hc : coord d (shift d k p) = (coord d p + k)%Z)
    by (apply coord_shift_same; rewrite (inint_length K P); auto).
  unfold bU1, bU2, bPT, bV, bB, ut1, ut2, psiterm, pb, pdb.
  rewrite Hc, <- idx_shift by (apply (inint_length K P); auto).
  rewrite R1, R3, R4, Hv2 by auto. repeat split; reflexivity.
Qed.

Lemma region1_b d p : (d < length shape)%nat -> inint p -> inpml pml0 pml1 d p = false ->
  pa K P d p = 0 /\
  forall k, (- fd <= k <= fd)%Z -> pb K P d (shift d k p) = 0 /\ pdb K P d (shift d k p) = 0.
Proof.
  intros Hd Hp H1. unfold inpml in H1. apply negb_false_iff, andb_true_iff in H1.
  rewrite Z.leb_le, Z.ltb_lt in H1. split.
  - unfold pa. apply (Hprof d (coord d p) Hd). exact H1.
  - intros k Hk. unfold pb, pdb.
    rewrite coord_shift_same by (rewrite (inint_length K P); auto).
    apply (Hprof d (coord d p + k)%Z Hd); lia.
Qed.

Lemma bwsum_field vis m s reg p :
  vis_ok K P pml0 pml1 vis -> brel m s -> In (reg, p) vis ->
  bwsum reg m p =
  sumf (dims K P) (fun d =>
    - d1 K P d (ut1 K P v2f (s_wfc K s) (s_psi K s d) (s_zeta K s d) d) p
    + d2 K P d (ut2 K P v2f (s_wfc K s) (s_zeta K s d) d) p).
Proof.
  intros (V1 & V2 & V3) HR Hin.
  assert (Hp : inint p) by (apply V2; exists reg; exact Hin).
  unfold bwsum. apply sumf_ext. intros d Hd.
  assert (Hd' : (d < length shape)%nat) by (apply in_seq in Hd; lia).
  unfold bcontrib. rewrite (V3 reg p d Hin Hd').
  unfold d1, d2, D1, D2.
  destruct (inpml pml0 pml1 d p) eqn:E; cbn [negb].
  - f_equal; [f_equal; apply DIFF1_ext | apply DIFF2_ext]; intros j Hj; intros;
      destruct (bterms_field m s p d j HR Hp Hd' Hj) as (T1 & T2 & T3 & T4); auto.
  - destruct (region1_b d p Hd' Hp E) as (Ea & Eb).
    rewrite (DIFF1_zero K Kr).
    2:{ intros j Hj _. destruct (Eb j Hj) as [B1 B2].
        unfold ut1. rewrite B1, B2. ring. }
    rewrite (DIFF2_ext K _ _ (bV (g_wfc K m) p d)
      (fun k => ut2 K P v2f (s_wfc K s) (s_zeta K s d) d (shift d k p))); [ring|].
    intros j Hj. destruct (bterms_field m s p d j HR Hp Hd' Hj) as (T1 & _).
    rewrite T1. unfold ut2, psiterm. destruct (Eb j Hj) as [B1 _]. rewrite B1. ring.
Qed.

(** One backward time step. *)
Definition bweight (vrg : bool) (t : Z) : field K :=
  fun p => if vrg && (t mod sr =? 0)%Z then store (t / sr)%Z (idx shape p) * ofZ K sr else 0.

Lemma c_bwd_body_spec vis vrg gr t m s :
  vis_ok K P pml0 pml1 vis -> Forall loc_ok (p_src P) -> Forall loc_ok (p_rec P) ->
  brel m s -> g_f K m t = map (fun _ => 0) (p_src P) ->
  let m' := c_bwd_body K P v2 vis store vrg sr gr t m in
  brel (b_swap K m') (bstep K P v2f (gr t) s) /\
  g_f K m' t = gather K P (p_src P) (s_wfc K s) /\
  (forall u, u <> t -> g_f K m' u = g_f K m u) /\
  (forall p, inint p -> g_v K m' (idx shape p)
     = g_v K m (idx shape p) + s_wfc K s p * bweight vrg t p) /\
  (forall j, (forall p, inint p -> idx shape p <> j) -> g_v K m' j = g_v K m j).
Proof.
  intros Hvis Hsrc Hrec Hrel Hr. pose proof Hvis as (V1 & V2 & V3).
  pose proof Hrel as (R1 & R2 & R3 & R4 & R5 & R6 & R7).
  unfold c_bwd_body. set (sto := vrg && (t mod sr =? 0)%Z).
  assert (Hn : NoDup (map (fun rp : list Z * pt => idx shape (snd rp)) vis)).
  { rewrite <- (map_map snd (idx shape)). apply NoDup_map_inj; [|exact V1].
    intros x y Hx Hy. apply in_map_iff in Hx, Hy.
    destruct Hx as ([r1 x'] & E1 & Hx). destruct Hy as ([r2 y'] & E2 & Hy). cbn in E1, E2. subst x' y'.
    apply idx_inj; apply (inint_arr K P), V2; eexists; eassumption. }
  pose proof (c_bwd_cells_spec sto (t / sr)%Z vis m Hn) as C. cbv zeta in C.
  set (m1 := fold_left (c_bwd_cell K P v2 store sto sr (t / sr)%Z) vis m) in *.
  destruct C as (C1 & C2 & C3 & C4 & C5 & C6). cbv zeta.
  assert (Hin_r : forall p, inint p -> exists reg, In (reg, p) vis /\ bcell_result sto (t/sr)%Z m m1 (reg, p)).
  { intros p Hp. apply V2 in Hp. destruct Hp as (reg & Hp). exists reg. split; [exact Hp|]. apply C5, Hp. }
  assert (Hout_r : forall p, inarr p -> interior K P p = false -> forall rp, In rp vis -> idx shape (snd rp) <> idx shape p).
  { intros p Hp Hi [reg q] Hin E. cbn in E.
    assert (Hq : inint q) by (apply V2; exists reg; exact Hin).
    assert (q = p) by (apply (idx_inj shape); auto; apply (inint_arr K P); auto). subst. congruence. }
  assert (Hpsi : forall d p, (d < length shape)%nat -> inarr p -> g_psin K m1 d (idx shape p) =
            mask K P (fun p => (- pa K P d p) * d1 K P d (psiterm K P v2f (s_wfc K s) (s_zeta K s d) d) p
                                + pa K P d p * s_psi K s d p) p).
  { intros d p Hd Hp. destruct (interior K P p) eqn:E.
    - rewrite mask_in by exact E. destruct (Hin_r p E) as (reg & Hin & _ & J2 & _).
      rewrite J2, (V3 reg p d Hin Hd), negb_involutive.
      rewrite (proj2 (indims_spec K P d) Hd). cbn [andb].
      destruct (inpml pml0 pml1 d p) eqn:Ei.
      + unfold bpsi. rewrite R3 by auto. f_equal. f_equal. unfold d1, D1. apply DIFF1_ext.
        intros j Hj _. apply (bterms_field m s p d j); auto.
      + destruct (region1_b d p Hd E Ei) as (Ea & _).
        destruct (R5 d p Hd Hp) as [Z1 Z2]; [rewrite E, Ei; reflexivity|]. rewrite Z1, Ea. ring.
    - rewrite mask_out by exact E. destruct (C6 _ (Hout_r p Hp E)) as (_ & J & _).
      rewrite J. apply R5; auto. rewrite E. reflexivity. }
  assert (Hzeta : forall d p, (d < length shape)%nat -> inarr p -> g_zetan K m1 d (idx shape p) =
            mask K P (fun p => pa K P d p * (v2f p * s_wfc K s p) + pa K P d p * s_zeta K s d p) p).
  { intros d p Hd Hp. destruct (interior K P p) eqn:E.
    - rewrite mask_in by exact E. destruct (Hin_r p E) as (reg & Hin & _ & _ & J3 & _).
      rewrite J3, (V3 reg p d Hin Hd), negb_involutive.
      rewrite (proj2 (indims_spec K P d) Hd). cbn [andb].
      destruct (inpml pml0 pml1 d p) eqn:Ei.
      + unfold bzeta. rewrite R4 by auto.
        destruct (bterms_field m s p d 0%Z Hrel E Hd) as (T1 & _); [pose proof (fd_pad_pos (p_acc P)); lia|].
        rewrite T1, shift_0. reflexivity.
      + destruct (region1_b d p Hd E Ei) as (Ea & _).
        destruct (R5 d p Hd Hp) as [Z1 Z2]; [rewrite E, Ei; reflexivity|]. rewrite Z2, Ea. ring.
    - rewrite mask_out by exact E. destruct (C6 _ (Hout_r p Hp E)) as (_ & _ & J & _).
      rewrite J. apply R5; auto. rewrite E. reflexivity. }
  split; [|split; [|split; [|split]]].
  - unfold brel, b_swap, bstep. cbn.
    split; [|split; [|split; [|split; [|split; [|split]]]]].
    + intros p Hp. apply (add_to_wavefield_inject K Kr P); auto. clear p Hp. intros p Hp.
      destruct (interior K P p) eqn:E.
      * rewrite mask_in by exact E. destruct (Hin_r p E) as (reg & Hin & J1 & _).
        rewrite J1, (bwsum_field vis m s) by auto. rewrite R1, R2 by auto. reflexivity.
      * rewrite mask_out by exact E. destruct (C6 _ (Hout_r p Hp E)) as (J & _).
        rewrite J, R2 by auto. apply R6. exact E.
    + intros p Hp. rewrite C1. auto.
    + exact Hpsi.
    + exact Hzeta.
    + intros d p Hd Hp Ei. rewrite C2, C3, R3, R4 by auto. apply R7; auto.
    + intros p Ei. split; [|apply R6; exact Ei].
      rewrite (inject_out K Kr P) by auto. apply mask_out. exact Ei.
    + intros d p Hd Ei. destruct (interior K P p) eqn:E; cbn [andb] in Ei.
      * rewrite !mask_in by exact E.
        destruct (region1_b d p Hd E Ei) as (Ea & _). rewrite Ea. split; ring.
      * rewrite !mask_out by exact E. auto.
  - cbn. rewrite Z.eqb_refl, C4, Hr. apply record_gather; auto. intros p Hp. rewrite C1. auto.
  - intros u Hu. cbn. destruct (Z.eqb_spec u t); [contradiction|]. rewrite C4. reflexivity.
  - intros p Hp. cbn. destruct (Hin_r p Hp) as (reg & Hin & _ & _ & _ & J4).
    rewrite J4. unfold bweight. fold sto. rewrite R1 by (apply (inint_arr K P); exact Hp).
    destruct sto; ring.
  - intros j Hj. cbn. apply C6. intros [reg q] Hin. cbn. apply Hj. apply V2. exists reg. exact Hin.
Qed.

(** ** Time loop *)
Variable vis : list (list Z * pt).
Hypothesis Hvis : vis_ok K P pml0 pml1 vis.
Hypothesis Hsrc : Forall loc_ok (p_src P).
Hypothesis Hrec : Forall loc_ok (p_rec P).
Variable vrg : bool.
Variable gr : Z -> list K.

Notation w := (bweight vrg).
Notation bstate := (bst K P v2f gr).
Notation bgv := (bgv K P v2f gr w).

Lemma bgv_S n t s p :
  bgv (S n) t s p = bgv n (t + 1)%Z s p + s_wfc K (bstate n (t + 1)%Z s) p * w t p.
Proof. reflexivity. Qed.

Lemma bstate_add n k t s :
  bstate (n + k) t s = bstate n t (bstate k (t + Z.of_nat n)%Z s).
Proof.
  revert t. induction n as [|n IH]; intros t; cbn [plus bst].
  - f_equal. lia.
  - rewrite IH. do 3 f_equal. lia.
Qed.

Lemma bgv_add n k t s p :
  bgv (n + k) t s p
  = bgv k (t + Z.of_nat n)%Z s p + bgv n t (bstate k (t + Z.of_nat n)%Z s) p.
Proof.
  revert t. induction n as [|n IH]; intros t; cbn [plus].
  - replace (t + Z.of_nat 0)%Z with t by lia. cbn [ScalarModel.bgv]. ring.
  - rewrite !bgv_S, IH, bstate_add.
    replace (t + 1 + Z.of_nat n)%Z with (t + Z.of_nat (S n))%Z by lia. ring.
Qed.

Definition fzero (m : bmem K) (t : Z) (n : nat) : Prop :=
  forall u, (t <= u < t + Z.of_nat n)%Z -> g_f K m u = map (fun _ => 0) (p_src P).

Definition bspec (t : Z) (n : nat) (m : bmem K) (s : st K) (m' : bmem K) : Prop :=
  brel m' (bstate n t s) /\
  (forall k, (k < n)%nat -> g_f K m' (t + Z.of_nat k)%Z =
      gather K P (p_src P) (s_wfc K (bstate (n - 1 - k) (t + Z.of_nat k + 1)%Z s))) /\
  (forall u, ~ (t <= u < t + Z.of_nat n)%Z -> g_f K m' u = g_f K m u) /\
  (forall p, inint p -> g_v K m' (idx shape p) = g_v K m (idx shape p) + bgv n t s p) /\
  (forall j, (forall p, inint p -> idx shape p <> j) -> g_v K m' j = g_v K m j).

Lemma bspec_0 t m s : brel m s -> bspec t 0 m s m.
Proof.
  intros H. split; [exact H|]. split; [lia|]. split; [reflexivity|]. split; [|reflexivity].
  intros p _. cbn [ScalarModel.bgv]. ring.
Qed.

Lemma bspec_app t n k m s m1 m2 :
  bspec (t + Z.of_nat n)%Z k m s m1 -> bspec t n m1 (bstate k (t + Z.of_nat n)%Z s) m2 ->
  bspec t (n + k) m s m2.
Proof.
  intros (A1 & A2 & A3 & A4 & A5) (B1 & B2 & B3 & B4 & B5).
  split; [rewrite bstate_add; exact B1|]. split; [|split; [|split]].
  - intros i Hi. destruct (Nat.lt_ge_cases i n) as [L|L].
    + rewrite B2 by lia. do 2 f_equal.
      replace (n + k - 1 - i)%nat with ((n - 1 - i) + k)%nat by lia. rewrite bstate_add.
      replace (t + Z.of_nat i + 1 + Z.of_nat (n - 1 - i))%Z with (t + Z.of_nat n)%Z by lia. reflexivity.
    + rewrite B3 by lia.
      replace (t + Z.of_nat i)%Z with (t + Z.of_nat n + Z.of_nat (i - n))%Z by lia.
      rewrite A2 by lia. do 2 f_equal. f_equal; lia.
  - intros u Hu. rewrite B3, A3 by lia. reflexivity.
  - intros p Hp. rewrite B4, A4, bgv_add by exact Hp. ring.
  - intros j Hj. rewrite B5, A5 by exact Hj. reflexivity.
Qed.

Definition bbs (m : bmem K) (t : Z) : bmem K :=
  b_swap K (c_bwd_body K P v2 vis store vrg sr gr t m).

Lemma bspec_1 t m s : brel m s -> fzero m t 1 -> bspec t 1 m s (bbs m t).
Proof.
  intros Hr Hz.
  pose proof (c_bwd_body_spec vis vrg gr t m s Hvis Hsrc Hrec Hr (Hz t ltac:(lia))) as B.
  cbv zeta in B. destruct B as (B1 & B2 & B3 & B4 & B5). unfold bbs.
  split; [exact B1|]. split; [|split; [|split]].
  - intros k Hk. replace k with 0%nat by lia.
    replace (t + Z.of_nat 0)%Z with t by lia. exact B2.
  - intros u Hu. apply B3. lia.
  - intros p Hp. cbn [ScalarModel.bgv bst].
    change (g_v K (b_swap K (c_bwd_body K P v2 vis store vrg sr gr t m))) with (g_v K (c_bwd_body K P v2 vis store vrg sr gr t m)). rewrite B4 by exact Hp. ring.
  - exact B5.
Qed.

Lemma bspec_iter n t m s :
  brel m s -> fzero m t n ->
  bspec t n m s (fold_left bbs (rev (zrange t (t + Z.of_nat n))) m).
Proof.
  revert t. induction n as [|n IH]; intros t Hr Hz.
  - rewrite zrange_nil by lia. apply bspec_0. exact Hr.
  - rewrite zrange_cons by lia. cbn [rev]. rewrite fold_left_app. cbn [fold_left].
    replace (t + Z.of_nat (S n))%Z with (t + 1 + Z.of_nat n)%Z by lia.
    set (m1 := fold_left bbs (rev (zrange (t + 1) (t + 1 + Z.of_nat n))) m).
    assert (H1 : bspec (t + 1)%Z n m s m1).
    { apply IH; auto. intros u Hu. apply Hz. lia. }
    apply (bspec_app t 1 n m s m1); [exact H1|].
    replace (t + Z.of_nat 1)%Z with (t + 1)%Z by lia. apply bspec_1.
    + apply H1.
    + intros u Hu. destruct H1 as (_ & _ & H3 & _). rewrite H3 by lia. apply Hz. lia.
Qed.

Definition bview (par : Z) (m : bmem K) : bmem K := if Z.odd par then b_swap K m else m.

Lemma b_swap_swap (m : bmem K) : b_swap K (b_swap K m) = m.
Proof. destruct m; reflexivity. Qed.

Lemma c_backward_view n t0 t m :
  bview (t0 - t) (fold_left (c_bwd_t K P v2 vis store vrg sr gr t0) (rev (zrange t (t + Z.of_nat n))) m)
  = fold_left bbs (rev (zrange t (t + Z.of_nat n))) (bview (t0 - (t + Z.of_nat n)) m).
Proof.
  revert t m. induction n as [|n IH]; intros t m.
  - rewrite zrange_nil by lia. cbn [fold_left rev]. f_equal. lia.
  - rewrite zrange_cons by lia. cbn [rev]. rewrite !fold_left_app. cbn [fold_left].
    replace (t + Z.of_nat (S n))%Z with ((t + 1) + Z.of_nat n)%Z by lia.
    rewrite <- IH. unfold bview, c_bwd_t, bbs.
    replace (t0 - 1 - t)%Z with (t0 - (t + 1))%Z by lia.
    replace (t0 - t)%Z with (Z.succ (t0 - (t + 1))) by lia.
    rewrite Z.odd_succ, <- Z.negb_odd.
    destruct (Z.odd (t0 - (t + 1))); cbn [negb]; reflexivity.
Qed.

Lemma bspec_c_backward n t m s :
  brel m s -> fzero m t n ->
  bspec t n m s (bview (Z.of_nat n)
    (c_backward K P v2 vis store vrg sr gr (Z.of_nat n) (t + Z.of_nat n) m)).
Proof.
  intros Hr Hz. unfold c_backward.
  replace (t + Z.of_nat n - Z.of_nat n)%Z with t by lia.
  replace (Z.of_nat n) with (t + Z.of_nat n - t)%Z at 1 by lia.
  rewrite c_backward_view. replace (t + Z.of_nat n - (t + Z.of_nat n))%Z with 0%Z by lia.
  apply bspec_iter; auto.
Qed.

(** ** Chunks *)
Hypothesis Hsr : (0 < sr)%Z.

Lemma bspec_chunk c x m s :
  (0 < x)%Z -> (0 < c)%Z ->
  let k := Z.to_nat (Z.min x c * sr) in
  brel m s -> fzero m (x * sr - Z.min x c * sr) k ->
  bspec (x * sr - Z.min x c * sr)%Z k m s (bwd_chunk K P v2 vis store vrg sr gr c m x).
Proof.
  intros Hx Hc k Hr Hz. unfold bwd_chunk.
  assert (Ek : (Z.min x c * sr)%Z = Z.of_nat k) by (unfold k; nia).
  rewrite Ek in *. rewrite mod2_odd.
  pose proof (bspec_c_backward k _ m s Hr Hz) as H. unfold bview in H.
  replace (x * sr - Z.of_nat k + Z.of_nat k)%Z with (x * sr)%Z in H by lia.
  destruct (Z.odd (Z.of_nat k)); exact H.
Qed.

Lemma bspec_chunks n c m s :
  (0 < c)%Z -> (0 <= n)%Z -> brel m s -> fzero m 0 (Z.to_nat (n * sr)) ->
  bspec 0 (Z.to_nat (n * sr)) m s
    (fold_left (bwd_chunk K P v2 vis store vrg sr gr c) (range_down n c) m).
Proof.
  intros Hc Hn Hr Hz. unfold range_down.
  (* [r i] = outer steps still to do after [i] chunks *)
  assert (G : forall q i m1, (q = Z.to_nat ((n + c - 1) / c - i))%nat -> (0 <= i)%Z ->
    bspec (Z.max (n - i * c) 0 * sr) (Z.to_nat (n * sr - Z.max (n - i * c) 0 * sr)) m s m1 ->
    bspec 0 (Z.to_nat (n * sr)) m s
      (fold_left (bwd_chunk K P v2 vis store vrg sr gr c)
         (map (fun i => n - i * c)%Z (zrange i ((n + c - 1) / c))) m1)).
  { induction q as [|q IH]; intros i m1 Eq Hi H1.
    - assert ((n + c - 1) / c <= i)%Z by lia.
      assert (n <= i * c)%Z.
      { assert ((n + c - 1) / c < i + 1)%Z by lia.
        pose proof (Z.mul_succ_div_gt (n + c - 1) c). nia. }
      rewrite zrange_nil by lia. cbn. rewrite Z.max_r in H1 by lia.
      replace (n * sr - 0 * sr)%Z with (n * sr)%Z in H1 by lia. exact H1.
    - assert (i + 1 <= (n + c - 1) / c)%Z by lia.
      assert (i * c < n)%Z.
      { pose proof (Z.mul_div_le (n + c - 1) c). nia. }
      rewrite zrange_cons by lia. cbn [map fold_left]. apply (IH (i + 1)%Z); [lia|lia|].
      rewrite Z.max_l in H1 by lia.
      set (x := (n - i * c)%Z) in *.
      set (k := Z.to_nat (Z.min x c * sr)).
      assert (Et : (Z.max (n - (i + 1) * c) 0 * sr = x * sr - Z.min x c * sr)%Z) by nia.
      rewrite Et.
      replace (Z.to_nat (n * sr - (x * sr - Z.min x c * sr)))
        with (k + Z.to_nat (n * sr - x * sr))%nat by (unfold k; nia).
      assert (Es : (x * sr - Z.min x c * sr + Z.of_nat k = x * sr)%Z) by (unfold k; nia).
      apply (bspec_app _ k _ m s m1).
      + rewrite Es. exact H1.
      + rewrite Es. apply bspec_chunk; try lia; try nia.
        * apply H1.
        * intros u Hu. destruct H1 as (_ & _ & H3 & _). rewrite H3 by nia. apply Hz. nia. }
  apply (G (Z.to_nat ((n + c - 1) / c - 0)) 0%Z m); [reflexivity|lia|].
  replace (Z.to_nat (n * sr - Z.max (n - 0 * c) 0 * sr)) with 0%nat by nia. apply bspec_0. exact Hr.
Qed.

End Refine.
