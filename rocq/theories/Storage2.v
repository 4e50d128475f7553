(** * Saving and loading snapshots *)
From Coq Require Import List ZArith Reals Lia Lra Bool.
From Verif Require Import Ops Grid ScalarModel ScalarForward ShotsModel StorageModel Storage.
Import ListNotations.
Local Open Scope Z_scope.

(** ** The sampled steps of a chunked run *)

Lemma filter_none {A} (f : A -> bool) l : (forall x, In x l -> f x = false) -> filter f l = [].
Proof.
  induction l as [|x l IH]; intros H; [reflexivity|]. cbn. rewrite (H x) by now left.
  apply IH. intros; apply H; now right.
Qed.

Lemma filter_mult sr n s : 0 < sr -> 0 <= n -> 0 <= s ->
  filter (fun t => t mod sr =? 0) (zrange (s * sr) (s * sr + n * sr)) = map (fun i => i * sr) (zrange s (s + n)).
Proof.
  intros Hsr Hn Hs. revert s Hs. pattern n. apply natlike_ind; [| |exact Hn].
  - intros s _. rewrite Z.mul_0_l, !Z.add_0_r. unfold zrange. now rewrite !Z.sub_diag.
  - clear n Hn. intros n Hn IH s Hs. rewrite (zrange_cons s (s + Z.succ n)) by lia. cbn [map].
    rewrite (zrange_app (s * sr) (s * sr + sr)) by nia. rewrite filter_app.
    rewrite (zrange_cons (s * sr) (s * sr + sr)) by lia. cbn [filter].
    rewrite Z.mod_mul by lia. cbn [Z.eqb]. cbn [app]. f_equal.
    rewrite filter_none.
    + cbn [app]. replace (s * sr + sr) with ((s + 1) * sr) by lia.
      replace (s * sr + Z.succ n * sr) with ((s + 1) * sr + n * sr) by lia.
      rewrite IH by lia. f_equal. f_equal. lia.
    + intros x Hx. apply In_zrange in Hx. apply Z.eqb_neq.
      replace x with (x - s * sr + s * sr) by lia. rewrite Z.mod_add by lia. rewrite Z.mod_small; lia.
Qed.

Lemma saved_steps_eq sr N cf : 0 < sr -> 0 <= N -> 0 < cf ->
  saved_steps sr N cf = map (fun s => s * sr) (zrange 0 N).
Proof.
  intros Hsr HN Hc. unfold saved_steps, range_up.
  assert (G : forall q i, (q = Z.to_nat ((N + cf - 1) / cf - i))%nat -> 0 <= i ->
    flat_map (fun s => filter (fun t => t mod sr =? 0) (zrange (s * sr) (s * sr + Z.min (N - s) cf * sr)))
      (map (fun i => i * cf) (zrange i ((N + cf - 1) / cf))) = map (fun s => s * sr) (zrange (i * cf) N)).
  { induction q as [|q IH]; intros i Eq Hi.
    - assert (N <= i * cf).
      { assert ((N + cf - 1) / cf < i + 1) by lia. pose proof (Z.mul_succ_div_gt (N + cf - 1) cf). nia. }
      rewrite !zrange_nil by lia. reflexivity.
    - assert (i + 1 <= (N + cf - 1) / cf) by lia.
      assert (i * cf < N) by (pose proof (Z.mul_div_le (N + cf - 1) cf); nia).
      rewrite range_up_cons_aux by lia. cbn [flat_map].
      rewrite filter_mult by nia. rewrite (IH (i + 1)) by lia. rewrite <- map_app. f_equal.
      destruct (Z.le_gt_cases (N - i * cf) cf).
      + rewrite Z.min_l by lia. rewrite (zrange_nil ((i + 1) * cf) N) by nia. rewrite app_nil_r. f_equal. lia.
      + rewrite Z.min_r by lia. replace ((i + 1) * cf) with (i * cf + cf) by lia.
        symmetry. apply zrange_app. lia. }
  exact (G _ 0 eq_refl (Z.le_refl 0)).
Qed.

Lemma slot_inj n q q' i i' : 0 <= i < n -> 0 <= i' < n -> q * n + i = q' * n + i' -> q = q' /\ i = i'.
Proof. intros. assert (q = q') by nia. subst. lia. Qed.

Lemma prodZ_pos s : (forall n, In n s -> 0 <= n) -> 0 <= prodZ s.
Proof.
  induction s as [|n s IH]; intros H; [cbn; lia|]. cbn [prodZ]. apply Z.mul_nonneg_nonneg.
  - apply H; now left.
  - apply IH. intros; apply H; now right.
Qed.
Lemma bytes_pos s ds : 0 < ds -> (forall n, In n s -> 0 <= n) -> 0 <= n_cells s /\ 0 <= bytes_comp s ds /\ 0 <= bytes_uncomp s ds.
Proof.
  intros Hd H. assert (0 <= n_cells s) by apply prodZ_pos, H.
  assert (0 <= n_blocks s).
  { apply prodZ_pos. intros n Hn. unfold nblk in Hn. apply in_map_iff in Hn. destruct Hn as (m & <- & Hm).
    specialize (H m Hm). apply Z.div_pos; lia. }
  destruct (bytes_comp_bounds s ds Hd) as [B _]. unfold bytes_uncomp. nia.
Qed.

Section S.
Variable shape : list Z.
Variable ds : Z.
Variable junk : R.
Variable mode : smode.
Variable comp : bool.
Variable NS sr : Z.
Variable vis : list Z.
Variable w : Z -> Z -> Z -> R.
Variable N : Z.
Hypothesis Hds : 0 < ds.
Hypothesis Hsr : 0 < sr.
Hypothesis Hshape : forall n, In n shape -> 0 <= n.
Hypothesis Hvis : forall i, In i vis -> 0 <= i < n_cells shape.

Notation nc := (n_cells shape).
Notation bc := (bytes_comp shape ds).
Notation bu := (bytes_uncomp shape ds).
Notation save := (save shape ds mode comp NS sr vis).
Notation load := (load shape ds junk mode comp NS sr).

(** What the kernel leaves in the snapshot: its own values in the cells it visits, zeros elsewhere. *)
Definition img (k s i : Z) : R := if in_dec Z.eq_dec i vis then w k s i else 0%R.

Definition slot1 (k s : Z) : Z := match mode, comp with DEVICE, false => k + s * NS | _, _ => k end.
Definition slot2 (k s : Z) : Z := match mode, comp with DEVICE, true => k + s * NS | _, _ => k end.

Lemma foff1_slot k s : foff1 shape mode comp NS sr k (s * sr) = slot1 k s * nc.
Proof. unfold foff1, slot1. rewrite Z.div_mul by lia. destruct mode, comp; ring. Qed.
Lemma boff1_slot k s : boff1 shape mode comp NS sr k (s * sr) = slot1 k s * nc.
Proof. unfold boff1, slot1. rewrite Z.div_mul by lia. destruct mode, comp; ring. Qed.
Lemma foff2_slot k s : foff2 shape ds mode comp NS sr k (s * sr) = slot2 k s * bc.
Proof. unfold foff2, slot2. rewrite Z.div_mul by lia. destruct mode, comp; ring. Qed.
Lemma boff2_slot k s : boff2 shape ds mode comp NS sr k (s * sr) = slot2 k s * bc.
Proof. unfold boff2, slot2. rewrite Z.div_mul by lia. destruct mode, comp; ring. Qed.

Lemma slot1_shot k s k' s' : 0 <= k < NS -> 0 <= k' < NS -> slot1 k s = slot1 k' s' -> k = k'.
Proof. unfold slot1. destruct mode, comp; intros; try assumption; destruct (slot_inj NS s s' k k'); lia. Qed.
Lemma slot2_shot k s k' s' : 0 <= k < NS -> 0 <= k' < NS -> slot2 k s = slot2 k' s' -> k = k'.
Proof. unfold slot2. destruct mode, comp; intros; try assumption; destruct (slot_inj NS s s' k k'); lia. Qed.

Definition holds (k s : Z) (m : mem) : Prop :=
  exists out, forall j, 0 <= j < bc -> m j = compress shape ds (img k s) out j.

(** Snapshot [s] of shot [k] is in the place where the backward pass will look for it. *)
Definition slot_ok (k s : Z) (M : sst) : Prop :=
  match mode, comp with
  | DEVICE, false => forall i, 0 <= i < nc -> st1 M (slot1 k s * nc + i) = img k s i
  | DEVICE, true => holds k s (fun j => st2 M (slot2 k s * bc + j))
  | DISK, false => (s + 1) * bu <= fst (fil M k) /\
                   forall j, 0 <= j < bu -> snd (fil M k) (s * bu + j) = flt_bytes ds (img k s) j
  | DISK, true => (s + 1) * bc <= fst (fil M k) /\ holds k s (fun j => snd (fil M k) (s * bc + j))
  end.

Definition fsize : Z := if comp then bc else bu.

Definition inv (c : Z -> Z) (M : sst) : Prop := forall k, 0 <= k < NS ->
  (forall s i, 0 <= s < N -> 0 <= i < nc -> ~ In i vis -> st1 M (slot1 k s * nc + i) = 0%R) /\
  (forall s, 0 <= s < c k -> slot_ok k s M) /\
  (match mode with DISK => fst (fil M k) = c k * fsize | DEVICE => True end).

Lemma written (u : Z -> R) o a :
  fold_left (fun a i => upr a (o + i) (u i)) vis a = puts (map (fun i => (o + i, u i)) vis) a.
Proof. exact (fold_puts (fun i => o + i) u vis a). Qed.

Lemma written_in (u : Z -> R) o a i : In i vis ->
  fold_left (fun a i => upr a (o + i) (u i)) vis a (o + i) = u i.
Proof.
  intros H. rewrite written. apply puts_get.
  - apply in_map_iff. exists i. auto.
  - intros y Hy. apply in_map_iff in Hy. destruct Hy as (i' & E & _). injection E as E <-.
    f_equal. lia.
Qed.

Lemma written_out (u : Z -> R) o a j : (forall i, In i vis -> j <> o + i) ->
  fold_left (fun a i => upr a (o + i) (u i)) vis a j = a j.
Proof.
  intros H. rewrite written. apply puts_keep. intros x Hx. apply in_map_iff in Hx.
  destruct Hx as (i & E & Hi). injection E as E _. exact (H i Hi (eq_sym E)).
Qed.

Lemma save_st1_same k s M i : 0 <= i < nc ->
  (~ In i vis -> st1 M (slot1 k s * nc + i) = 0%R) ->
  st1 (save (w k s) k (s * sr) M) (slot1 k s * nc + i) = img k s i.
Proof.
  intros Hi H. unfold StorageModel.save. cbn [st1]. rewrite foff1_slot. unfold img.
  destruct (in_dec Z.eq_dec i vis) as [Hv|Hv].
  - apply written_in, Hv.
  - rewrite written_out; [apply H, Hv|]. intros i' Hi' E. assert (i = i') by lia. congruence.
Qed.

Lemma save_st1_other k s k' s' M i : 0 <= i < nc -> slot1 k s <> slot1 k' s' ->
  st1 (save (w k' s') k' (s' * sr) M) (slot1 k s * nc + i) = st1 M (slot1 k s * nc + i).
Proof.
  intros Hi Hne. unfold StorageModel.save. cbn [st1]. rewrite foff1_slot. apply written_out.
  intros i' Hi' E. apply Hne. exact (proj1 (slot_inj nc _ _ i i' Hi (Hvis _ Hi') E)).
Qed.

Lemma bc_big : nc + n_blocks shape * ds <= bc.
Proof. apply bytes_comp_bounds, Hds. Qed.

Lemma save_st2_same k s M : comp = true ->
  (forall i, 0 <= i < nc -> ~ In i vis -> st1 M (slot1 k s * nc + i) = 0%R) ->
  holds k s (fun j => st2 (save (w k s) k (s * sr) M) (slot2 k s * bc + j)).
Proof.
  intros Hc H. exists (fun j => st2 M (slot2 k s * bc + j)). intros j Hj.
  pose proof (fun i Hi => save_st1_same k s M i Hi (H i Hi)) as E.
  unfold StorageModel.save in *. cbn [st1 st2] in *. rewrite foff1_slot in *. rewrite foff2_slot in *.
  match goal with |- (if comp then ?a else ?b) _ = _ => replace (if comp then a else b) with a by (destruct comp; [reflexivity|discriminate]) end.
  replace (slot2 k s * bc + j - slot2 k s * bc) with j by lia.
  rewrite (compress_ext shape ds _ (img k s)); [reflexivity|]. exact E.
Qed.

Lemma save_st2_other k s k' s' M j : 0 <= j < bc -> slot2 k s <> slot2 k' s' ->
  st2 (save (w k' s') k' (s' * sr) M) (slot2 k s * bc + j) = st2 M (slot2 k s * bc + j).
Proof.
  intros Hj Hne. unfold StorageModel.save. cbn [st2]. rewrite foff2_slot.
  match goal with |- (if comp then ?a else ?b) _ = _ =>
    destruct (Bool.bool_dec comp true) as [Ec|Ec];
    [replace (if comp then a else b) with a by (destruct comp; [reflexivity|discriminate])
    |replace (if comp then a else b) with b by (destruct comp; [congruence|reflexivity]); reflexivity] end. rewrite compress_range.
  - f_equal. lia.
  - exact Hds.
  - intros B. pose proof bc_big. apply Hne.
    destruct (slot_inj bc (slot2 k s) (slot2 k' s') j (slot2 k s * bc + j - slot2 k' s' * bc)); lia.
Qed.

Lemma div_mod_bytes i j : 0 <= j < ds -> (i * ds + j) / ds = i /\ (i * ds + j) mod ds = j.
Proof.
  intros H. rewrite Z.add_comm. split.
  - rewrite Z.div_add by lia. rewrite Z.div_small by lia. lia.
  - rewrite Z.mod_add by lia. apply Z.mod_small. lia.
Qed.

Definition bump (c : Z -> Z) (k : Z) : Z -> Z := fun q => if q =? k then c q + 1 else c q.

Lemma save_inv c k M : 0 <= k < NS -> 0 <= c k < N -> inv c M ->
  inv (bump c k) (save (w k (c k)) k (c k * sr) M).
Proof.
  intros Hk Hck HI q Hq. destruct (HI q Hq) as (I1 & I2 & I3). destruct (HI k Hk) as (J1 & _ & _).
  set (s' := c k) in *. set (M' := save (w k s') k (s' * sr) M).
  assert (A1 : forall s i, 0 <= s < N -> 0 <= i < nc -> ~ In i vis -> st1 M' (slot1 q s * nc + i) = 0%R).
  { intros s i Hs Hi Hn. destruct (Z.eq_dec (slot1 q s) (slot1 k s')) as [E|E].
    - rewrite E. unfold M'. rewrite save_st1_same.
      + unfold img. destruct (in_dec Z.eq_dec i vis); [contradiction|reflexivity].
      + exact Hi.
      + intros _. apply J1; assumption.
    - unfold M'. rewrite save_st1_other by assumption. apply I1; assumption. }
  assert (A3 : match mode with DISK => fst (fil M' q) = bump c k q * fsize | DEVICE => True end).
  { unfold M', StorageModel.save, fsize, bump in *. cbn [fil]. destruct mode; [exact I|].
    destruct (Z.eqb_spec q k) as [->|E].
    - destruct comp; cbn [append fst]; rewrite I3; ring.
    - exact I3. }
  split; [exact A1|]. split; [|exact A3].
  assert (Kimg : forall i, 0 <= i < nc -> st1 M' (slot1 k s' * nc + i) = img k s' i).
  { intros i Hi. apply save_st1_same; [exact Hi|]. intros Hn. apply J1; assumption. }
  assert (Kcomp : comp = true -> holds k s' (fun j => st2 M' (slot2 k s' * bc + j))).
  { intros Hc. apply save_st2_same; [exact Hc|]. intros i Hi Hn. apply J1; assumption. }
  intros s Hs. unfold bump in Hs.
  destruct (Z.eq_dec q k) as [->|Eq].
  - rewrite Z.eqb_refl in Hs. destruct (Z.eq_dec s s') as [->|Es].
    + (* the snapshot just saved *)
      unfold slot_ok. destruct mode eqn:Em; destruct comp eqn:Ec.
      * apply Kcomp; reflexivity.
      * exact Kimg.
      * split.
        { rewrite A3. unfold bump, fsize. rewrite ?Ec, Z.eqb_refl. fold s'. lia. }
        destruct (Kcomp eq_refl) as (out & Ho). exists out. intros j Hj. rewrite <- (Ho j Hj).
        unfold M', StorageModel.save. cbn [fil st2]. rewrite Z.eqb_refl. cbn [append snd].
        rewrite I3. unfold fsize; rewrite ?Ec. fold s'.
        replace ((s' * bc <=? s' * bc + j) && (s' * bc + j <? s' * bc + bc)) with true by (symmetry; rewrite andb_true_iff; lia).
        pose proof (foff2_slot k s') as F2. rewrite Em, Ec in F2. unfold slot2. rewrite ?Em, ?Ec. rewrite F2.
        f_equal. assert (slot2 k s' = k) as -> by (unfold slot2; now rewrite Em). lia.
      * split.
        { rewrite A3. unfold bump, fsize. rewrite ?Ec, Z.eqb_refl. fold s'. lia. }
        intros j Hj. unfold M', StorageModel.save. cbn [fil]. rewrite Z.eqb_refl. cbn [append snd].
        rewrite I3. unfold fsize; rewrite ?Ec. fold s'.
        replace ((s' * bu <=? s' * bu + j) && (s' * bu + j <? s' * bu + bu)) with true by (symmetry; rewrite andb_true_iff; lia).
        replace (s' * bu + j - s' * bu) with j by lia. unfold flt_bytes. f_equal.
        assert (0 <= j / ds < nc).
        { unfold bytes_uncomp in Hj. split; [apply Z.div_pos; lia|apply Z.div_lt_upper_bound; lia]. }
        rewrite <- (Kimg (j / ds)) by assumption. unfold M', StorageModel.save. cbn [st1].
        pose proof (foff1_slot k s') as F1. rewrite Em, Ec in F1. rewrite F1. reflexivity.
    + (* an earlier snapshot of the same shot *)
      assert (Hs' : 0 <= s < s') by (fold s' in Hs; lia).
      pose proof (I2 s Hs') as O. unfold slot_ok in *. destruct mode eqn:Em; destruct comp eqn:Ec.
      * destruct O as (out & O). exists out. intros j Hj. rewrite <- (O j Hj).
        unfold M'. rewrite <- Em, <- Ec. apply save_st2_other; [exact Hj|]. unfold slot2. rewrite Em, Ec. nia.
      * intros i Hi. rewrite <- (O i Hi). unfold M'. rewrite <- Em, <- Ec. apply save_st1_other; [exact Hi|]. unfold slot1. rewrite Em, Ec. nia.
      * destruct O as (L & out & O). split.
        { rewrite A3. unfold bump, fsize. rewrite ?Ec, Z.eqb_refl. fold s'. destruct (bytes_pos shape ds Hds Hshape) as (_ & B & _). nia. }
        exists out. intros j Hj. rewrite <- (O j Hj).
        unfold M', StorageModel.save. cbn [fil]. rewrite Z.eqb_refl. cbn [append snd].
        rewrite I3. unfold fsize; rewrite ?Ec. fold s'.
        replace ((s' * bc <=? s * bc + j) && (s * bc + j <? s' * bc + bc)) with false by (symmetry; rewrite andb_false_iff; left; nia).
        reflexivity.
      * destruct O as (L & O). split.
        { rewrite A3. unfold bump, fsize. rewrite ?Ec, Z.eqb_refl. fold s'. rewrite I3 in L. destruct (bytes_pos shape ds Hds Hshape) as (_ & _ & B). nia. }
        intros j Hj. rewrite <- (O j Hj).
        unfold M', StorageModel.save. cbn [fil]. rewrite Z.eqb_refl. cbn [append snd].
        rewrite I3. unfold fsize; rewrite ?Ec. fold s'.
        replace ((s' * bu <=? s * bu + j) && (s * bu + j <? s' * bu + bu)) with false by (symmetry; rewrite andb_false_iff; left; nia).
        reflexivity.
  - (* another shot *)
    destruct (Z.eqb_spec q k) as [|_]; [contradiction|].
    pose proof (I2 s Hs) as O. unfold slot_ok in *. destruct mode eqn:Em; destruct comp eqn:Ec.
    + destruct O as (out & O). exists out. intros j Hj. rewrite <- (O j Hj).
      unfold M'. rewrite <- Em, <- Ec. apply save_st2_other; [exact Hj|]. intros E. apply Eq. exact (slot2_shot _ _ _ _ Hq Hk E).
    + intros i Hi. rewrite <- (O i Hi). unfold M'. rewrite <- Em, <- Ec. apply save_st1_other; [exact Hi|]. intros E. apply Eq. exact (slot1_shot _ _ _ _ Hq Hk E).
    + unfold M', StorageModel.save. cbn [fil]. destruct (Z.eqb_spec q k); [contradiction|]. exact O.
    + unfold M', StorageModel.save. cbn [fil]. destruct (Z.eqb_spec q k); [contradiction|]. exact O.
Qed.

Lemma sinit_inv : inv (fun _ => 0) (sinit ds junk).
Proof.
  intros k Hk. split; [reflexivity|]. split; [intros s Hs; lia|]. destruct mode; [exact I|]. reflexivity.
Qed.

Notation run_saves := (run_saves shape ds mode comp NS sr vis w).
Notation run_loads := (run_loads shape ds junk mode comp NS sr).

Lemma saves_inv ev : forall c M,
  Forall (fun e => 0 <= fst e < NS) ev ->
  (forall k, 0 <= k < NS -> 0 <= c k <= N /\
     map snd (filter (fun e => fst e =? k) ev) = map (fun s => s * sr) (zrange (c k) N)) ->
  inv c M -> forall k s, 0 <= k < NS -> 0 <= s < N -> slot_ok k s (run_saves ev M).
Proof.
  induction ev as [|[k0 t0] ev IH]; intros c M Hf Hc HI k s Hk Hs.
  - destruct (Hc k Hk) as (H1 & H2). cbn in H2.
    assert (N <= c k).
    { destruct (Z.le_gt_cases N (c k)); [assumption|]. rewrite zrange_cons in H2 by lia. discriminate. }
    destruct (HI k Hk) as (_ & H3 & _). apply H3. lia.
  - inversion Hf as [|x l Hk0 Hf']; subst. cbn [fst] in Hk0.
    destruct (Hc k0 Hk0) as (H1 & H2). cbn in H2. rewrite Z.eqb_refl in H2. cbn in H2.
    assert (Hlt : c k0 < N).
    { destruct (Z.le_gt_cases N (c k0)); [|assumption]. rewrite zrange_nil in H2 by lia. discriminate. }
    rewrite zrange_cons in H2 by exact Hlt. cbn [map] in H2. injection H2 as E H2. subst t0.
    change (run_saves ((k0, c k0 * sr) :: ev) M)
      with (run_saves ev (save (w k0 (c k0 * sr / sr)) k0 (c k0 * sr) M)).
    rewrite Z.div_mul by lia.
    apply (IH (bump c k0)); try assumption.
    + intros q Hq. destruct (Hc q Hq) as (H3 & H4). unfold bump. destruct (Z.eqb_spec q k0) as [->|Ne].
      * split; [lia|exact H2].
      * split; [exact H3|]. cbn in H4. destruct (Z.eqb_spec k0 q); [congruence|]. exact H4.
    + apply save_inv; try assumption. lia.
Qed.

Lemma load_keeps k s k' s' M : 0 <= k < NS -> 0 <= k' < NS -> slot_ok k s M -> slot_ok k s (load k' (s' * sr) M).
Proof.
  intros Hk Hk' O. unfold slot_ok, StorageModel.load in *. destruct mode, comp; exact O.
Qed.

Lemma loads_keep ls : forall k s M, 0 <= k < NS ->
  Forall (fun e => 0 <= fst e < NS /\ exists s', snd e = s' * sr) ls ->
  slot_ok k s M -> slot_ok k s (run_loads ls M).
Proof.
  induction ls as [|[k' t'] ls IH]; intros k s M Hk Hf O; [exact O|].
  inversion Hf as [|x l H1 H2]; subst. destruct H1 as (H1 & s' & E). cbn in H1, E. subst t'.
  apply (IH k s (load k' (s' * sr) M)); try assumption. apply load_keeps; assumption.
Qed.

Lemma load_exact k s M i : comp = false -> slot_ok k s M -> 0 <= i < nc ->
  st1 (load k (s * sr) M) (boff1 shape mode comp NS sr k (s * sr) + i) = img k s i.
Proof.
  intros Hc O Hi. rewrite boff1_slot. unfold StorageModel.load. rewrite boff1_slot, boff2_slot.
  rewrite Z.div_mul by lia. cbn [st1]. unfold slot_ok in O. rewrite Hc in *.
  destruct mode.
  - apply O, Hi.
  - destruct O as (_ & O). set (o := slot1 k s * nc) in *.
    replace ((o <=? o + i) && (o + i <? o + nc)) with true by (symmetry; rewrite andb_true_iff; lia).
    replace (o + i - o) with i by lia.
    apply rd_flt_parts; [exact Hds|]. intros j Hj. rewrite <- Z.add_assoc. rewrite O.
    + unfold flt_bytes. destruct (div_mod_bytes i j Hj) as [-> ->]. reflexivity.
    + unfold bytes_uncomp. nia.
Qed.

Lemma load_comp k s M p B : comp = true -> slot_ok k s M -> inb (abox shape) p = true ->
  (forall q, inb (abox shape) q = true -> (forall d, coord d q / 8 = coord d p / 8) ->
     (Rabs (img k s (idx shape q)) <= B)%R) ->
  (Rabs (st1 (load k (s * sr) M) (boff1 shape mode comp NS sr k (s * sr) + idx shape p)%Z
         - img k s (idx shape p)) <= B / 254)%R.
Proof.
  intros Hc O Hp HB. rewrite boff1_slot. unfold StorageModel.load. rewrite boff1_slot, boff2_slot.
  rewrite Z.div_mul by lia. cbn [st1]. unfold slot_ok in O. rewrite Hc in *.
  replace (slot1 k s * nc + idx shape p - slot1 k s * nc) with (idx shape p) by lia.
  pose proof bc_big as Bb.
  destruct mode.
  - destruct O as (out & O). apply (roundtrip_error shape ds junk Hds (img k s) out); [exact Hp| |exact HB].
    intros j Hj. apply O. lia.
  - destruct O as (_ & out & O). apply (roundtrip_error shape ds junk Hds (img k s) out); [exact Hp| |exact HB].
    intros j Hj. rewrite <- O by lia. set (o := slot2 k s * bc) in *.
    replace ((o <=? o + j) && (o + j <? o + bc)) with true by (symmetry; rewrite andb_true_iff; lia).
    f_equal. lia.
Qed.

Lemma stored ev cf : 0 <= N -> 0 < cf -> interleaves NS (fun _ => saved_steps sr N cf) ev ->
  forall k s, 0 <= k < NS -> 0 <= s < N -> slot_ok k s (run_saves ev (sinit ds junk)).
Proof.
  intros HN Hcf [H1 H2]. apply (saves_inv ev (fun _ => 0)); [exact H1| |exact sinit_inv].
  intros k Hk. split; [lia|]. rewrite (H2 k Hk). apply saved_steps_eq; assumption.
Qed.

Lemma inside1 k s i : 0 <= k < NS -> 0 <= s < N -> 0 <= i < nc ->
  0 <= slot1 k s * nc + i < size1 shape mode comp NS N.
Proof.
  intros Hk Hs Hi. unfold slot1, size1. assert (0 <= k + s * NS /\ k + s * NS + 1 <= N * NS) by nia.
  destruct mode, comp; try nia.
Qed.
Lemma inside2 k s j : comp = true -> 0 <= k < NS -> 0 <= s < N -> 0 <= j < bc ->
  0 <= slot2 k s * bc + j < size2 shape ds mode comp NS N.
Proof.
  intros Hc Hk Hs Hj. unfold slot2, size2. rewrite Hc. destruct (bytes_comp_bounds shape ds Hds) as (_ & _ & E).
  destruct mode.
  - rewrite <- Z.mul_assoc, E. assert (0 <= k + s * NS /\ k + s * NS + 1 <= N * NS) by nia.
    split; [nia|]. apply Z.lt_le_trans with ((k + s * NS + 1) * bc); [lia|]. apply Z.mul_le_mono_nonneg_r; lia.
  - rewrite <- Z.mul_assoc, E. nia.
Qed.
End S.
