(** * Off-grid locations: cells, weights and free surfaces of one dimension; whole objects. *)
From Coq Require Import List ZArith QArith Qround Lia Lqa Bool Permutation.
From Verif Require Import Ops Sums Grid ScalarModel ScalarAdjoint ScalarForward Shots ElasticThm Hicks HicksThm.
Import ListNotations.

(** ** Rounding *)
Lemma qtrunc_int q z : q == inject_Z z -> qtrunc q = z.
Proof.
  unfold qtrunc, Qeq. cbn. rewrite Z.mul_1_r. intros ->. apply Z.quot_mul. lia.
Qed.
Lemma qtrunc_up q : q < inject_Z (qtrunc q) + 1.
Proof.
  assert (H : q < inject_Z (qtrunc q + 1)).
  { unfold qtrunc, Qlt. cbn. pose proof (Z.quot_rem' (Qnum q) (QDen q)). pose proof (Z.rem_bound_abs (Qnum q) (QDen q)). nia. }
  rewrite inject_Z_plus in H. exact H.
Qed.
Lemma qtrunc_low q : 0 <= q -> inject_Z (qtrunc q) <= q.
Proof.
  intros H. unfold qtrunc, Qle in *. cbn in *. pose proof (Z.quot_rem' (Qnum q) (QDen q)). pose proof (Z.rem_bound_pos (Qnum q) (QDen q)). nia.
Qed.
Lemma qceil_eq q z : inject_Z z - 1 < q -> q <= inject_Z z -> Qceiling q = z.
Proof.
  intros H1 H2. pose proof (Qle_ceiling q). pose proof (Qceiling_lt q).
  assert (A : (inject_Z (Qceiling q - 1) < inject_Z z)) by lra. rewrite <- Zlt_Qlt in A.
  assert (B : inject_Z (z - 1) < inject_Z (Qceiling q)) by (replace (z - 1)%Z with (z + -1)%Z by lia; rewrite inject_Z_plus; change (inject_Z (-1)) with (-(1)); lra).
  rewrite <- Zlt_Qlt in B. lia.
Qed.
Lemma qlt_iff a b : qlt a b = true <-> a < b.
Proof.
  unfold qlt. rewrite negb_true_iff. destruct (Qle_bool b a) eqn:E.
  - apply Qle_bool_iff in E. split; [discriminate|]. intros H. lra.
  - split; [|reflexivity]. intros _. apply Qnot_le_lt. intros H. apply Qle_bool_iff in H. congruence.
Qed.
Lemma qlt_false a b : qlt a b = false <-> b <= a.
Proof.
  pose proof (qlt_iff a b). destruct (qlt a b); split; intros H1; try discriminate; try reflexivity.
  - assert (a < b) by (apply H; reflexivity). lra.
  - apply Qnot_lt_le. intros H2. apply H in H2. discriminate.
Qed.
Lemma qabs_cases q : (0 <= q /\ qabs q = q) \/ (q < 0 /\ qabs q = - q).
Proof.
  unfold qabs. destruct (Qle_bool 0 q) eqn:E.
  - left. split; [apply Qle_bool_iff, E|reflexivity].
  - right. split; [|reflexivity]. apply Qnot_le_lt. intros H. apply Qle_bool_iff in H. congruence.
Qed.
Lemma qfloor_eq q z : inject_Z z <= q -> q < inject_Z z + 1 -> Qfloor q = z.
Proof.
  intros H1 H2. pose proof (Qfloor_le q). pose proof (Qlt_floor q).
  assert (A : inject_Z (Qfloor q) < inject_Z (z + 1)) by (rewrite inject_Z_plus; change (inject_Z 1) with 1; lra). rewrite <- Zlt_Qlt in A.
  assert (B : inject_Z z < inject_Z (Qfloor q + 1)) by lra. rewrite <- Zlt_Qlt in B. lia.
Qed.
Lemma q_isint_even q z : q == inject_Z z -> q_isint q = true.
Proof.
  intros H. unfold q_isint. assert (E : qround q = z).
  { unfold qround. rewrite (qfloor_eq q z) by lra. destruct (Qcompare_spec (q - inject_Z z) (1 # 2)); [lra|reflexivity|lra]. }
  rewrite E. apply Qle_bool_iff.
  assert (P : forall x, 0 <= qabs x) by (intros x; destruct (qabs_cases x) as [[? E1]|[? E1]]; rewrite E1; lra).
  pose proof (P q). pose proof (P (inject_Z z)).
  destruct (Qle_bool (qabs (inject_Z z)) (qabs q)); destruct (qabs_cases (inject_Z z - q)) as [[_ E1]|[_ E1]]; rewrite E1; lra.
Qed.
Lemma q_isint_odd q z : q == inject_Z z + (1#2) -> (Z.abs z < 400000000)%Z -> q_isint q = false.
Proof.
  intros H Hz. unfold q_isint. assert (E : qround q = z \/ qround q = (z + 1)%Z).
  { unfold qround. rewrite (qfloor_eq q z) by lra. destruct (Qcompare_spec (q - inject_Z z) (1 # 2)); [|lra|lra].
    destruct (Z.even z); auto. }
  assert (B1 : inject_Z z < inject_Z 400000000) by (rewrite <- Zlt_Qlt; lia).
  assert (B2 : inject_Z (-400000000) < inject_Z z) by (rewrite <- Zlt_Qlt; lia).
  change (inject_Z 400000000) with (400000000 # 1) in B1. change (inject_Z (-400000000)) with (-400000000 # 1) in B2.
  match goal with |- Qle_bool ?a ?b = false => destruct (Qle_bool a b) eqn:F; [|reflexivity] end. exfalso. apply Qle_bool_iff in F.
  destruct E as [E|E]; rewrite E in F; try rewrite inject_Z_plus in F; change (inject_Z 1) with 1 in F.
  - destruct (qabs_cases (inject_Z z - q)) as [[? E1]|[? E1]]; rewrite E1 in F; try lra;
    destruct (Qle_bool (qabs (inject_Z z)) (qabs q));
    destruct (qabs_cases q) as [[? E2]|[? E2]]; destruct (qabs_cases (inject_Z z)) as [[? E3]|[? E3]]; rewrite ?E2, ?E3 in F; lra.
  - destruct (qabs_cases (inject_Z z + 1 - q)) as [[? E1]|[? E1]]; rewrite E1 in F; try lra;
    destruct (Qle_bool (qabs (inject_Z z + 1)) (qabs q));
    destruct (qabs_cases q) as [[? E2]|[? E2]]; destruct (qabs_cases (inject_Z z + 1)) as [[? E3]|[? E3]]; rewrite ?E2, ?E3 in F; lra.
Qed.

(** ** Ranges *)
Lemma zrange_map_add t a b : map (fun k => (k + t)%Z) (zrange a b) = zrange (a + t) (b + t).
Proof.
  apply nth_ext with (d := (0 + t)%Z) (d' := 0%Z); rewrite map_length, !zrange_length; [f_equal; lia|].
  intros n Hn. rewrite (map_nth (fun k => (k + t)%Z)). rewrite !nth_zrange by lia. lia.
Qed.
Lemma zrange_skipn a b n : skipn n (zrange a b) = zrange (a + Z.of_nat n) b.
Proof.
  apply nth_ext with (d := 0%Z) (d' := 0%Z); rewrite skipn_length, !zrange_length; [lia|].
  intros k Hk. rewrite nth_skipn, !nth_zrange by lia. lia.
Qed.
Lemma zrange_firstn a b n : (a + Z.of_nat n <= b)%Z -> firstn n (zrange a b) = zrange a (a + Z.of_nat n).
Proof.
  intros H. apply nth_ext with (d := 0%Z) (d' := 0%Z); rewrite firstn_length, !zrange_length; [lia|].
  intros k Hk. rewrite nth_firstn_lt by lia. rewrite !nth_zrange by lia. reflexivity.
Qed.
Local Open Scope K_scope.

Section OneDim.
Variable A : arith.
Variable K : ops.
Variable wf : bool -> num A -> K.
Variable hw : Z.
Variable eps : Q.
Notation len2 := (Z.to_nat (2 * hw)).
Notation cache_ok c := (forall e, In e c -> length (snd e) = len2).

Lemma offsets_length l : length (offsets A hw l) = len2.
Proof. unfold offsets. rewrite map_length, zrange_length. f_equal. lia. Qed.
Lemma wcells_length l : length (wcells A hw l) = len2.
Proof. unfold wcells. rewrite map_length. apply offsets_length. Qed.
Lemma cget_ok (c : cache K) k w : cache_ok c -> cget K c k = Some w -> length w = len2.
Proof.
  intros H. unfold cget. destruct (find _ c) as [e|] eqn:E; [|discriminate]. intros [= <-]. apply find_some in E. apply H, E.
Qed.
Lemma sub_at_length i f (w : list K) : length (sub_at K i f w) = length w.
Proof. unfold sub_at. rewrite map_length. apply seq_length. Qed.

Lemma fold_begin_ok l0 ls (w : list K) ls' w' off : fold_begin K l0 ls w = Some (ls', w', off) ->
  ls' = skipn off ls /\ length w' = length w /\ (off <= length w)%nat.
Proof.
  unfold fold_begin. destruct (qlt _ _).
  - cbv zeta. match goal with |- context [(?a <=? ?b)%nat] => destruct (Nat.leb_spec a b); [|discriminate] end. intros [= <- <- <-].
    split; [reflexivity|]. split; [apply sub_at_length|]. lia.
  - intros [= <- <- <-]. split; [reflexivity|]. split; [reflexivity|lia].
Qed.
Lemma fold_end_ok l1 ls (w : list K) off ls' w' off' len' : (off <= length w)%nat -> length ls = (length w - off)%nat ->
  fold_end K l1 ls w off = Some (ls', w', off', len') ->
  off' = off /\ ls' = firstn len' ls /\ length w' = length w /\ (len' <= length w - off)%nat.
Proof.
  intros Ho Hl. unfold fold_end. destruct (qlt l1 _) eqn:Q.
  - cbv zeta. match goal with |- context [if (?a && ?b)%bool then _ else _] => destruct (a && b)%bool; [|discriminate] end. intros [= <- <- <- <-].
    split; [reflexivity|]. split; [reflexivity|]. split; [apply sub_at_length|].
    apply qlt_iff in Q.
    pose proof (Qceiling_resp_le 0 (inject_Z (nth (length ls - 1) ls 0%Z) - l1) ltac:(lra)) as C. change (Qceiling 0) with 0%Z in C. lia.
  - intros [= <- <- <- <-]. split; [reflexivity|]. split; [rewrite <- Hl; symmetry; apply firstn_all|]. split; [reflexivity|lia].
Qed.

Lemma one_dim_ok c l fs fl mono ls w c' : cache_ok c -> one_dim A K wf hw eps c l fs fl mono = Some (ls, w, c') ->
  length ls = length w /\ cache_ok c' /\ ((exists z, ls = [z]) \/ exists off len, ls = firstn len (skipn off (wcells A hw l))).
Proof.
  intros Hc. unfold one_dim. destruct (mono && _).
  - intros [= <- <- <-]. split; [reflexivity|]. split; [exact Hc|]. left. eexists. reflexivity.
  - set (W := match cget K c (key_of A eps l mono) with Some w => w | None => map (wf mono) (offsets A hw l) end).
    assert (HW : length W = len2).
    { unfold W. destruct (cget K c _) eqn:E; [exact (cget_ok _ _ _ Hc E)|]. rewrite map_length. apply offsets_length. }
    set (B := if fst fs then _ else _). destruct B as [[[ls1 w1] off]|] eqn:EB; [|discriminate].
    assert (H1 : ls1 = skipn off (wcells A hw l) /\ length w1 = len2 /\ (off <= len2)%nat).
    { unfold B in EB. destruct (fst fs).
      - apply fold_begin_ok in EB. rewrite HW in EB. exact EB.
      - injection EB as <- <- <-. split; [reflexivity|]. split; [exact HW|lia]. }
    clear EB B. destruct H1 as (-> & L1 & Lo).
    set (B := if snd fs then _ else _). destruct B as [[[[ls2 w2] off2] len]|] eqn:EB; [|discriminate]. intros [= <- <- <-].
    assert (Lsk : length (skipn off (wcells A hw l)) = (length w1 - off)%nat) by (rewrite skipn_length, wcells_length, L1; reflexivity).
    assert (H2 : off2 = off /\ ls2 = firstn len (skipn off (wcells A hw l)) /\ length w2 = length w1 /\ (len <= length w1 - off)%nat).
    { unfold B in EB. destruct (snd fs).
      - apply fold_end_ok in EB; [exact EB|rewrite L1; exact Lo|exact Lsk].
      - injection EB as <- <- <- <-. split; [reflexivity|]. split; [rewrite <- Lsk; symmetry; apply firstn_all|]. split; [reflexivity|lia]. }
    destruct H2 as (-> & -> & L2 & Ll). split; [|split].
    + rewrite !firstn_length, !skipn_length, wcells_length, L2, L1. reflexivity.
    + destruct (cget K c _); [exact Hc|]. intros e [<-|He]; [cbn; lia|apply Hc, He].
    + right. exists off, len. reflexivity.
Qed.

(** Generic facts on [mapc]. *)
Lemma mapc_inv {X Y} (f : cache K -> X -> option (Y * cache K)) (I : cache K -> Prop) (R : X -> Y -> Prop) (Px : X -> Prop) :
  (forall c x y c', Px x -> I c -> f c x = Some (y, c') -> R x y /\ I c') ->
  forall l c ys c', Forall Px l -> I c -> mapc K f c l = Some (ys, c') -> Forall2 R l ys /\ I c'.
Proof.
  intros H. induction l as [|x l IH]; intros c ys c' HP Hc; cbn; [intros [= <- <-]; split; [constructor|exact Hc]|].
  inversion HP; subst. destruct (f c x) as [[y c1]|] eqn:E; [|discriminate]. destruct (mapc K f c1 l) as [[ys' c2]|] eqn:E2; [|discriminate].
  intros [= <- <-]. destruct (H c x y c1 H2 Hc E) as [R1 I1]. destruct (IH c1 ys' c2 H3 I1 E2). split; [constructor; assumption|assumption].
Qed.
End OneDim.

Section Exact.
Variable K : ops.
Variable wf : bool -> Q -> K.
Variable hw : Z.
Variable eps : Q.

Lemma wcells_exact (l : Q) : wcells exact hw l = zrange (qtrunc l - hw + 1) (qtrunc l + hw + 1).
Proof.
  unfold wcells, offsets. cbn [exact n_of n_add n_sub n_trunc toQ num]. rewrite map_map.
  rewrite (map_ext _ (fun k => (k + qtrunc l)%Z)).
  - rewrite zrange_map_add. f_equal; lia.
  - intros k. apply qtrunc_int. rewrite inject_Z_plus. ring.
Qed.
Lemma NoDup_wcells (l : Q) : NoDup (wcells exact hw l).
Proof. rewrite wcells_exact. apply NoDup_zrange. Qed.

Lemma one_point_ok fs fl c p q c' : (forall e, In e c -> length (snd e) = Z.to_nat (2 * hw)) ->
  one_point exact K wf hw eps fs fl c p = Some (q, c') ->
  pw_ok K q /\ (forall e, In e c' -> length (snd e) = Z.to_nat (2 * hw)).
Proof.
  intros Hc. unfold one_point. destruct (one_dim _ _ _ _ _ c _ _ _ _) as [[[l0 w0] c1]|] eqn:E0; [|discriminate].
  destruct (one_dim _ _ _ _ _ c1 _ _ _ _) as [[[l1 w1] c2]|] eqn:E1; [|discriminate]. intros [= <- <-].
  destruct (one_dim_ok _ _ _ _ _ _ _ _ _ _ _ _ _ Hc E0) as (L0 & C1 & N0).
  destruct (one_dim_ok _ _ _ _ _ _ _ _ _ _ _ _ _ C1 E1) as (L1 & C2 & N1).
  assert (N : forall l ls, ((exists z : Z, ls = [z]) \/ exists off len, ls = firstn len (skipn off (wcells exact hw l))) -> NoDup ls).
  { intros l ls [[z ->]|(off & len & ->)]; [repeat constructor; intros []|]. apply NoDup_firstn, NoDup_skipn, NoDup_wcells. }
  split; [|exact C2]. repeat split; [exact (N _ _ N0)|exact (N _ _ N1)|exact L0|exact L1].
Qed.

Lemma hicks_points_ok fs fl shots pts : hicks_points exact K wf hw eps fs fl shots = Some pts ->
  Forall2 (fun s q => length s = length q /\ Forall (pw_ok K) q) shots pts.
Proof.
  unfold hicks_points. destruct (mapc _ _ [] shots) as [[ys c]|] eqn:E; [|discriminate]. intros [= <-].
  eapply (mapc_inv K _ (fun c => forall e, In e c -> length (snd e) = Z.to_nat (2 * hw))
     (fun s q => length s = length q /\ Forall (pw_ok K) q) (fun _ => True)) in E.
  - exact (proj1 E).
  - intros c0 x y c' _ Hc Hx.
    eapply (mapc_inv K _ (fun c => forall e, In e c -> length (snd e) = Z.to_nat (2 * hw)) (fun _ q => pw_ok K q) (fun _ => True)) in Hx.
    + destruct Hx as [F Hc']. split; [|exact Hc']. clear -F. induction F as [|a b la lb H F [L I]]; [split; [reflexivity|constructor]|].
      split; [cbn; f_equal; exact L|constructor; assumption].
    + intros c1 x1 y1 c2 _ H1 H2. exact (one_point_ok _ _ _ _ _ _ H1 H2).
    + apply Forall_forall. auto.
    + exact Hc.
  - apply Forall_forall. auto.
  - intros e [].
Qed.

(** Offsets stay in the window of a location that is not negative. *)
Lemma offsets_window (l : Q) x : 0 <= l -> In x (offsets exact hw l) -> - inject_Z hw < x <= inject_Z hw.
Proof.
  intros Hl. unfold offsets. cbn [exact n_of n_add n_sub toQ num]. intros H. apply in_map_iff in H. destruct H as (k & <- & Hk). apply In_zrange in Hk.
  pose proof (qtrunc_up l). pose proof (qtrunc_low l Hl).
  assert (inject_Z (- hw + 1) <= inject_Z k) by (rewrite <- Zle_Qle; lia).
  assert (inject_Z k <= inject_Z hw) by (rewrite <- Zle_Qle; lia).
  rewrite inject_Z_plus, inject_Z_opp in *. change (inject_Z 1) with 1%Q in *. lra.
Qed.

(** Without free surfaces: weights are those of a location with (nearly) the same fraction. *)
Definition wt_like (l : Q) (mono : bool) (lw : list Z * list K) : Prop :=
  (mono = true /\ lw = ([qround l], [1]) /\ qabs (l - inject_Z (qround l)) < eps) \/
  (fst lw = zrange (qtrunc l - hw + 1) (qtrunc l + hw + 1) /\
   exists l' : Q, 0 <= l' /\ qabs ((l' - inject_Z (qtrunc l')) - (l - inject_Z (qtrunc l))) < eps /\
    snd lw = map (wf mono) (offsets exact hw l')).
Definition cache_like (c : cache K) : Prop :=
  forall e, In e c -> exists l', 0 <= l' /\ fst e = key_of exact eps l' (snd (fst e)) /\ snd e = map (wf (snd (fst e))) (offsets exact hw l').

Lemma key_close (l l' : Q) m : 0 < eps -> 0 <= l -> 0 <= l' -> key_of exact eps l' m = key_of exact eps l m ->
  qabs ((l' - inject_Z (qtrunc l')) - (l - inject_Z (qtrunc l))) < eps.
Proof.
  intros He Hl Hl' H. unfold key_of in H. cbn [exact toQ num] in H. injection H as H.
  set (a := (l' - inject_Z (qtrunc l'))%Q) in *. set (b := (l - inject_Z (qtrunc l))%Q) in *.
  assert (Ha : 0 <= a) by (pose proof (qtrunc_low l' Hl'); unfold a; lra).
  assert (Hb : 0 <= b) by (pose proof (qtrunc_low l Hl); unfold b; lra).
  assert (Ea : 0 <= a / eps) by (apply Qle_shift_div_l; lra).
  assert (Eb : 0 <= b / eps) by (apply Qle_shift_div_l; lra).
  pose proof (qtrunc_up (a / eps)%Q). pose proof (qtrunc_low _ Ea). pose proof (qtrunc_up (b / eps)%Q). pose proof (qtrunc_low _ Eb).
  rewrite H in *. assert (D : - (1) < a / eps - b / eps < 1) by lra.
  assert (Xa : a == a / eps * eps) by (field; lra). assert (Xb : b == b / eps * eps) by (field; lra).
  destruct (qabs_cases (a - b)%Q) as [[? E]|[? E]]; rewrite E.
  - assert (a - b == (a / eps - b / eps) * eps) by (rewrite Xa at 1; rewrite Xb at 1; ring). rewrite H5. nra.
  - assert (- (a - b) == (b / eps - a / eps) * eps) by (rewrite Xa at 1; rewrite Xb at 1; ring). rewrite H5. nra.
Qed.

Lemma one_dim_like c (l : Q) fl mono ls w c' : 0 < eps -> 0 <= l -> cache_like c ->
  one_dim exact K wf hw eps c l (false, false) fl mono = Some (ls, w, c') -> wt_like l mono (ls, w) /\ cache_like c'.
Proof.
  intros He Hl Hc. unfold one_dim. cbn [exact toQ num fst snd]. destruct mono; cbn [andb].
  1: destruct (qlt (qabs (l - inject_Z (qround l))%Q) eps) eqn:E.
  - intros [= <- <- <-]. split; [|exact Hc]. left. split; [reflexivity|]. split; [reflexivity|apply qlt_iff, E].
  - destruct (cget K c _) as [W|] eqn:G; rewrite wcells_exact, Nat.sub_0_r; cbn [skipn]; rewrite firstn_all; intros [= <- <- <-].
    + split; [|exact Hc]. right. split; [reflexivity|]. unfold cget in G. destruct (find _ c) as [e|] eqn:F; [|discriminate]. injection G as <-.
      apply find_some in F. destruct F as [Fi Fk]. destruct (Hc e Fi) as (l' & L1 & L2 & L3). exists l'.
      unfold key_eqb in Fk. apply andb_true_iff in Fk. destruct Fk as [Fk1 Fk2]. apply Z.eqb_eq in Fk1. apply Bool.eqb_prop in Fk2.
      assert (Ek : fst e = key_of exact eps l true) by (destruct (fst e); cbn in *; subst; reflexivity).
      rewrite Ek in L2, L3. cbn [snd key_of] in L2, L3. split; [exact L1|]. split; [|exact L3].
      apply (key_close l l' true He Hl L1). symmetry. exact L2.
    + split.
      * right. split; [reflexivity|]. exists l. split; [exact Hl|]. split; [|reflexivity].
        destruct (qabs_cases ((l - inject_Z (qtrunc l)) - (l - inject_Z (qtrunc l)))%Q) as [[? E2]|[? E2]]; rewrite E2; lra.
      * intros e [<-|Hi]; [|exact (Hc e Hi)]. exists l. split; [exact Hl|]. split; reflexivity.
  - destruct (cget K c _) as [W|] eqn:G; rewrite wcells_exact, Nat.sub_0_r; cbn [skipn]; rewrite firstn_all; intros [= <- <- <-].
    + split; [|exact Hc]. right. split; [reflexivity|]. unfold cget in G. destruct (find _ c) as [e|] eqn:F; [|discriminate]. injection G as <-.
      apply find_some in F. destruct F as [Fi Fk]. destruct (Hc e Fi) as (l' & L1 & L2 & L3). exists l'.
      unfold key_eqb in Fk. apply andb_true_iff in Fk. destruct Fk as [Fk1 Fk2]. apply Z.eqb_eq in Fk1. apply Bool.eqb_prop in Fk2.
      assert (Ek : fst e = key_of exact eps l false) by (destruct (fst e); cbn in *; subst; reflexivity).
      rewrite Ek in L2, L3. cbn [snd key_of] in L2, L3. split; [exact L1|]. split; [|exact L3].
      apply (key_close l l' false He Hl L1). symmetry. exact L2.
    + split.
      * right. split; [reflexivity|]. exists l. split; [exact Hl|]. split; [|reflexivity].
        destruct (qabs_cases ((l - inject_Z (qtrunc l)) - (l - inject_Z (qtrunc l)))%Q) as [[? E2]|[? E2]]; rewrite E2; lra.
      * intros e [<-|Hi]; [|exact (Hc e Hi)]. exists l. split; [exact Hl|]. split; reflexivity.
Qed.

Definition mono_in (p : point exact) (d : Z) : bool := pt_mono exact p || (pt_dip exact p =? 1 - d)%Z.
Lemma hicks_weights fl shots pts : 0 < eps ->
  Forall (Forall (fun p => 0 <= fst (pt_l exact p) /\ 0 <= snd (pt_l exact p))) shots ->
  hicks_points exact K wf hw eps ((false, false), (false, false)) fl shots = Some pts ->
  Forall2 (Forall2 (fun p q => wt_like (fst (pt_l exact p)) (mono_in p 0) (fst q) /\ wt_like (snd (pt_l exact p)) (mono_in p 1) (snd q))) shots pts.
Proof.
  intros He Hpos. unfold hicks_points. destruct (mapc _ _ [] shots) as [[ys c]|] eqn:E; [|discriminate]. intros [= <-].
  eapply (mapc_inv K _ cache_like _ (Forall (fun p => 0 <= fst (pt_l exact p) /\ 0 <= snd (pt_l exact p)))) in E; [exact (proj1 E)| |exact Hpos|intros e []].
  intros c0 x y c' Hx Hc Hxy.
  eapply (mapc_inv K _ cache_like _ (fun p => 0 <= fst (pt_l exact p) /\ 0 <= snd (pt_l exact p))) in Hxy; [exact Hxy| |exact Hx|exact Hc].
  clear - He. intros c p q c' [P0 P1] Hc. unfold one_point.
  destruct (one_dim _ _ _ _ _ c _ _ _ _) as [[[l0 w0] c1]|] eqn:E0; [|discriminate].
  destruct (one_dim _ _ _ _ _ c1 _ _ _ _) as [[[l1 w1] c2]|] eqn:E1; [|discriminate]. intros [= <- <-].
  cbn [fst snd] in *.
  replace (pt_mono exact p || negb (pt_mono exact p) && (pt_dip exact p =? 1)%Z) with (mono_in p 0) in E0 by (unfold mono_in; destruct (pt_mono exact p); reflexivity).
  replace (pt_mono exact p || negb (pt_mono exact p) && (pt_dip exact p =? 0)%Z) with (mono_in p 1) in E1 by (unfold mono_in; destruct (pt_mono exact p); reflexivity).
  apply one_dim_like in E0; try assumption. destruct E0 as [A0 C1].
  apply one_dim_like in E1; try assumption. destruct E1 as [A1 C2]. cbn [fst snd]. split; [|exact C2]. split; assumption.
Qed.
End Exact.
