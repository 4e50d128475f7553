(** * Off-grid locations: image weights at free surfaces; whole objects and batches of shots. *)
From Coq Require Import List ZArith QArith Qround Lia Lqa Bool Permutation.
From Verif Require Import Ops Sums Grid ScalarModel ScalarAdjoint ScalarForward Shots ElasticThm Hicks HicksThm HicksCells.
Import ListNotations.
Local Open Scope K_scope.

Section Fold.
Variable K : ops.
Hypothesis Kr : is_ring K.
Add Ring KRing : Kr.

Lemma wt1_zrange a n (w : list K) y : length w = n ->
  wt1 K (zrange a (a + Z.of_nat n), w) y = if (a <=? y)%Z && (y <? a + Z.of_nat n)%Z then nth (Z.to_nat (y - a)) w 0 else 0.
Proof.
  intros Hn. unfold wt1. cbn [fst snd].
  destruct ((a <=? y)%Z && (y <? a + Z.of_nat n)%Z) eqn:B.
  - apply andb_true_iff in B. destruct B as [B1 B2]. apply Z.leb_le in B1. apply Z.ltb_lt in B2.
    assert (E : forall m a (w : list K), length w = m -> (a <= y < a + Z.of_nat m)%Z ->
      sumf (combine (zrange a (a + Z.of_nat m)) w) (fun q => if (fst q =? y)%Z then snd q else 0) = nth (Z.to_nat (y - a)) w 0).
    { clear - Kr. intros m a w Hw Hy. assert (L : length (zrange a (a + Z.of_nat m)) = length w) by (rewrite zrange_length; lia).
      rewrite (sumf_single K Kr _ (y, nth (Z.to_nat (y - a)) w 0)).
      - cbn [fst snd]. rewrite Z.eqb_refl. reflexivity.
      - apply (NoDup_map_inv fst), NoDup_combine_fst, NoDup_zrange.
      - replace (y, nth (Z.to_nat (y - a)) w 0) with (nth (Z.to_nat (y - a)) (combine (zrange a (a + Z.of_nat m)) w) (0%Z, 0)).
        + apply nth_In. rewrite combine_length, L. lia.
        + rewrite combine_nth by exact L. rewrite nth_zrange by lia. f_equal. lia.
      - intros [x v] Hx Ne. cbn [fst snd]. destruct (Z.eqb_spec x y); [|reflexivity]. subst x. exfalso. apply Ne. f_equal.
        apply In_nth with (d := (0%Z, 0)) in Hx. destruct Hx as (k & Hk & E). rewrite combine_length, L, Nat.min_id in Hk.
        rewrite combine_nth in E by exact L. rewrite nth_zrange in E by lia. injection E as E1 E2. rewrite <- E2. f_equal. lia. }
    apply E; [exact Hn|lia].
  - apply (sumf_zero K Kr). intros [x v] Hx. apply in_combine_l in Hx. apply In_zrange in Hx. cbn [fst snd].
    destruct (Z.eqb_spec x y); [|reflexivity]. subst x. exfalso.
    apply andb_false_iff in B. destruct B as [B|B]; [apply Z.leb_gt in B|apply Z.ltb_ge in B]; lia.
Qed.

Lemma sub_at_nth i (f w : list K) j : (j < length w)%nat ->
  nth j (sub_at K i f w) 0 = if (i <=? j)%nat && (j <? i + length f)%nat then nth j w 0 - nth (j - i) f 0 else nth j w 0.
Proof. intros H. unfold sub_at. apply (nth_map_seq (fun j => if (i <=? j)%nat && (j <? i + length f)%nat then nth j w 0 - nth (j - i) f 0 else nth j w 0)). exact H. Qed.

(** Weight of a cell in a window of weights that starts at [first]. *)
Definition win (first : Z) (w : list K) (y : Z) : K :=
  if (first <=? y)%Z && (y <? first + Z.of_nat (length w))%Z then nth (Z.to_nat (y - first)) w 0 else 0.

Ltac dec :=
  repeat match goal with
  | |- context [(?a <=? ?b)%Z] => destruct (Z.leb_spec a b)
  | |- context [(?a <? ?b)%Z] => destruct (Z.ltb_spec a b)
  | |- context [(?a <=? ?b)%nat] => destruct (Nat.leb_spec a b)
  | |- context [(?a <? ?b)%nat] => destruct (Nat.ltb_spec a b)
  end; cbn [andb].

(** Twice the position of a surface, which lies on a cell or half way between two. *)
Lemma surface_begin (l0 : Q) (s2 first : Z) : l0 == (s2 # 2) -> (Z.abs s2 < 700000000)%Z ->
  (qlt (inject_Z first) l0 = (2 * first <? s2)%Z) /\
  Qceiling (l0 - inject_Z first) = ((s2 - 2 * first + 1) / 2)%Z /\
  q_isint l0 = Z.even s2.
Proof.
  intros H Hs.
  assert (H2 : l0 * inject_Z 2 == inject_Z s2) by (rewrite H; unfold Qeq, Qmult, inject_Z; cbn; lia).
  split; [|split].
  - destruct (Z.ltb_spec (2 * first) s2) as [B|B].
    + apply qlt_iff. rewrite Zlt_Qlt, inject_Z_mult in B. change (inject_Z 2) with 2%Q in *. lra.
    + apply qlt_false. rewrite Zle_Qle, inject_Z_mult in B. change (inject_Z 2) with 2%Q in *. lra.
  - set (z := ((s2 - 2 * first + 1) / 2)%Z).
    assert (Z1 : (2 * z <= s2 - 2 * first + 1)%Z) by (unfold z; apply Z.mul_div_le; lia).
    assert (Z2 : (s2 - 2 * first + 1 < 2 * z + 2)%Z) by (pose proof (Z.mod_pos_bound (s2 - 2 * first + 1) 2); pose proof (Z.div_mod (s2 - 2 * first + 1) 2); unfold z; lia).
    assert (Z3 : (2 * z <= s2 + 2 * -first + 1)%Z) by lia. assert (Z4 : (s2 + 2 * - first <= 2 * z)%Z) by lia.
    rewrite Zle_Qle in Z3, Z4. rewrite !inject_Z_plus, !inject_Z_mult, !inject_Z_opp in Z3. rewrite !inject_Z_plus, !inject_Z_mult, !inject_Z_opp in Z4.
    change (inject_Z 2) with 2%Q in *. change (inject_Z 1) with 1%Q in *. apply qceil_eq; lra.
  - destruct (Z.even s2) eqn:E.
    + apply Z.even_spec in E. destruct E as [k ->]. apply (q_isint_even _ k). rewrite inject_Z_mult in H2. change (inject_Z 2) with 2%Q in *. lra.
    + assert (O : Z.odd s2 = true) by (rewrite <- Z.negb_even, E; reflexivity). apply Z.odd_spec in O. destruct O as [k ->].
      apply (q_isint_odd _ k); [|lia]. rewrite inject_Z_plus, inject_Z_mult in H2. change (inject_Z 2) with 2%Q in *. change (inject_Z 1) with 1%Q in *. lra.
Qed.

Lemma fold_begin_spec (l0 : Q) (s2 first : Z) (w : list K) : l0 == (s2 # 2) -> (Z.abs s2 < 700000000)%Z ->
  (1 <= length w)%nat -> (s2 - 2 * first <= Z.of_nat (length w) - 1)%Z ->
  exists w' off, fold_begin K l0 (zrange first (first + Z.of_nat (length w))) w
      = Some (zrange (first + Z.of_nat off) (first + Z.of_nat (length w)), w', off) /\
    length w' = length w /\ (off <= length w)%nat /\
    (first + Z.of_nat off = Z.max first ((s2 + 1) / 2))%Z /\
    forall y, (s2 <= 2 * y)%Z -> win first w' y = win first w y - (if (2 * first <? s2)%Z then win first w (s2 - y) else 0).
Proof.
  intros H Hs Hw Hf. destruct (surface_begin l0 s2 first H Hs) as (Q1 & Q2 & Q3).
  unfold fold_begin. rewrite nth_zrange by lia. rewrite Z.add_0_r, Q1, Q2, Q3. cbv zeta.
  destruct (Z.ltb_spec (2 * first) s2) as [B|B].
  - set (i0 := ((s2 - 2 * first + 1) / 2)%Z).
    assert (I0 : (0 <= i0)%Z) by (apply Z.div_pos; lia).
    assert (I1 : (Z.to_nat i0 + (if Z.even s2 then 1 else 0))%nat = Z.to_nat (s2 - 2 * first + 1 - i0)).
    { unfold i0 in *. destruct (Z.even s2) eqn:E.
      - apply Z.even_spec in E. destruct E as [k ->]. replace (2 * k - 2 * first + 1)%Z with (1 + (k - first) * 2)%Z in * by lia.
        rewrite Z.div_add in * by lia. change (1 / 2)%Z with 0%Z in *. lia.
      - assert (O : Z.odd s2 = true) by (rewrite <- Z.negb_even, E; reflexivity). apply Z.odd_spec in O. destruct O as [k ->].
        replace (2 * k + 1 - 2 * first + 1)%Z with ((k + 1 - first) * 2)%Z in * by lia. rewrite Z.div_mul in * by lia. lia. }
    assert (I2 : (2 * i0 <= s2 - 2 * first + 1 < 2 * i0 + 2)%Z) by (pose proof (Z.mod_pos_bound (s2 - 2 * first + 1) 2); pose proof (Z.div_mod (s2 - 2 * first + 1) 2); unfold i0; lia).
    assert (I3 : (i0 <= Z.of_nat (length w))%Z) by lia.
    rewrite I1, rev_length, firstn_length. set (i1 := (s2 - 2 * first + 1 - i0)%Z).
    destruct (Nat.leb_spec (Z.to_nat i0 + Nat.min (Z.to_nat i1) (length w)) (length w)) as [_|G]; [|unfold i1 in G; lia].
    eexists _, (Z.to_nat i0). split; [f_equal; f_equal; f_equal; apply zrange_skipn|].
    split; [apply sub_at_length|]. split; [lia|]. split.
    { rewrite Z2Nat.id by lia. unfold i0. replace (s2 - 2 * first + 1)%Z with (s2 + 1 + (- first) * 2)%Z by lia. rewrite Z.div_add by lia.
      pose proof (Z.div_le_lower_bound (s2 + 1) 2 first). lia. }
    intros y Hy. unfold win. rewrite sub_at_length. dec; try lia; try ring.
    + rewrite sub_at_nth by lia. rewrite rev_length, firstn_length. dec; try (unfold i1 in *; lia).
      f_equal. rewrite rev_nth by (rewrite firstn_length; lia). rewrite firstn_length, nth_firstn_lt by lia. f_equal. unfold i1 in *. lia.
    + rewrite sub_at_nth by lia. rewrite rev_length, firstn_length. dec; try (unfold i1 in *; lia). all: ring.
  - exists w, 0%nat. rewrite Z.add_0_r. split; [reflexivity|]. split; [reflexivity|]. split; [lia|]. split.
    + pose proof (Z.div_lt_upper_bound (s2 + 1) 2 (first + 1)). lia.
    + intros y _. ring.
Qed.

Lemma surface_end (l1 : Q) (s2 last : Z) : l1 == (s2 # 2) ->
  (qlt l1 (inject_Z last) = (s2 <? 2 * last)%Z) /\ Qceiling (inject_Z last - l1) = ((2 * last - s2 + 1) / 2)%Z.
Proof.
  intros H. assert (H2 : l1 * inject_Z 2 == inject_Z s2) by (rewrite H; unfold Qeq, Qmult, inject_Z; cbn; lia).
  split.
  - destruct (Z.ltb_spec s2 (2 * last)) as [B|B].
    + apply qlt_iff. rewrite Zlt_Qlt, inject_Z_mult in B. change (inject_Z 2) with 2%Q in *. lra.
    + apply qlt_false. rewrite Zle_Qle, inject_Z_mult in B. change (inject_Z 2) with 2%Q in *. lra.
  - set (z := ((2 * last - s2 + 1) / 2)%Z).
    assert (Z1 : (2 * z <= 2 * last - s2 + 1)%Z) by (unfold z; apply Z.mul_div_le; lia).
    assert (Z2 : (2 * last - s2 + 1 < 2 * z + 2)%Z) by (pose proof (Z.mod_pos_bound (2 * last - s2 + 1) 2); pose proof (Z.div_mod (2 * last - s2 + 1) 2); unfold z; lia).
    assert (Z3 : (2 * z <= 2 * last + - s2 + 1)%Z) by lia. assert (Z4 : (2 * last + - s2 <= 2 * z)%Z) by lia.
    rewrite Zle_Qle in Z3, Z4. rewrite !inject_Z_plus, !inject_Z_mult, !inject_Z_opp in Z3. rewrite !inject_Z_plus, !inject_Z_mult, !inject_Z_opp in Z4.
    change (inject_Z 2) with 2%Q in *. change (inject_Z 1) with 1%Q in *. apply qceil_eq; lra.
Qed.

Lemma fold_end_spec (l1 : Q) (s2 first last : Z) (w : list K) (off : nat) : l1 == (s2 # 2) -> (Z.abs s2 < 700000000)%Z ->
  (off < length w)%nat -> last = (first + Z.of_nat (length w) - 1)%Z ->
  (2 * last - s2 <= Z.of_nat (length w - off) - 1)%Z ->
  exists w' len, fold_end K l1 (zrange (first + Z.of_nat off) (first + Z.of_nat (length w))) w off
      = Some (zrange (first + Z.of_nat off) (first + Z.of_nat off + Z.of_nat len), w', off, len) /\
    length w' = length w /\ (off + len <= length w)%nat /\
    (first + Z.of_nat off + Z.of_nat len - 1 = Z.min last (s2 / 2))%Z /\
    forall y, (2 * y <= s2)%Z -> win first w' y = win first w y - (if (s2 <? 2 * last)%Z then win first w (s2 - y) else 0).
Proof.
  intros H Hs Hw Hlast Hf. unfold fold_end. rewrite zrange_length, nth_zrange by lia.
  replace (first + Z.of_nat off + Z.of_nat (Z.to_nat (first + Z.of_nat (length w) - (first + Z.of_nat off)) - 1))%Z with last by lia.
  destruct (surface_end l1 s2 last H) as (Q1 & Q2). destruct (surface_begin l1 s2 0 H Hs) as (_ & _ & Q3). rewrite Q1, Q2, Q3. cbv zeta.
  destruct (Z.ltb_spec s2 (2 * last)) as [B|B].
  - set (c := ((2 * last - s2 + 1) / 2)%Z). set (n := Z.of_nat (length w - off)) in *.
    set (i0 := (n - 1 - c)%Z).
    assert (I1 : (i0 - (if Z.even s2 then 1 else 0))%Z = (s2 - 1 - 2 * (first + Z.of_nat off) - i0)%Z /\ (first + Z.of_nat off + i0 = s2 / 2)%Z).
    { unfold i0, c. destruct (Z.even s2) eqn:E.
      - apply Z.even_spec in E. destruct E as [k ->]. replace (2 * last - 2 * k + 1)%Z with (1 + (last - k) * 2)%Z by lia.
        rewrite Z.div_add by lia. change (1 / 2)%Z with 0%Z. rewrite (Z.mul_comm 2 k), Z.div_mul by lia. lia.
      - assert (O : Z.odd s2 = true) by (rewrite <- Z.negb_even, E; reflexivity). apply Z.odd_spec in O. destruct O as [k ->].
        replace (2 * last - (2 * k + 1) + 1)%Z with ((last - k) * 2)%Z by lia. rewrite Z.div_mul by lia.
        replace (2 * k + 1)%Z with (1 + k * 2)%Z by lia. rewrite Z.div_add by lia. change (1 / 2)%Z with 0%Z. lia. }
    destruct I1 as [I1 I4]. rewrite I1. set (i1 := (s2 - 1 - 2 * (first + Z.of_nat off) - i0)%Z) in *.
    assert (I2 : (i0 - 1 <= i1 <= i0)%Z) by (destruct (Z.even s2); lia).
    assert (C0 : (0 <= c)%Z) by (apply Z.div_pos; lia).
    rewrite rev_length, skipn_length.
    assert (Li : (-1 <= i1)%Z) by (unfold i1 in *; lia).
    assert (Ls : (0 <= i0 + 1 - Z.of_nat (length w - (off + Z.to_nat (i1 + 1))))%Z) by (unfold i1 in *; lia).
    destruct (Z.leb_spec (-1) i1); [|lia]. destruct (Z.leb_spec 0 (i0 + 1 - Z.of_nat (length w - (off + Z.to_nat (i1 + 1))))); [|lia]. cbn [andb].
    eexists _, (Z.to_nat (i0 + 1)). split; [f_equal; f_equal; f_equal; f_equal; apply zrange_firstn; lia|].
    split; [apply sub_at_length|]. split; [lia|]. split; [lia|].
    intros y Hy. unfold win. rewrite sub_at_length. dec; try lia; try ring.
    + rewrite sub_at_nth by lia. rewrite rev_length, skipn_length. dec; try (unfold i1 in *; lia).
      f_equal. rewrite rev_nth by (rewrite skipn_length; lia). rewrite skipn_length, nth_skipn. f_equal. unfold i1 in *. lia.
    + rewrite sub_at_nth by lia. rewrite rev_length, skipn_length. dec; try (unfold i1 in *; lia). all: ring.
  - exists w, (length w - off)%nat. split; [f_equal; f_equal; f_equal; f_equal; f_equal; lia|]. split; [reflexivity|]. split; [lia|]. split.
    + pose proof (Z.div_le_lower_bound s2 2 last). lia.
    + intros y _. ring.
Qed.

Lemma win_wt1 first n (w : list K) off len y : length w = n -> (off + len <= n)%nat ->
  wt1 K (zrange (first + Z.of_nat off) (first + Z.of_nat off + Z.of_nat len), firstn len (skipn off w)) y
  = if (first + Z.of_nat off <=? y)%Z && (y <? first + Z.of_nat off + Z.of_nat len)%Z then win first w y else 0.
Proof.
  intros Hn Ho. rewrite wt1_zrange by (rewrite firstn_length, skipn_length; lia). unfold win. dec; try lia; try reflexivity.
  rewrite nth_firstn_lt by lia. rewrite nth_skipn. f_equal. lia.
Qed.

Variable wf : bool -> Q -> K.
Variable hw : Z.
Variable eps : Q.

(** Weight of a cell without surfaces. *)
Definition free_wt (mono : bool) (l : Q) (y : Z) : K :=
  if (qtrunc l - hw <? y)%Z && (y <=? qtrunc l + hw)%Z then wf mono (inject_Z (y - qtrunc l) - l + inject_Z (qtrunc l))%Q else 0.

Lemma win_offsets mono l y : (1 <= hw)%Z -> win (qtrunc l - hw + 1) (map (wf mono) (offsets exact hw l)) y = free_wt mono l y.
Proof.
  intros Hh. unfold win, free_wt. assert (L : length (map (wf mono) (offsets exact hw l)) = Z.to_nat (2 * hw)) by (rewrite map_length; apply (offsets_length exact)).
  rewrite L. dec; try lia; try reflexivity.
  set (i := Z.to_nat (y - (qtrunc l - hw + 1))).
  rewrite (nth_indep _ 0 (wf mono (inject_Z 0 - l + inject_Z (qtrunc l))%Q)) by (rewrite L; lia).
  rewrite map_nth. f_equal. unfold offsets. cbn [exact n_of n_add n_sub toQ num].
  rewrite (map_nth (fun k => (inject_Z k - l + inject_Z (qtrunc l))%Q) (zrange (- hw + 1) (hw + 1)) 0%Z).
  rewrite nth_zrange by lia. do 3 f_equal. lia.
Qed.

(** First location with its fraction: the weights are those of the location minus those of its images. *)
Lemma one_dim_image c (l : Q) fs (fl : Q * Q) mono s0 s1 : (1 <= hw)%Z ->
  fst fl == (s0 # 2) -> snd fl == (s1 # 2) -> (Z.abs s0 < 700000000)%Z -> (Z.abs s1 < 700000000)%Z ->
  (s0 <= 2 * qtrunc l + 1)%Z -> (2 * qtrunc l + 1 <= s1)%Z -> (qtrunc l + hw + (s0 + 1) / 2 <= s1)%Z ->
  mono && qlt (qabs (l - inject_Z (qround l))%Q) eps = false -> cget K c (key_of exact eps l mono) = None ->
  exists ls w c', one_dim exact K wf hw eps c l fs fl mono = Some (ls, w, c') /\
    let b := fst fs && (2 * (qtrunc l - hw + 1) <? s0)%Z in
    let e := snd fs && (s1 <? 2 * (qtrunc l + hw))%Z in
    let f1 y := free_wt mono l y - (if b then free_wt mono l (s0 - y) else 0) in
    forall y, wt1 K (ls, w) y
      = if (negb (fst fs) || (s0 <=? 2 * y)%Z) && (negb (snd fs) || (2 * y <=? s1)%Z)
        then f1 y - (if e then f1 (s1 - y)%Z else 0) else 0.
Proof.
  intros Hh F0 F1 A0 A1 T0 T1 T2 Hm Hc. unfold one_dim. cbn [exact toQ num]. rewrite Hm, Hc, wcells_exact.
  set (T := qtrunc l) in *. set (W := map (wf mono) (offsets exact hw l)).
  assert (LW : length W = Z.to_nat (2 * hw)) by (unfold W; rewrite map_length; apply (offsets_length exact)).
  set (first := (T - hw + 1)%Z). replace (T + hw + 1)%Z with (first + Z.of_nat (length W))%Z by (rewrite LW; unfold first; lia).
  assert (B1 : exists w1 off, (if fst fs then fold_begin K (fst fl) (zrange first (first + Z.of_nat (length W))) W else Some (zrange first (first + Z.of_nat (length W)), W, 0%nat))
      = Some (zrange (first + Z.of_nat off) (first + Z.of_nat (length W)), w1, off) /\ length w1 = length W /\ (off < length W)%nat /\
      (first + Z.of_nat off = if fst fs then Z.max first ((s0 + 1) / 2) else first)%Z /\
      forall y, (negb (fst fs) || (s0 <=? 2 * y)%Z) = true -> win first w1 y = win first W y - (if fst fs && (2 * first <? s0)%Z then win first W (s0 - y) else 0)).
  { destruct (fst fs).
    - destruct (fold_begin_spec (fst fl) s0 first W F0 A0) as (w' & off & E1 & E2 & E3 & E4 & E5); [lia|unfold first; lia|].
      exists w', off. split; [exact E1|]. split; [exact E2|]. split; [|split; [exact E4|]].
      + pose proof (Z.div_le_upper_bound (s0 + 1) 2 (T + 1)). unfold first in *. lia.
      + intros y Hy. apply E5. cbn in Hy. apply Z.leb_le in Hy. exact Hy.
    - exists W, 0%nat. rewrite Z.add_0_r. split; [reflexivity|]. split; [reflexivity|]. split; [lia|]. split; [reflexivity|]. intros y _. cbn. ring. }
  destruct B1 as (w1 & off & -> & L1 & Lo & Eo & V1).
  assert (B2 : exists w2 len, (if snd fs then fold_end K (snd fl) (zrange (first + Z.of_nat off) (first + Z.of_nat (length W))) w1 off
        else Some (zrange (first + Z.of_nat off) (first + Z.of_nat (length W)), w1, off, (length w1 - off)%nat))
      = Some (zrange (first + Z.of_nat off) (first + Z.of_nat off + Z.of_nat len), w2, off, len) /\ length w2 = length W /\ (off + len <= length W)%nat /\
      (first + Z.of_nat off + Z.of_nat len - 1 = if snd fs then Z.min (T + hw) (s1 / 2) else T + hw)%Z /\
      forall y, (negb (snd fs) || (2 * y <=? s1)%Z) = true -> win first w2 y = win first w1 y - (if snd fs && (s1 <? 2 * (T + hw))%Z then win first w1 (s1 - y) else 0)).
  { destruct (snd fs).
    - rewrite <- L1. destruct (fold_end_spec (snd fl) s1 first (T + hw) w1 off F1 A1) as (w' & len & E1 & E2 & E3 & E4 & E5).
      1: lia. 1: unfold first; lia.
      1:{ rewrite L1. unfold first in *. pose proof (Z.mul_div_le (s0 + 1) 2). destruct (fst fs); lia. }
      exists w', len. split; [exact E1|]. split; [exact E2|]. split; [exact E3|]. split; [exact E4|].
      intros y Hy. apply E5. cbn in Hy. apply Z.leb_le in Hy. exact Hy.
    - exists w1, (length w1 - off)%nat. split; [f_equal; f_equal; f_equal; f_equal; f_equal; lia|]. split; [exact L1|]. split; [lia|].
      split; [unfold first in *; lia|]. intros y _. cbn. ring. }
  destruct B2 as (w2 & len & -> & L2 & Ln & En & V2). eexists _, _, _. split; [reflexivity|]. cbv zeta. intros y.
  rewrite (win_wt1 first (length W)) by assumption.
  assert (Wf : forall z, win first W z = free_wt mono l z) by (intros z; unfold first, W, T; apply win_offsets; exact Hh).
  assert (Fz : forall z, (z < first)%Z \/ (T + hw < z)%Z -> free_wt mono l z = 0) by (intros z Hz; unfold free_wt; fold T; unfold first in Hz; dec; try lia; reflexivity).
  assert (Ys1 : (2 * (s1 / 2) <= s1)%Z) by (apply Z.mul_div_le; lia).
  assert (Ys2 : (s1 < 2 * (s1 / 2) + 2)%Z) by (pose proof (Z.mod_pos_bound s1 2); pose proof (Z.div_mod s1 2); lia).
  assert (Ys3 : (2 * ((s0 + 1) / 2) <= s0 + 1)%Z) by (apply Z.mul_div_le; lia).
  assert (Ys4 : (s0 + 1 < 2 * ((s0 + 1) / 2) + 2)%Z) by (pose proof (Z.mod_pos_bound (s0 + 1) 2); pose proof (Z.div_mod (s0 + 1) 2); lia).
  destruct ((negb (fst fs) || (s0 <=? 2 * y)%Z) && (negb (snd fs) || (2 * y <=? s1)%Z)) eqn:R.
  - apply andb_true_iff in R. destruct R as [R1 R2]. fold first.
    destruct ((first + Z.of_nat off <=? y)%Z && (y <? first + Z.of_nat off + Z.of_nat len)%Z) eqn:I.
    + rewrite (V2 y R2), (V1 y R1), !Wf.
      destruct (snd fs && (s1 <? 2 * (T + hw))%Z) eqn:Be; [|reflexivity].
      rewrite V1, !Wf; [reflexivity|]. apply andb_true_iff in Be. destruct Be as [Be _]. rewrite Be in R2. cbn in R2. apply Z.leb_le in R2.
      destruct (fst fs); [|reflexivity]. cbn in *. apply Z.leb_le in R1. apply Z.leb_le. lia.
    + assert (Y : (y < first \/ T + hw < y)%Z).
      { apply andb_false_iff in I. destruct I as [I|I]; [apply Z.leb_gt in I|apply Z.ltb_ge in I].
        - left. destruct (fst fs); [|lia]. cbn in R1. apply Z.leb_le in R1. lia.
        - right. destruct (snd fs); [|lia]. cbn in R2. apply Z.leb_le in R2. lia. }
      rewrite (Fz y Y). clear V1 V2. destruct fs as [[|] [|]]; cbn [fst snd negb orb andb] in *; rewrite ?Z.leb_le in *.
      all: destruct (Z.ltb_spec (2 * first) s0); destruct (Z.ltb_spec s1 (2 * (T + hw))); try ring.
      all: rewrite !Fz; try ring; unfold first in *; lia.
  - destruct ((first + Z.of_nat off <=? y)%Z && (y <? first + Z.of_nat off + Z.of_nat len)%Z) eqn:I; [|reflexivity]. exfalso.
    apply andb_true_iff in I. destruct I as [I1 I2]. apply Z.leb_le in I1. apply Z.ltb_lt in I2.
    apply andb_false_iff in R. destruct R as [R|R]; apply orb_false_iff in R; destruct R as [R1 R2]; apply negb_false_iff in R1; rewrite R1 in *; apply Z.leb_gt in R2; lia.
Qed.
End Fold.

(** ** Whole objects, batches of shots *)
Section Obj.
Variable K : ops.
Hypothesis Kr : is_ring K.
Add Ring KRingO : Kr.
Variable pts : list (list (pw2 K)).
Hypothesis Hpts : Forall (Forall (pw_ok K)) pts.
Notation h := (hicks_of K pts).
Notation p0 := (([], []), ([], [])).

Lemma fold_max_ge l : forall a x, In x l \/ (x <= a)%nat -> (x <= fold_left Nat.max l a)%nat.
Proof.
  induction l as [|y l IH]; intros a x; cbn; [intros [[]|H]; exact H|]. intros [[<-|H]|H]; apply IH; [right; lia|left; exact H|right; lia].
Qed.
Lemma nth_map_lt {X Y} (f : X -> Y) l s d d' : (s < length l)%nat -> nth s (map f l) d = f (nth s l d').
Proof. intros H. rewrite (nth_indep _ d (f d')) by (rewrite map_length; exact H). apply map_nth. Qed.

Definition nmax : nat := fold_left Nat.max (map (fun m => length (fst m)) (map (merge_shot K) pts)) 0%nat.
Lemma obj_nth s : (s < length pts)%nat ->
  nth s (h_locs K h) [] = pad_locs nmax (fst (merge_shot K (nth s pts []))) /\
  nth s (h_idxs K h) [] = snd (merge_shot K (nth s pts [])) /\
  nth s (h_w K h) [] = map (weights2 K) (nth s pts []) /\
  (length (fst (merge_shot K (nth s pts []))) <= nmax)%nat /\ nh K h = nmax.
Proof.
  intros H. unfold hicks_of. cbn [h_locs h_idxs h_w]. fold nmax. rewrite !map_map.
  rewrite !(nth_map_lt _ pts s _ []) by exact H.
  split; [reflexivity|]. split; [reflexivity|]. split; [reflexivity|].
  assert (G : forall s, (s < length pts)%nat -> (length (fst (merge_shot K (nth s pts []))) <= nmax)%nat).
  { intros t Ht. unfold nmax. apply fold_max_ge. left. apply in_map_iff. exists (merge_shot K (nth t pts [])). split; [reflexivity|].
    apply in_map_iff. exists (nth t pts []). split; [reflexivity|]. apply nth_In, Ht. }
  split; [apply G, H|]. unfold nh. cbn [h_locs]. rewrite (nth_map_lt _ pts 0 _ []) by lia.
  unfold pad_locs. rewrite app_length, repeat_length. specialize (G 0%nat). lia.
Qed.

Lemma shots_ok s : Forall (pw_ok K) (nth s pts []).
Proof. destruct (nth_in_or_default s pts []) as [H| ->]; [rewrite Forall_forall in Hpts; apply Hpts, H|constructor]. Qed.

Lemma nth_combine {X Y} k : forall (a : list X) (b : list Y) x y, (k < length a)%nat -> (k < length b)%nat -> nth k (combine a b) (x, y) = (nth k a x, nth k b y).
Proof.
  induction k as [|k IH]; intros [|u a] [|v b] x y Ha Hb; cbn in *; try lia; [reflexivity|]. apply IH; lia.
Qed.
Lemma source_nth si amps k : (k < length amps)%nat -> length (batch si (length amps)) = length amps ->
  nth k (source K h si amps) [] = source_shot K (nh K h) (nth (nth k (batch si (length amps)) 0%nat) (h_idxs K h) []) (nth (nth k (batch si (length amps)) 0%nat) (h_w K h) []) (nth k amps []).
Proof.
  intros Hk Hb. unfold source. rewrite (nth_map_lt _ _ k _ (0%nat, [])) by (rewrite combine_length, Hb; lia).
  rewrite nth_combine by lia. reflexivity.
Qed.
Lemma receiver_nth np si amps k : (k < length amps)%nat -> length (batch si (length amps)) = length amps ->
  nth k (receiver K h np si amps) [] = receiver_shot K np (nth (nth k (batch si (length amps)) 0%nat) (h_idxs K h) []) (nth (nth k (batch si (length amps)) 0%nat) (h_w K h) []) (nth k amps []).
Proof.
  intros Hk Hb. unfold receiver. rewrite (nth_map_lt _ _ k _ (0%nat, [])) by (rewrite combine_length, Hb; lia).
  rewrite nth_combine by lia. reflexivity.
Qed.

Definition fits (si : option (list nat)) (n : nat) : Prop := length (batch si n) = n /\ forall s, In s (batch si n) -> (s < length pts)%nat.
Lemma fits_nth si n k : fits si n -> (k < n)%nat -> (nth k (batch si n) 0 < length pts)%nat.
Proof. intros [H1 H2] Hk. apply H2, nth_In. lia. Qed.

Lemma hicks_transpose np si amps res : fits si (length amps) -> length res = length amps ->
  Forall (fun a => length a = np) amps -> Forall (fun r => length r = nh K h) res ->
  sumf (seq 0 (length amps)) (fun k => ldot (nth k (source K h si amps) []) (nth k res []))
  = sumf (seq 0 (length amps)) (fun k => ldot (nth k amps []) (nth k (receiver K h np si res) [])).
Proof.
  intros Hf Hl Ha Hr. apply (sumf_ext K). intros k Hk. apply in_seq in Hk. pose proof (fits_nth _ _ k Hf ltac:(lia)) as Hs.
  rewrite source_nth by (try apply Hf; lia). rewrite receiver_nth by (rewrite ?Hl; try apply Hf; lia). rewrite Hl.
  destruct (obj_nth _ Hs) as (_ & -> & -> & Hn & ->). set (s := nth k (batch si (length amps)) 0%nat) in *.
  destruct (merge_shot K (nth s pts [])) as [d ixs] eqn:E. cbn [fst snd] in *.
  rewrite Forall_forall in Ha, Hr. rewrite <- (Ha (nth k amps [])) by (apply nth_In; lia).
  apply (shot_transpose K Kr).
  - intros ix Hix. split; [exact (ixs_nodup K _ (shots_ok s) d ixs E ix Hix)|]. intros i Hi.
    destruct (mspec K _ d ixs E) as (_ & _ & _ & Hlt & _). specialize (Hlt ix Hix i Hi). lia.
  - rewrite (Hr (nth k res [])) by (apply nth_In; lia). destruct (obj_nth _ Hs) as (_ & _ & _ & _ & ->). reflexivity.
Qed.

(** Amplitude put on a cell: the sum over the points of amplitude times weight. *)
Lemma hicks_spread si amps k c : fits si (length amps) -> (k < length amps)%nat -> c <> (IGNORE, IGNORE) ->
  sumf (combine (nth k (get_locations K h si) []) (nth k (source K h si amps) [])) (fun q => if zz_dec (fst q) c then snd q else 0)
  = sumf (seq 0 (length (nth k amps []))) (fun i => let p := nth i (nth (nth k (batch si (length amps)) 0%nat) pts []) p0 in
      nth i (nth k amps []) 0 * (wt1 K (fst p) (fst c) * wt1 K (snd p) (snd c))).
Proof.
  intros Hf Hk Hc. pose proof (fits_nth _ _ k Hf Hk) as Hs.
  rewrite source_nth by (try apply Hf; lia).
  replace (nth k (get_locations K h si) []) with (nth (nth k (batch si (length amps)) 0%nat) (h_locs K h) []).
  2:{ unfold get_locations. destruct si as [l|]; cbn [batch] in *.
      - destruct Hf as [Hf _]. cbn in Hf. rewrite (nth_map_lt _ l k _ 0%nat) by lia. reflexivity.
      - rewrite seq_nth by exact Hk. reflexivity. }
  destruct (obj_nth _ Hs) as (-> & -> & -> & Hn & ->). set (s := nth k (batch si (length amps)) 0%nat) in *.
  destruct (merge_shot K (nth s pts [])) as [d ixs] eqn:E. cbn [fst snd] in *.
  apply (spread_spec K Kr (nth s pts []) (shots_ok s) d ixs E nmax); assumption.
Qed.
Lemma hicks_locs_nodup s : (s < length pts)%nat -> exists d m, nth s (h_locs K h) [] = d ++ repeat (IGNORE, IGNORE) m /\ NoDup d /\
  forall c, In c d <-> exists p, In p (nth s pts []) /\ In (fst c) (fst (fst p)) /\ In (snd c) (fst (snd p)).
Proof.
  intros Hs. destruct (obj_nth s Hs) as (-> & _ & _ & Hn & _). destruct (merge_shot K (nth s pts [])) as [d ixs] eqn:E. cbn [fst snd] in *.
  destruct (mspec K _ d ixs E) as (Hd & Hl & Hlu & Hlt & Hin). unfold pad_locs. eexists d, _. split; [reflexivity|]. split; [exact Hd|].
  intros [c0 c1]. cbn [fst snd]. split.
  - intros H. destruct (Hin _ H) as (p & P1 & P2). exists p. split; [exact P1|]. unfold cells2 in P2. apply in_flat_map in P2. destruct P2 as (a & A1 & A2).
    apply in_map_iff in A2. destruct A2 as (b & [= <- <-] & B). split; assumption.
  - intros (p & P1 & P2 & P3). assert (C : In (c0, c1) (cells2 K p)) by (unfold cells2; apply in_flat_map; exists c0; split; [exact P2|]; apply in_map; exact P3).
    assert (In (cells2 K p) (map (lu d) ixs)) as I by (rewrite Hlu; apply in_map, P1). apply in_map_iff in I. destruct I as (ix & I1 & I2).
    rewrite <- I1 in C. unfold lu in C. apply in_map_iff in C. destruct C as (i & C1 & C2). rewrite <- C1. apply nth_In. exact (Hlt ix I2 i C2).
Qed.

(** Value gathered at a point from a field. *)
Lemma hicks_gather np si (f : nat -> Z * Z -> K) n k i : fits si n -> (k < n)%nat -> (i < np)%nat ->
  nth i (nth k (receiver K h np si (map (fun j => map (f j) (nth j (get_locations K h si) [])) (seq 0 n))) []) 0
  = let p := nth i (nth (nth k (batch si n) 0%nat) pts []) p0 in
    sumf (combine (fst (fst p)) (snd (fst p))) (fun a => sumf (combine (fst (snd p)) (snd (snd p))) (fun b => snd a * snd b * f k (fst a, fst b))).
Proof.
  intros Hf Hk Hi. pose proof (fits_nth _ _ k Hf Hk) as Hs.
  rewrite receiver_nth by (rewrite map_length, seq_length; try apply Hf; lia). rewrite map_length, seq_length.
  rewrite nth_map_seq by exact Hk.
  replace (nth k (get_locations K h si) []) with (nth (nth k (batch si n) 0%nat) (h_locs K h) []).
  2:{ unfold get_locations. destruct si as [l|]; cbn [batch] in *.
      - destruct Hf as [Hf _]. cbn in Hf. rewrite (nth_map_lt _ l k _ 0%nat) by lia. reflexivity.
      - rewrite seq_nth by exact Hk. reflexivity. }
  destruct (obj_nth _ Hs) as (-> & -> & -> & Hn & _). set (s := nth k (batch si n) 0%nat) in *.
  destruct (merge_shot K (nth s pts [])) as [d ixs] eqn:E. cbn [fst snd] in *.
  apply (gather_spec K Kr (nth s pts []) (shots_ok s) d ixs E nmax); assumption.
Qed.
End Obj.
