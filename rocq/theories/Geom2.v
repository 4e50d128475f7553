(** * [extract_survey] as a whole. *)
From Coq Require Import List ZArith Lia Bool.
From Verif Require Import Ops Stencil Grid ScalarModel ScalarRefine GeomModel Geom.
Import ListNotations.
Local Open Scope Z_scope.

(** Location [j] of shot [sh] of tensor [k]. *)
Definition loc3 (locs : list (option loct)) (k sh j : nat) : option pt :=
  match nth_error locs k with
  | Some (Some l) => match nth_error (lt_data l) sh with Some ps => nth_error ps j | None => None end
  | _ => None
  end.
Definition at3 (s : list (list (list Z))) (k sh j : nat) : option Z :=
  match nth_error s k with
  | Some a => match nth_error a sh with Some b => nth_error b j | None => None end
  | None => None
  end.

(** A location with no ignored coordinate. *)
Definition active_pt (nd : nat) (p : pt) : Prop :=
  length p = nd /\ forall d, (d < nd)%nat -> coord d p <> IGNORE.
Definition ignored_pt (nd : nat) (p : pt) : Prop :=
  length p = nd /\ forall d, (d < nd)%nat -> coord d p = IGNORE.

Definition sum_pad (fdp pw : list Z) : list Z := map (fun fp => fst fp + snd fp) (combine fdp pw).

Lemma sum_pad_nth fdp pw k :
  (k < length fdp)%nat -> (k < length pw)%nat -> nth k (sum_pad fdp pw) 0 = nth k fdp 0 + nth k pw 0.
Proof.
  unfold sum_pad. revert pw k; induction fdp as [|f fdp IH]; intros [|w pw] [|k] H1 H2; cbn in *; try lia; auto.
  apply IH; lia.
Qed.

Lemma sum_pad_length fdp pw : length (sum_pad fdp pw) = Nat.min (length fdp) (length pw).
Proof. unfold sum_pad. rewrite map_length, combine_length. reflexivity. Qed.

Lemma last_n_length {X} n (l : list X) : (n <= length l)%nat -> length (last_n n l) = n.
Proof. intros H. unfold last_n. rewrite skipn_length. lia. Qed.

Section Survey.
Context {X : Type} (z : X).
Variables (models : list (tens X)) (src rec : list (option loct)) (wfs : list (option (list Z))).
Variables (sp : survey_pad) (origin : option (list Z)) (fdp pw : list Z) (modes : list pad_mode).
Variables (nb : Z) (nd : nat).
Variables (E : list (Z * Z)) (ms : list (tens X)) (s r : list (list (list Z))).

Hypothesis Hfd : length fdp = (2 * nd)%nat.
Hypothesis Hpw : length pw = (2 * nd)%nat.
Hypothesis Hnd : (0 < nd)%nat.
Hypothesis Hfd0 : Forall (fun x => 0 <= x) fdp.
Hypothesis Hpw0 : Forall (fun x => 0 <= x) pw.
Hypothesis Hrun : extract_survey z models src rec wfs sp origin fdp pw modes nb nd = Some (E, ms, s, r).

Notation pad := (sum_pad fdp pw).
Notation shape := (match models with m0 :: _ => last_n nd (t_shape m0) | [] => [] end).

Lemma pad_length : length pad = (2 * nd)%nat.
Proof. rewrite sum_pad_length. lia. Qed.

Lemma pad_half : (length pad / 2 = nd)%nat.
Proof. rewrite pad_length, Nat.mul_comm. apply Nat.div_mul. lia. Qed.

Lemma pad_nonneg k : (k < 2 * nd)%nat -> nth k fdp 0 <= nth k pad 0 /\ nth k pad 0 = nth k fdp 0 + nth k pw 0
                                         /\ 0 <= nth k fdp 0 /\ 0 <= nth k pw 0.
Proof.
  intros Hk. rewrite sum_pad_nth by lia. rewrite Forall_forall in Hfd0, Hpw0.
  assert (A : In (nth k fdp 0) fdp) by (apply nth_In; lia).
  assert (B : In (nth k pw 0) pw) by (apply nth_In; lia).
  specialize (Hfd0 _ A). specialize (Hpw0 _ B). lia.
Qed.

(** The pieces of a successful run. *)
Lemma run_parts :
  models <> [] /\ length shape = nd /\ length E = nd /\
  check_locations_are_within_model shape (src ++ rec) = true /\
  ((get_survey_extents_from_wavefields wfs origin pw = Some E /\
    check_extents_within_model E shape = true /\ check_locations_within_extents E (src ++ rec) = true) \/
   get_survey_extents_from_locations shape (src ++ rec) sp = Some E) /\
  extract_models z models E pad modes nb = Some ms /\
  extract_locations src E pad nb = Some s /\ extract_locations rec E pad nb = Some r.
Proof.
  pose proof Hrun as H. unfold extract_survey in H. destruct models as [|m0 models0]; [discriminate|].
  destruct (negb _ && _); [discriminate|]. cbv zeta in H.
  destruct (check_locations_are_within_model _ _) eqn:Ec; [|discriminate]. cbn [negb] in H.
  set (pd := map (fun fp : Z * Z => fst fp + snd fp) (combine fdp pw)) in H.
  change pd with pad in H. clear pd.
  match type of H with match ?e with _ => _ end = _ => destruct e as [E'|] eqn:EE; [|discriminate] end.
  destruct (extract_models _ _ _ _ _ _) as [ms'|] eqn:E1; [|discriminate].
  destruct (extract_locations src _ _ _) as [s'|] eqn:E2; [|discriminate].
  destruct (extract_locations rec _ _ _) as [r'|] eqn:E3; [|discriminate].
  destruct (prepare_wavefields _ _ _ _) eqn:E4; [|discriminate].
  injection H as H1 H2 H3 H4. subst E' ms' s' r'.
  split; [discriminate|].
  assert (L : length (last_n nd (t_shape m0)) = nd /\ length E = nd).
  { pose proof E1 as G. unfold extract_models in G. cbv zeta in G. rewrite pad_half in G.
    destruct (negb (length (m0 :: models0) =? length modes)%nat || negb (length E =? nd)%nat) eqn:G0; [discriminate|].
    apply orb_false_iff in G0. destruct G0 as [_ G0]. apply negb_false_iff, Nat.eqb_eq in G0. split; [|exact G0].
    destruct (forallb _ (m0 :: models0)) eqn:F; [|discriminate]. cbn [forallb] in F.
    apply last_n_length. rewrite !andb_true_iff, orb_true_iff, !Nat.eqb_eq in F. lia. }
  split; [tauto|]. split; [tauto|]. split; [first [exact Ec|reflexivity]|]. split; [|auto].
  match type of EE with (if ?c then _ else _) = _ => destruct c end.
  - left. destruct (get_survey_extents_from_wavefields wfs origin pw) as [E'|]; [|discriminate].
    destruct (_ && _) eqn:G in EE; [|discriminate]. injection EE as ->. apply andb_true_iff in G. tauto.
  - right. destruct (get_survey_extents_from_locations _ _ _) as [E'|]; [|discriminate].
    destruct (check_extents_match_wavefields_shape _ _ _) in EE; [|discriminate]. congruence.
Qed.

(** An active location, its cell and the survey area. *)
Lemma survey_contains L ps p :
  In (Some L) (src ++ rec) -> In ps (lt_data L) -> In p ps -> active_pt nd p ->
  ext_in E shape /\ forall d, (d < nd)%nat -> fst (nth d E (0, 0)) <= coord d p < snd (nth d E (0, 0)).
Proof.
  intros HL Hps Hp [Lp Ha]. destruct run_parts as (_ & Ls & LE & Hc & HE & _ & _ & _).
  assert (HA : forall d, (d < nd)%nat -> In (coord d p) (dim_locs d L)).
  { intros d Hd. apply dim_locs_In. exists ps, p. auto. }
  assert (HP : In L (present (src ++ rec))) by (apply present_In; exact HL).
  unfold check_locations_are_within_model in Hc. rewrite !andb_true_iff in Hc. destruct Hc as [_ Hc].
  rewrite forallb_forall in Hc. specialize (Hc L HP). rewrite forallb_forall in Hc.
  assert (Hd : forall d, (d < nd)%nat -> (d < lt_dim L)%nat /\ 0 <= coord d p < nth d shape 0).
  { intros d Hd. specialize (Hc d). rewrite in_seq, Ls in Hc. specialize (Hc ltac:(lia)).
    apply andb_true_iff in Hc. destruct Hc as [Hc1 Hc2]. apply Nat.ltb_lt in Hc1. split; [exact Hc1|].
    specialize (HA d Hd).
    destruct (lmin (dim_locs d L)) as [a|] eqn:Ea; [|destruct (dim_locs d L); [contradiction|discriminate]].
    destruct (lmax (dim_locs d L)) as [b|] eqn:Eb; [|destruct (dim_locs d L); [contradiction|discriminate]].
    apply lmin_spec in Ea. apply lmax_spec in Eb. destruct Ea as [_ Ea]. destruct Eb as [_ Eb].
    specialize (Ea _ HA). specialize (Eb _ HA). apply andb_true_iff in Hc2. rewrite Z.leb_le, Z.ltb_lt in Hc2. lia. }
  destruct HE as [(H1 & H2 & H3)|H].
  - unfold check_locations_within_extents in H3. rewrite forallb_forall in H3. specialize (H3 L HP).
    rewrite forallb_forall in H3.
    assert (Hr : forall d, (d < nd)%nat -> fst (nth d E (0, 0)) <= coord d p < snd (nth d E (0, 0))).
    { intros d Hd'. destruct (Hd d Hd') as [Hd1 _]. specialize (H3 d). rewrite in_seq in H3. specialize (H3 ltac:(lia)).
      specialize (HA d Hd').
      destruct (lmin (dim_locs d L)) as [a|] eqn:Ea; [|discriminate].
      destruct (lmax (dim_locs d L)) as [b|] eqn:Eb; [|discriminate].
      apply lmin_spec in Ea. apply lmax_spec in Eb. destruct Ea as [_ Ea]. destruct Eb as [_ Eb].
      specialize (Ea _ HA). specialize (Eb _ HA).
      rewrite (nth_error_nth' E (0, 0)) in H3 by lia. destruct (nth d E (0, 0)) as [e0 e1].
      apply andb_true_iff in H3. rewrite Z.leb_le, Z.ltb_lt in H3. cbn. lia. }
    split; [|exact Hr]. split; [congruence|]. intros d Hd'. rewrite LE in Hd'. specialize (Hr d Hd').
    unfold check_extents_within_model in H2. rewrite forallb_forall in H2.
    specialize (H2 (nth d (combine E shape) (0, 0, 0))).
    rewrite combine_nth in H2 by congruence. cbn [fst snd] in H2.
    assert (G : In (nth d E (0, 0), nth d shape 0) (combine E shape)).
    { rewrite <- (combine_nth E shape d (0, 0) 0) by congruence. apply nth_In. rewrite combine_length. lia. }
    specialize (H2 G). apply andb_true_iff in H2. rewrite !Z.leb_le in H2. lia.
  - destruct (extents_spec _ _ _ _ H) as [_ G].
    assert (Hr : forall d, (d < nd)%nat -> fst (nth d E (0, 0)) <= coord d p < snd (nth d E (0, 0)) /\
                   0 <= fst (nth d E (0, 0)) /\ snd (nth d E (0, 0)) <= nth d shape 0).
    { intros d Hd'. destruct (Hd d Hd') as [_ Hd2]. specialize (G d ltac:(lia)). cbv zeta in G.
      destruct G as (G1 & G2 & G3 & _ & G4 & G5 & G6).
      assert (HA' : In (coord d p) (active d (src ++ rec))).
      { unfold active. apply in_flat_map. exists L. split; [exact HP|]. apply HA, Hd'. }
      destruct G6 as [GL GR]. { intros X0. rewrite X0 in HA'. contradiction. }
      split; [|lia]. split.
      - destruct (sp_side sp (2 * d)) as [n|] eqn:En; cbn [side_left_ok] in GL; [|lia].
        destruct GL as [GL _]. specialize (GL _ HA').
        assert (0 <= n). { clear - H En Ls Hd'. unfold get_survey_extents_from_locations in H.
          destruct (_ || _); [discriminate|].
          destruct (set_survey_pad sp (length shape)) eqn:Es; [|discriminate].
          apply set_survey_pad_spec in Es. destruct Es as [_ Es]. specialize (Es (2 * d)%nat ltac:(lia)).
          rewrite En in Es. lia. }
        lia.
      - destruct (sp_side sp (2 * d + 1)) as [n|] eqn:En; cbn [side_right_ok] in GR; [|lia].
        destruct GR as [GR _]. specialize (GR _ HA').
        assert (0 <= n). { clear - H En Ls Hd'. unfold get_survey_extents_from_locations in H.
          destruct (_ || _); [discriminate|].
          destruct (set_survey_pad sp (length shape)) eqn:Es; [|discriminate].
          apply set_survey_pad_spec in Es. destruct Es as [_ Es]. specialize (Es (2 * d + 1)%nat ltac:(lia)).
          rewrite En in Es. lia. }
        lia. }
    split; [|intros d Hd'; apply Hr, Hd'].
    split; [congruence|]. intros d Hd'. rewrite LE in Hd'. specialize (Hr d Hd'). lia.
Qed.

Lemma extract_locations_at locs out k sh j p :
  extract_locations locs E pad nb = Some out -> loc3 locs k sh j = Some p ->
  at3 out k sh j = Some (to_1d (origin_of E pad) (strides (padded_shape E pad)) (length E) p).
Proof.
  intros H Hl. unfold extract_locations in H. cbv zeta in H. unfold loc3 in Hl.
  destruct (nth_error locs k) as [[l|]|] eqn:Ek; try discriminate.
  unfold at3.
  assert (Hk : nth_error out k = Some (map (map (to_1d (origin_of E pad) (strides (padded_shape E pad)) (length E))) (lt_data l))).
  { pose proof (sequence_spec _ _ H) as G.
    assert (Hlen : (k < length out)%nat).
    { apply sequence_length in H. rewrite map_length in H. rewrite H. apply nth_error_Some. congruence. }
    destruct (nth_error out k) as [o|] eqn:Eo; [|apply nth_error_None in Eo; lia].
    apply (f_equal (fun l => nth_error l k)) in G. rewrite !nth_error_map, Ek, Eo in G. cbn [option_map] in G.
    injection G as G. destruct (_ && _) in G; [|discriminate]. destruct (forallb _ _) in G; [|discriminate]. congruence. }
  rewrite Hk, nth_error_map. destruct (nth_error (lt_data l) sh) as [ps|]; [|discriminate].
  cbn [option_map]. rewrite nth_error_map, Hl. reflexivity.
Qed.

Lemma loc3_In locs k sh j p :
  loc3 locs k sh j = Some p -> exists L ps, In (Some L) locs /\ In ps (lt_data L) /\ In p ps.
Proof.
  unfold loc3. destruct (nth_error locs k) as [[l|]|] eqn:Ek; try discriminate.
  destruct (nth_error (lt_data l) sh) as [ps|] eqn:Es; [|discriminate]. intros H.
  exists l, ps. repeat split; eauto using nth_error_In.
Qed.

(** [w]: source tables or receiver tables. *)
Definition tab_in (w : bool) : list (option loct) := if w then src else rec.
Definition tab_out (w : bool) : list (list (list Z)) := if w then s else r.

Lemma tab_run w : extract_locations (tab_in w) E pad nb = Some (tab_out w).
Proof. destruct run_parts as (_ & _ & _ & _ & _ & _ & H1 & H2). destruct w; assumption. Qed.

Lemma tab_sub w L : In (Some L) (tab_in w) -> In (Some L) (src ++ rec).
Proof. intros H. apply in_app_iff. destruct w; auto. Qed.

Lemma active_index w k sh j p :
  loc3 (tab_in w) k sh j = Some p -> active_pt nd p ->
  ext_in E shape /\
  at3 (tab_out w) k sh j = Some (idx (padded_shape E pad) (rel E pad p)) /\
  (forall d, (d < nd)%nat ->
     nth (2 * d) pad 0 <= coord d (rel E pad p) < nth d (padded_shape E pad) 0 - nth (2 * d + 1) pad 0) /\
  under E pad (rel E pad p) = p.
Proof.
  intros Hl Ha. destruct (loc3_In _ _ _ _ _ Hl) as (L & ps & H1 & H2 & H3).
  destruct (survey_contains L ps p (tab_sub _ _ H1) H2 H3 Ha) as [Hext Hr].
  destruct run_parts as (_ & Ls & LE & _).
  split; [exact Hext|]. split; [|split].
  - rewrite (extract_locations_at _ _ _ _ _ _ (tab_run w) Hl). f_equal. apply to_1d_active; [lia|].
    intros d Hd. rewrite LE in Hd. destruct Ha as [_ Ha]. split; [apply Ha; exact Hd|].
    specialize (Hr d Hd). pose proof (pad_nonneg (2 * d) ltac:(lia)). unfold IGNORE. lia.
  - intros d Hd. specialize (Hr d Hd). unfold rel, padded_shape. rewrite coord_map_seq by lia.
    rewrite nth_map_seq by lia. pose proof (pad_nonneg (2 * d) ltac:(lia)). pose proof (pad_nonneg (2 * d + 1) ltac:(lia)). lia.
  - destruct Ha as [Lp _]. unfold under. rewrite LE. apply (nth_ext _ _ 0 0).
    + rewrite map_length, seq_length. lia.
    + intros d Hd. rewrite map_length, seq_length in Hd. rewrite nth_map_seq by exact Hd.
      unfold rel. rewrite coord_map_seq by lia. unfold coord. lia.
Qed.

Lemma rel_inb p :
  (forall d, (d < nd)%nat ->
     nth (2 * d) pad 0 <= coord d (rel E pad p) < nth d (padded_shape E pad) 0 - nth (2 * d + 1) pad 0) ->
  inb (abox (padded_shape E pad)) (rel E pad p) = true.
Proof.
  destruct run_parts as (_ & Ls & LE & _). intros H. apply inb_abox.
  rewrite rel_length, padded_shape_length. split; [reflexivity|]. intros d Hd. rewrite LE in Hd.
  specialize (H d Hd). pose proof (pad_nonneg (2 * d) ltac:(lia)). pose proof (pad_nonneg (2 * d + 1) ltac:(lia)). lia.
Qed.

(** C19 *)
Lemma location_maps w k sh j p :
  loc3 (tab_in w) k sh j = Some p -> active_pt nd p ->
  let S := padded_shape E pad in
  exists i, at3 (tab_out w) k sh j = Some i /\ 0 <= i < prodZ S /\
    (forall d, (d < nd)%nat ->
       nth (2 * d) fdp 0 + nth (2 * d) pw 0 <= coord d (unidx S i) <
       nth d S 0 - nth (2 * d + 1) fdp 0 - nth (2 * d + 1) pw 0) /\
    forall n m mode m', nth_error models n = Some m -> nth_error modes n = Some mode -> nth_error ms n = Some m' ->
      t_shape m' = mbatch nd m :: S /\
      forall b, 0 <= b < mbatch nd m -> t_at m' (b :: unidx S i) = mval nd m b p.
Proof.
  intros Hl Ha S. destruct (active_index w k sh j p Hl Ha) as (Hext & Hi & Hr & Hu).
  pose proof (rel_inb p Hr) as Hin. exists (idx S (rel E pad p)). split; [exact Hi|].
  split; [apply idx_bound; exact Hin|]. unfold S. rewrite (unidx_idx _ _ Hin). split.
  - intros d Hd. specialize (Hr d Hd). pose proof (pad_nonneg (2 * d) ltac:(lia)). pose proof (pad_nonneg (2 * d + 1) ltac:(lia)). lia.
  - intros n m mode m' H1 H2 H3. destruct run_parts as (Hne & Ls & LE & _ & _ & Hm & _).
    assert (Hsh : match models with m0 :: _ => last_n nd (t_shape m0) = shape | [] => True end) by (destruct models; auto).
    destruct (extract_models_spec z models E pad modes nb nd ms shape pad_length Hnd Hsh Hext Hm) as (_ & _ & G).
    destruct (G n m mode m' H1 H2 H3) as (_ & G2 & G3). split; [exact G2|].
    intros b Hb. rewrite G3 by (rewrite ?rel_length; auto). rewrite Hu.
    destruct (loc3_In _ _ _ _ _ Hl) as (L & ps & A1 & A2 & A3).
    destruct (survey_contains L ps p (tab_sub _ _ A1) A2 A3 Ha) as [_ Hc].
    destruct Ha as [Lp Ha].
    destruct mode.
    + f_equal. unfold nearest. rewrite LE. apply (nth_ext _ _ 0 0); [rewrite map_length, seq_length; lia|].
      intros d Hd. rewrite map_length, seq_length in Hd. rewrite nth_map_seq by exact Hd.
      specialize (Hc d Hd). unfold clampZ, coord in *. lia.
    + assert (inb E p = true) as ->; [|reflexivity]. apply inb_spec. split; [lia|]. intros d Hd. apply Hc. lia.
Qed.

Lemma location_ignored w k sh j p :
  loc3 (tab_in w) k sh j = Some p -> ignored_pt nd p -> at3 (tab_out w) k sh j = Some IGNORE.
Proof.
  intros Hl [_ Hi]. rewrite (extract_locations_at _ _ _ _ _ _ (tab_run w) Hl). f_equal.
  destruct run_parts as (_ & _ & LE & _). apply to_1d_ignored; rewrite LE; [exact Hnd|exact Hi].
Qed.

Lemma location_injective w w' k sh j p k' sh' j' p' i :
  loc3 (tab_in w) k sh j = Some p -> active_pt nd p ->
  loc3 (tab_in w') k' sh' j' = Some p' -> active_pt nd p' ->
  at3 (tab_out w) k sh j = Some i -> at3 (tab_out w') k' sh' j' = Some i -> p = p'.
Proof.
  intros Hl Ha Hl' Ha' Hi Hi'.
  destruct (active_index w k sh j p Hl Ha) as (_ & G1 & G2 & G3).
  destruct (active_index w' k' sh' j' p' Hl' Ha') as (_ & G1' & G2' & G3').
  rewrite <- G3, <- G3'. f_equal. apply (idx_inj (padded_shape E pad)); auto using rel_inb. congruence.
Qed.

Lemma NoDup_nth_error_inj (l : list Z) j j' i :
  length l = length (nodup Z.eq_dec l) -> nth_error l j = Some i -> nth_error l j' = Some i -> j = j'.
Proof.
  intros H Hj Hj'. assert (NoDup l).
  { clear - H. induction l as [|x l IH]; [constructor|]. cbn in H.
    assert (Hle : forall l, (length (nodup Z.eq_dec l) <= length l)%nat).
    { clear. induction l as [|y l IH]; cbn; [lia|]. destruct (in_dec Z.eq_dec y l); cbn; lia. }
    specialize (Hle l). destruct (in_dec Z.eq_dec x l); cbn in H; [lia|].
    constructor; [assumption|]. apply IH. lia. }
  apply (NoDup_nth_error l); [assumption| |congruence]. apply nth_error_Some. congruence.
Qed.

(** In one shot two active entries never share a cell (the code raises otherwise). *)
Lemma location_unique w k sh j p j' p' i :
  loc3 (tab_in w) k sh j = Some p -> active_pt nd p ->
  loc3 (tab_in w) k sh j' = Some p' -> active_pt nd p' ->
  at3 (tab_out w) k sh j = Some i -> at3 (tab_out w) k sh j' = Some i -> j = j'.
Proof.
  intros Hl Ha Hl' Ha' Hi Hi'.
  destruct (active_index w k sh j p Hl Ha) as (_ & G1 & G2 & G3).
  assert (Hnn : i <> IGNORE).
  { rewrite G1 in Hi. injection Hi as <-. pose proof (idx_bound _ _ (rel_inb p G2)). unfold IGNORE. lia. }
  pose proof (tab_run w) as H. unfold extract_locations in H. cbv zeta in H.
  unfold at3 in Hi, Hi'. destruct (nth_error (tab_out w) k) as [o|] eqn:Eo; [|discriminate].
  pose proof (nth_error_sequence _ _ _ _ H Eo) as G. rewrite nth_error_map in G.
  unfold loc3 in Hl. destruct (nth_error (tab_in w) k) as [[l|]|]; try discriminate.
  cbn [option_map] in G. injection G as G. destruct (_ && _) in G; [|discriminate].
  destruct (forallb unique_ok _) eqn:Eu in G; [|discriminate]. injection G as G. rewrite G in Eu.
  destruct (nth_error o sh) as [row|] eqn:Er; [|discriminate].
  rewrite forallb_forall in Eu. specialize (Eu row (nth_error_In _ _ Er)). unfold unique_ok in Eu. cbv zeta in Eu.
  apply Nat.eqb_eq in Eu.
  clear - Hi Hi' Eu Hnn.
  assert (NoDup (filter (fun x => negb (x =? IGNORE)) row)).
  { set (l := filter _ row) in *. clearbody l. clear - Eu. induction l as [|x l IH]; [constructor|]. cbn in Eu.
    assert (Hle : forall l, (length (nodup Z.eq_dec l) <= length l)%nat).
    { clear. induction l as [|y l IH]; cbn; [lia|]. destruct (in_dec Z.eq_dec y l); cbn; lia. }
    specialize (Hle l). destruct (in_dec Z.eq_dec x l); cbn in Eu; [lia|].
    constructor; [assumption|]. apply IH. lia. }
  clear Eu. revert j j' Hi Hi'; induction row as [|x row IH]; intros [|j] [|j'] Hi Hi'; try discriminate; auto.
  - cbn in Hi, Hi'. injection Hi as ->. exfalso. cbn in H.
    destruct (Z.eqb_spec i IGNORE); [contradiction|]. cbn in H. inversion H; subst. apply H2.
    apply filter_In. split; [eapply nth_error_In; eassumption|]. apply negb_true_iff, Z.eqb_neq. assumption.
  - cbn in Hi, Hi'. injection Hi' as ->. exfalso. cbn in H.
    destruct (Z.eqb_spec i IGNORE); [contradiction|]. cbn in H. inversion H; subst. apply H2.
    apply filter_In. split; [eapply nth_error_In; eassumption|]. apply negb_true_iff, Z.eqb_neq. assumption.
  - cbn in Hi, Hi'. f_equal. apply IH; auto. cbn in H. destruct (negb (x =? IGNORE)); [inversion H; assumption|assumption].
Qed.

End Survey.
