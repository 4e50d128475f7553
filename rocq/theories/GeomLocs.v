(** * The extracted location indices satisfy the hypotheses of the kernel theorems. *)
From Coq Require Import List ZArith Lia Bool.
From Verif Require Import Ops Sums Grid Stencil ScalarModel ScalarRefine GeomModel Geom Geom2 SetupModel.
Import ListNotations.
Local Open Scope Z_scope.

(** Every coordinate of every location is either ignored or not. *)
Definition locs_whole (nd : nat) (locs : list (option loct)) : Prop :=
  forall k sh j p, loc3 locs k sh j = Some p -> active_pt nd p \/ ignored_pt nd p.

Section Locs.
Context {X : Type} (z : X).
Variables (models : list (tens X)) (src rec : list (option loct)) (wfs : list (option (list Z))).
Variables (sp : survey_pad) (origin : option (list Z)) (fdp pw : list Z) (modes : list pad_mode).
Variables (nb : Z) (nd : nat).
Variables (E : list (Z * Z)) (ms : list (tens X)) (s r : list (list (list Z))).
Hypothesis Hfd : length fdp = (2 * nd)%nat.
Hypothesis Hpw : length pw = (2 * nd)%nat.
Hypothesis Hnd : (0 < nd)%nat.
Hypothesis Hfd0 : Forall (fun x => 0 <= x) fdp.
Hypothesis Hpw0 : Forall (fun x => 0 <= x) pw.
Hypothesis Hrun : extract_survey z models src rec wfs sp origin fdp pw modes nb nd = Some (E, ms, s, r).

Lemma at3_loc3 w k sh j i :
  at3 (tab_out s r w) k sh j = Some i -> exists p, loc3 (tab_in src rec w) k sh j = Some p.
Proof.
  intros H. pose proof (tab_run z models src rec wfs sp origin fdp pw modes nb nd E ms s r Hfd Hpw Hnd Hrun w) as G.
  unfold extract_locations in G. cbv zeta in G. unfold at3 in H.
  destruct (nth_error (tab_out s r w) k) as [o|] eqn:Eo; [|discriminate].
  pose proof (nth_error_sequence _ _ _ _ G Eo) as F. rewrite nth_error_map in F. unfold loc3.
  destruct (nth_error (tab_in src rec w) k) as [[l|]|]; cbn [option_map] in F; try discriminate; injection F as F.
  - destruct (_ && _) in F; [|discriminate]. destruct (forallb unique_ok _) in F; [|discriminate]. injection F as F.
    subst o. rewrite nth_error_map in H. destruct (nth_error (lt_data l) sh) as [row|]; cbn in H; [|discriminate].
    rewrite nth_error_map in H. destruct (nth_error row j) as [p|]; [|discriminate]. exists p. reflexivity.
  - subst o. destruct (nth_error (repeat [] (Z.to_nat nb)) sh) as [row|] eqn:Er; [|discriminate].
    apply nth_error_In, repeat_spec in Er. subst row. destruct j; discriminate.
Qed.

Lemma extracted_loc_ok (K : ops) (P : par K) w :
  fdp = repeat (fd_pad (p_acc P)) (2 * nd) -> p_shape P = padded_shape E (sum_pad fdp pw) ->
  locs_whole nd (tab_in src rec w) ->
  forall k sh j i, at3 (tab_out s r w) k sh j = Some i -> loc_ok K P i.
Proof.
  intros Hfp Hsh Hw k sh j i Hi. destruct (at3_loc3 w k sh j i Hi) as [p Hp].
  destruct (Hw _ _ _ _ Hp) as [Ha|Hg].
  - destruct (location_maps z models src rec wfs sp origin fdp pw modes nb nd E ms s r Hfd Hpw Hnd Hfd0 Hpw0 Hrun w k sh j p Hp Ha)
      as (i' & H1 & H2 & H3 & _).
    rewrite H1 in Hi. injection Hi as ->. right. rewrite Hsh. split; [exact H2|].
    apply inb_spec. rewrite ibox_length.
    destruct (run_parts z models src rec wfs sp origin fdp pw modes nb nd E ms s r Hfd Hpw Hnd Hrun) as (_ & _ & LE & _).
    assert (LU : length (unidx (p_shape P) i) = nd).
    { rewrite Hsh.
      assert (L : length (padded_shape E (sum_pad fdp pw)) = nd) by (rewrite padded_shape_length; exact LE).
      rewrite <- L. clear. generalize i. induction (padded_shape E (sum_pad fdp pw)) as [|n q IH]; intros i0; cbn; [reflexivity|].
      f_equal. apply IH. }
    rewrite <- Hsh. split; [rewrite LU, Hsh, padded_shape_length; lia|].
    intros d Hd. rewrite Hsh, padded_shape_length, LE in Hd. rewrite nth_ibox by (rewrite Hsh, padded_shape_length; lia).
    specialize (H3 d Hd). cbn [fst snd].
    assert (F1 : nth (2 * d) fdp 0 = fd_pad (p_acc P)).
    { rewrite Hfp, (nth_indep _ 0 (fd_pad (p_acc P))) by (rewrite repeat_length; lia). apply nth_repeat. }
    assert (F2 : nth (2 * d + 1) fdp 0 = fd_pad (p_acc P)).
    { rewrite Hfp, (nth_indep _ 0 (fd_pad (p_acc P))) by (rewrite repeat_length; lia). apply nth_repeat. }
    pose proof (pad_nonneg fdp pw nd Hfd Hpw Hnd Hfd0 Hpw0 (2 * d) ltac:(lia)).
    pose proof (pad_nonneg fdp pw nd Hfd Hpw Hnd Hfd0 Hpw0 (2 * d + 1) ltac:(lia)).
    rewrite Hsh. cbn [fst snd]. lia.
  - rewrite (location_ignored z models src rec wfs sp origin fdp pw modes nb nd E ms s r Hfd Hpw Hnd Hrun w k sh j p Hp Hg) in Hi.
    injection Hi as <-. left. unfold IGNORE. lia.
Qed.
End Locs.

(** [x] is the coordinate along [d] of some location that is not ignored. *)
Definition is_active (locs : list (option loct)) (d : nat) (x : Z) : Prop :=
  exists L ps p, In (Some L) locs /\ In ps (lt_data L) /\ In p ps /\ coord d p = x /\ x <> IGNORE.

Lemma is_active_In locs d x : is_active locs d x <-> In x (active d locs).
Proof.
  unfold active, is_active. rewrite in_flat_map. split.
  - intros (L & ps & p & H1 & H2 & H3 & H4 & H5). exists L. split; [apply present_In; exact H1|].
    apply dim_locs_In. exists ps, p. auto.
  - intros (L & H1 & H2). apply dim_locs_In in H2. destruct H2 as (ps & p & A & B & C & D).
    exists L, ps, p. apply present_In in H1. auto.
Qed.

(** C20 *)
Lemma survey_area shape locs sp E :
  get_survey_extents_from_locations shape locs sp = Some E ->
  (forall d x, (d < length shape)%nat -> is_active locs d x -> 0 <= x < nth d shape 0) ->
  length E = length shape /\
  forall d, (d < length shape)%nat ->
    let n := nth d shape 0 in
    let l := fst (nth d E (0, 0)) in
    let r := snd (nth d E (0, 0)) in
    (0 <= l <= n /\ 0 <= r <= n) /\
    ((forall L, ~ In (Some L) locs) -> l = 0 /\ r = n) /\
    (sp_side sp (2 * d) = None -> l = 0) /\ (sp_side sp (2 * d + 1) = None -> r = n) /\
    (forall x, is_active locs d x -> l <= x < r) /\
    (forall p, sp_side sp (2 * d) = Some p ->
       (forall x, is_active locs d x -> l <= Z.max 0 (x - p)) /\
       ((exists x, is_active locs d x) -> exists x, is_active locs d x /\ l = Z.max 0 (x - p))) /\
    (forall p, sp_side sp (2 * d + 1) = Some p ->
       (forall x, is_active locs d x -> Z.min n (x + p + 1) <= r) /\
       ((exists x, is_active locs d x) -> exists x, is_active locs d x /\ r = Z.min n (x + p + 1))).
Proof.
  intros H Hin. pose proof (extents_spec shape locs sp E H) as [HL HE]. split; [exact HL|].
  intros d Hd. specialize (HE d Hd). cbv zeta in *. destruct HE as (Hn & Hl & Hr & Hno & Hsl & Hsr & Ha).
  assert (Hp : forall k p, (k < 2 * length shape)%nat -> sp_side sp k = Some p -> 0 <= p).
  { unfold get_survey_extents_from_locations in H. destruct (_ || _) in H; [discriminate|].
    destruct (set_survey_pad sp (length shape)) as [pads|] eqn:Es; [|discriminate].
    apply set_survey_pad_spec in Es. intros k p Hk Hs. destruct Es as [_ Es]. specialize (Es k Hk). rewrite Hs in Es. lia. }
  assert (Hne : forall x, is_active locs d x -> active d locs <> []).
  { intros x Hx. apply is_active_In in Hx. intros E0. rewrite E0 in Hx. contradiction. }
  split; [lia|]. split.
  { intros Hnone. apply Hno. destruct (present locs) as [|L q] eqn:Ep; [reflexivity|].
    exfalso. apply (Hnone L). apply present_In. rewrite Ep. left. reflexivity. }
  split; [exact Hsl|]. split; [exact Hsr|]. split; [|split].
  - intros x Hx. specialize (Ha (Hne x Hx)). specialize (Hin d x Hd Hx). destruct Ha as [Al Ar].
    pose proof Hx as Hx'. apply is_active_In in Hx'. split.
    + destruct (sp_side sp (2 * d)) as [p|] eqn:Ep; cbn [side_left_ok] in Al; [|lia].
      destruct Al as [Al _]. specialize (Al x Hx'). specialize (Hp (2 * d)%nat p ltac:(lia) Ep). lia.
    + destruct (sp_side sp (2 * d + 1)) as [p|] eqn:Ep; cbn [side_right_ok] in Ar; [|lia].
      destruct Ar as [Ar _]. specialize (Ar x Hx'). specialize (Hp (2 * d + 1)%nat p ltac:(lia) Ep). lia.
  - intros p Ep. split.
    + intros x Hx. specialize (Ha (Hne x Hx)). rewrite Ep in Ha. apply Ha. apply is_active_In. exact Hx.
    + intros [x Hx]. specialize (Ha (Hne x Hx)). rewrite Ep in Ha. destruct Ha as [[_ (y & Hy & E0)] _].
      exists y. split; [apply is_active_In; exact Hy|exact E0].
  - intros p Ep. split.
    + intros x Hx. specialize (Ha (Hne x Hx)). rewrite Ep in Ha. apply Ha. apply is_active_In. exact Hx.
    + intros [x Hx]. specialize (Ha (Hne x Hx)). rewrite Ep in Ha. destruct Ha as [_ [_ (y & Hy & E0)]].
      exists y. split; [apply is_active_In; exact Hy|exact E0].
Qed.

(** The inner view of an extracted model is the user's model on the survey area. *)
Lemma inner_view_model {X} (z : X) models src rec wfs sp origin fdp pw modes nb nd E ms s r :
  length fdp = (2 * nd)%nat -> length pw = (2 * nd)%nat -> (0 < nd)%nat ->
  Forall (fun x => 0 <= x) fdp -> Forall (fun x => 0 <= x) pw ->
  extract_survey z models src rec wfs sp origin fdp pw modes nb nd = Some (E, ms, s, r) ->
  ext_in E (match models with m0 :: _ => last_n nd (t_shape m0) | [] => [] end) ->
  forall n m m', nth_error models n = Some m -> nth_error ms n = Some m' ->
    t_shape (get_view fdp pw m' VInner) = mbatch nd m :: map (fun e => snd e - fst e) E /\
    forall b q, 0 <= b < mbatch nd m -> length q = nd ->
      (forall d, (d < nd)%nat -> 0 <= coord d q < snd (nth d E (0, 0)) - fst (nth d E (0, 0))) ->
      t_at (get_view fdp pw m' VInner) (b :: q) =
      mval nd m b (map (fun d => fst (nth d E (0, 0)) + coord d q) (seq 0 nd)).
Proof.
  intros Hfd Hpw Hnd Hfd0 Hpw0 Hrun Hext n m m' Hm Hm'.
  destruct (run_parts z models src rec wfs sp origin fdp pw modes nb nd E ms s r Hfd Hpw Hnd Hrun) as (_ & _ & LE & _ & _ & Hx & _).
  assert (Hsh : match models with m0 :: _ => last_n nd (t_shape m0) =
     (match models with m0 :: _ => last_n nd (t_shape m0) | [] => [] end) | [] => True end) by (destruct models; auto).
  destruct (extract_models_spec z models E _ modes nb nd ms _ (pad_length fdp pw nd Hfd Hpw Hnd) Hnd Hsh Hext Hx) as (L1 & L2 & G).
  destruct (nth_error modes n) as [mode|] eqn:Emode.
  2:{ apply nth_error_None in Emode. assert (nth_error models n <> None) by congruence. apply nth_error_Some in H. lia. }
  destruct (G n m mode m' Hm Emode Hm') as (_ & G2 & G3).
  assert (HE0 : forall d, (d < nd)%nat -> fst (nth d E (0, 0)) <= snd (nth d E (0, 0))).
  { intros d Hd. destruct Hext as [_ He]. specialize (He d ltac:(lia)). lia. }
  destruct (view_spec m' fdp pw E nd (mbatch nd m) Hfd Hpw LE Hfd0 Hpw0 HE0 G2) as (_ & _ & V3 & V4 & V5).
  split; [exact V3|]. intros b q Hb Hq Hin. rewrite V5 by exact Hq. rewrite V4 by (rewrite map_length, seq_length; reflexivity).
  cbn [get_view]. rewrite G3 by (rewrite ?map_length, ?seq_length; auto).
  set (q' := map _ (seq 0 nd)).
  assert (Hu : under E (sum_pad fdp pw) q' = map (fun d => fst (nth d E (0, 0)) + coord d q) (seq 0 nd)).
  { unfold under. rewrite LE. apply map_ext_in. intros d Hd. apply in_seq in Hd. unfold q'. rewrite !coord_map_seq by lia.
    pose proof (pad_nonneg fdp pw nd Hfd Hpw Hnd Hfd0 Hpw0 (2 * d) ltac:(lia)). lia. }
  rewrite Hu. destruct mode.
  - f_equal. unfold nearest. rewrite LE. apply map_ext_in. intros d Hd. apply in_seq in Hd. rewrite coord_map_seq by lia.
    specialize (Hin d ltac:(lia)). unfold clampZ. lia.
  - match goal with |- (if ?c then _ else _) = _ => assert (c = true) as -> end; [|reflexivity].
    apply inb_spec. split; [rewrite map_length, seq_length; congruence|]. intros d Hd. rewrite LE in Hd. rewrite coord_map_seq by lia.
    specialize (Hin d Hd). lia.
Qed.
