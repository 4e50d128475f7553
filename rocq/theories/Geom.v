(** * Proofs about survey extraction. *)
From Coq Require Import List ZArith Lia Bool.
From Verif Require Import Grid ScalarModel ScalarRefine GeomModel.
Import ListNotations.
Local Open Scope Z_scope.

(** ** Lists *)

Lemma fold_min_spec r x :
  In (fold_left Z.min r x) (x :: r) /\ Forall (fun y => fold_left Z.min r x <= y) (x :: r).
Proof.
  revert x; induction r as [|y r IH]; intros x; cbn.
  - split; [auto|constructor; [lia|constructor]].
  - destruct (IH (Z.min x y)) as [H1 H2]. inversion H2; subst. cbn in H1. split.
    + destruct H1 as [H1|H1]; [|auto]. destruct (Z.min_spec x y) as [[_ E]|[_ E]]; rewrite E in *; auto.
    + constructor; [lia|]. constructor; [lia|assumption].
Qed.

Lemma fold_max_spec r x :
  In (fold_left Z.max r x) (x :: r) /\ Forall (fun y => y <= fold_left Z.max r x) (x :: r).
Proof.
  revert x; induction r as [|y r IH]; intros x; cbn.
  - split; [auto|constructor; [lia|constructor]].
  - destruct (IH (Z.max x y)) as [H1 H2]. inversion H2; subst. cbn in H1. split.
    + destruct H1 as [H1|H1]; [|auto]. destruct (Z.max_spec x y) as [[_ E]|[_ E]]; rewrite E in *; auto.
    + constructor; [lia|]. constructor; [lia|assumption].
Qed.

Lemma lmin_spec l a : lmin l = Some a -> In a l /\ forall x, In x l -> a <= x.
Proof.
  destruct l as [|x r]; cbn; [discriminate|]. intros E. injection E as <-.
  destruct (fold_min_spec r x) as [H1 H2]. split; [exact H1|]. rewrite Forall_forall in H2. exact H2.
Qed.

Lemma lmax_spec l a : lmax l = Some a -> In a l /\ forall x, In x l -> x <= a.
Proof.
  destruct l as [|x r]; cbn; [discriminate|]. intros E. injection E as <-.
  destruct (fold_max_spec r x) as [H1 H2]. split; [exact H1|]. rewrite Forall_forall in H2. exact H2.
Qed.

Lemma sequence_spec {X} (l : list (option X)) r : sequence l = Some r -> l = map Some r.
Proof.
  revert r; induction l as [|[x|] l IH]; cbn; intros r H; try discriminate.
  - injection H as <-. reflexivity.
  - destruct (sequence l) as [r'|]; [|discriminate]. injection H as <-. cbn. f_equal. auto.
Qed.

Lemma sequence_length {X} (l : list (option X)) r : sequence l = Some r -> length r = length l.
Proof. intros H. apply sequence_spec in H. subst. rewrite map_length. reflexivity. Qed.

Lemma sequence_nth {X} (l : list (option X)) r k (d : X) :
  sequence l = Some r -> (k < length l)%nat -> nth_error l k = Some (Some (nth k r d)).
Proof.
  intros H Hk. apply sequence_spec in H. subst. rewrite map_length in Hk.
  rewrite nth_error_map. rewrite (nth_error_nth' r d) by exact Hk. reflexivity.
Qed.

Lemma nth_map_seq {X} (f : nat -> X) n k d : (k < n)%nat -> nth k (map f (seq 0 n)) d = f k.
Proof.
  intros H. rewrite (nth_indep _ d (f 0%nat)) by (rewrite map_length, seq_length; exact H).
  rewrite map_nth, seq_nth by exact H. reflexivity.
Qed.

Lemma sequence_map_seq {X} (f : nat -> option X) n r k d :
  sequence (map f (seq 0 n)) = Some r -> (k < n)%nat -> f k = Some (nth k r d).
Proof.
  intros H Hk. assert (E := sequence_nth _ _ k d H). rewrite map_length, seq_length in E. specialize (E Hk).
  rewrite (nth_error_nth' _ (f 0%nat)) in E by (rewrite map_length, seq_length; exact Hk).
  injection E as E. rewrite map_nth, seq_nth in E by exact Hk. exact E.
Qed.

(** ** Survey area *)

(** All active coordinates along [d]. *)
Definition active (d : nat) (locs : list (option loct)) : list Z :=
  flat_map (dim_locs d) (present locs).

Lemma dim_locs_In d l x :
  In x (dim_locs d l) <-> exists ps p, In ps (lt_data l) /\ In p ps /\ coord d p = x /\ x <> IGNORE.
Proof.
  unfold dim_locs. rewrite filter_In, in_map_iff. split.
  - intros [(p & E & Hp) Hx]. apply in_concat in Hp. destruct Hp as (ps & H1 & H2).
    exists ps, p. repeat split; auto. intros ->. rewrite Z.eqb_refl in Hx. discriminate.
  - intros (ps & p & H1 & H2 & E & Hx). split.
    + exists p. split; [exact E|]. apply in_concat. eauto.
    + apply negb_true_iff, Z.eqb_neq. exact Hx.
Qed.

Lemma present_In {X} (l : list (option X)) x : In x (present l) <-> In (Some x) l.
Proof.
  unfold present. rewrite in_flat_map. split.
  - intros ([y|] & H & Hx); [|contradiction]. destruct Hx as [->|[]]. exact H.
  - intros H. exists (Some x). cbn. auto.
Qed.

Lemma one_side_left_fold pad d n ls e r :
  fold_left (one_side_step pad true d n) ls (Some e) = Some r ->
  r <= e /\ (forall x, In x (flat_map (dim_locs d) ls) -> 0 <= x < n /\ r <= x - pad) /\
  (r = e \/ exists x, In x (flat_map (dim_locs d) ls) /\ r = x - pad).
Proof.
  revert e; induction ls as [|l ls IH]; intros e; cbn [fold_left flat_map].
  - intros H. injection H as <-. split; [lia|]. split; [intros x []|auto].
  - unfold one_side_step at 2.
    destruct (lmin (dim_locs d l)) as [a|] eqn:Ea; destruct (lmax (dim_locs d l)) as [b|] eqn:Eb.
    + destruct ((a <? 0) || (n <=? b)) eqn:Ec.
      { intros H. exfalso. clear - H. induction ls; cbn in H; [discriminate|auto]. }
      apply orb_false_iff in Ec. destruct Ec as [Ec1 Ec2]. apply Z.ltb_ge in Ec1. apply Z.leb_gt in Ec2.
      apply lmin_spec in Ea. apply lmax_spec in Eb. intros H. apply IH in H. destruct H as (H1 & H2 & H3).
      split; [lia|]. split.
      * intros x Hx. apply in_app_iff in Hx. destruct Hx as [Hx|Hx]; [|auto].
        destruct Ea as [_ Ea]. destruct Eb as [_ Eb]. specialize (Ea x Hx). specialize (Eb x Hx). lia.
      * destruct H3 as [H3|(x & Hx & E)].
        -- destruct (Z.min_spec e (a - pad)) as [[_ E]|[_ E]]; [left; lia|right].
           exists a. split; [apply in_app_iff; left; tauto|lia].
        -- right. exists x. rewrite in_app_iff. auto.
    + destruct (dim_locs d l); discriminate.
    + destruct (dim_locs d l); discriminate.
    + assert (dim_locs d l = []) as -> by (destruct (dim_locs d l); [reflexivity|discriminate]).
      cbn. apply IH.
Qed.

Lemma one_side_right_fold pad d n ls e r :
  fold_left (one_side_step pad false d n) ls (Some e) = Some r ->
  e <= r /\ (forall x, In x (flat_map (dim_locs d) ls) -> 0 <= x < n /\ x + pad <= r) /\
  (r = e \/ exists x, In x (flat_map (dim_locs d) ls) /\ r = x + pad).
Proof.
  revert e; induction ls as [|l ls IH]; intros e; cbn [fold_left flat_map].
  - intros H. injection H as <-. split; [lia|]. split; [intros x []|auto].
  - unfold one_side_step at 2.
    destruct (lmin (dim_locs d l)) as [a|] eqn:Ea; destruct (lmax (dim_locs d l)) as [b|] eqn:Eb.
    + destruct ((a <? 0) || (n <=? b)) eqn:Ec.
      { intros H. exfalso. clear - H. induction ls; cbn in H; [discriminate|auto]. }
      apply orb_false_iff in Ec. destruct Ec as [Ec1 Ec2]. apply Z.ltb_ge in Ec1. apply Z.leb_gt in Ec2.
      apply lmin_spec in Ea. apply lmax_spec in Eb. intros H. apply IH in H. destruct H as (H1 & H2 & H3).
      split; [lia|]. split.
      * intros x Hx. apply in_app_iff in Hx. destruct Hx as [Hx|Hx]; [|auto].
        destruct Ea as [_ Ea]. destruct Eb as [_ Eb]. specialize (Ea x Hx). specialize (Eb x Hx). lia.
      * destruct H3 as [H3|(x & Hx & E)].
        -- destruct (Z.max_spec e (b + pad)) as [[_ E]|[_ E]]; [right|left; lia].
           exists b. split; [apply in_app_iff; left; tauto|lia].
        -- right. exists x. rewrite in_app_iff. auto.
    + destruct (dim_locs d l); discriminate.
    + destruct (dim_locs d l); discriminate.
    + assert (dim_locs d l = []) as -> by (destruct (dim_locs d l); [reflexivity|discriminate]).
      cbn. apply IH.
Qed.

(** What [survey_pad] says about side [k] ([2d] before, [2d+1] after): [None] (to the edge of
    the model) or a number of cells. *)
Definition sp_side (sp : survey_pad) (k : nat) : option Z :=
  match sp with
  | SPnone => None
  | SPint n => Some n
  | SPlist l => nth k l None
  end.

Lemma set_survey_pad_spec sp nd pads :
  set_survey_pad sp nd = Some pads ->
  length pads = (2 * nd)%nat /\
  forall k, (k < 2 * nd)%nat ->
    match sp_side sp k with
    | Some n => 0 <= n /\ nth k pads 0 = n
    | None => nth k pads 0 < 0
    end.
Proof.
  unfold set_survey_pad. destruct (Nat.eqb_spec nd 0); [discriminate|].
  destruct sp as [|m|l].
  - rewrite repeat_length, Nat.eqb_refl. intros H. injection H as <-. split; [apply repeat_length|].
    intros k Hk. cbn [sp_side]. rewrite (nth_indep _ 0 (-1)) by (rewrite repeat_length; exact Hk).
    rewrite nth_repeat. lia.
  - destruct (Z.ltb_spec m 0); [discriminate|]. rewrite repeat_length, Nat.eqb_refl. intros E. injection E as <-.
    split; [apply repeat_length|]. intros k Hk. cbn [sp_side].
    rewrite (nth_indep _ 0 m) by (rewrite repeat_length; exact Hk). rewrite nth_repeat. lia.
  - destruct (forallb _ l) eqn:Ef; [|discriminate]. rewrite map_length.
    destruct (Nat.eqb_spec (length l) (2 * nd)) as [El|]; [|discriminate]. intros H. injection H as <-.
    split; [rewrite map_length; exact El|]. intros k Hk. cbn [sp_side].
    rewrite (nth_indep _ 0 (-1)) by (rewrite map_length, El; exact Hk).
    rewrite (map_nth (fun o : option Z => match o with Some n => n | None => -1 end) l None). rewrite forallb_forall in Ef. specialize (Ef (nth k l None)).
    destruct (nth k l None) eqn:En; [|lia]. split; [|reflexivity].
    rewrite <- Z.leb_le. apply Ef. rewrite <- En. apply nth_In. lia.
Qed.

Definition side_left_ok (o : option Z) (xs : list Z) (n l : Z) : Prop :=
  match o with
  | None => l = 0
  | Some p => (forall x, In x xs -> l <= Z.max 0 (x - p)) /\ exists x, In x xs /\ l = Z.max 0 (x - p)
  end.
Definition side_right_ok (o : option Z) (xs : list Z) (n r : Z) : Prop :=
  match o with
  | None => r = n
  | Some p => (forall x, In x xs -> Z.min n (x + p + 1) <= r) /\ exists x, In x xs /\ r = Z.min n (x + p + 1)
  end.

Lemma extents_spec shape locs sp E :
  get_survey_extents_from_locations shape locs sp = Some E ->
  length E = length shape /\
  forall d, (d < length shape)%nat ->
    let n := nth d shape 0 in
    let l := fst (nth d E (0, 0)) in
    let r := snd (nth d E (0, 0)) in
    0 < n /\ 0 <= l <= n /\ 0 <= r <= n /\
    (present locs = [] -> l = 0 /\ r = n) /\
    (sp_side sp (2 * d) = None -> l = 0) /\ (sp_side sp (2 * d + 1) = None -> r = n) /\
    (active d locs <> [] ->
       side_left_ok (sp_side sp (2 * d)) (active d locs) n l /\
       side_right_ok (sp_side sp (2 * d + 1)) (active d locs) n r).
Proof.
  unfold get_survey_extents_from_locations.
  destruct ((length shape =? 0)%nat || negb (forallb _ shape)) eqn:Es; [discriminate|].
  apply orb_false_iff in Es. destruct Es as [Es1 Es2]. apply negb_false_iff in Es2. rewrite forallb_forall in Es2.
  destruct (set_survey_pad sp (length shape)) as [pads|] eqn:Ep; [|discriminate].
  apply set_survey_pad_spec in Ep. destruct Ep as [Lp Ep]. intros H.
  split. { apply sequence_length in H. rewrite map_length, seq_length in H. exact H. }
  intros d Hd. cbv zeta. pose proof (sequence_map_seq _ _ _ d (0, 0) H Hd) as F. clear H. cbv beta in F.
  assert (Hn : 0 < nth d shape 0) by (apply Z.ltb_lt, Es2, nth_In; exact Hd).
  set (n := nth d shape 0) in *.
  destruct (get_survey_extents_one_side (nth (2 * d) pads 0) true d locs n) as [l|] eqn:El; [|discriminate].
  destruct (get_survey_extents_one_side (nth (2 * d + 1) pads 0) false d locs n) as [r|] eqn:Er; [|discriminate].
  injection F as F. rewrite <- F. cbn [fst snd].
  pose proof (Ep (2 * d)%nat ltac:(lia)) as E1. pose proof (Ep (2 * d + 1)%nat ltac:(lia)) as E2.
  set (pl := nth (2 * d) pads 0) in *. set (pr := nth (2 * d + 1) pads 0) in *.
  clearbody pl pr. clear F Ep.
  assert (HL : 0 <= l <= n /\ (present locs = [] -> l = 0) /\ (sp_side sp (2 * d) = None -> l = 0) /\
      (active d locs <> [] -> side_left_ok (sp_side sp (2 * d)) (active d locs) n l)).
  { unfold get_survey_extents_one_side in El. destruct (Z.ltb_spec pl 0) as [Hp|Hp]; cbn [orb] in El.
    - injection El as <-. split; [lia|]. split; [reflexivity|]. split; [reflexivity|]. intros _.
      destruct (sp_side sp (2 * d)); [lia|]. cbn. reflexivity.
    - destruct (sp_side sp (2 * d)) as [p|]; [|lia]. destruct E1 as [_ <-].
      destruct (Nat.eqb_spec (length (present locs)) 0) as [H0|H0].
      + injection El as <-. split; [lia|]. split; [reflexivity|]. split; [reflexivity|].
        intros Ha. exfalso. apply Ha. unfold active. destruct (present locs); [reflexivity|discriminate].
      + destruct (fold_left _ _ _) as [e|] eqn:Ee; [|discriminate]. injection El as <-.
        apply one_side_left_fold in Ee. destruct Ee as (G1 & G2 & G3).
        split; [lia|]. split; [intros X; rewrite X in H0; cbn in H0; congruence|]. split; [discriminate|].
        intros Ha. fold (active d locs) in G2, G3. cbn [side_left_ok]. split.
        * intros x Hx. specialize (G2 x Hx). lia.
        * destruct G3 as [G3|(x & Hx & Gx)].
          -- destruct (active d locs) as [|x xs] eqn:Ea; [congruence|]. exists x. split; [left; reflexivity|].
             specialize (G2 x (or_introl eq_refl)). lia.
          -- exists x. split; [exact Hx|]. specialize (G2 x Hx). lia. }
  assert (HR : 0 <= r <= n /\ (present locs = [] -> r = n) /\ (sp_side sp (2 * d + 1) = None -> r = n) /\
      (active d locs <> [] -> side_right_ok (sp_side sp (2 * d + 1)) (active d locs) n r)).
  { unfold get_survey_extents_one_side in Er. destruct (Z.ltb_spec pr 0) as [Hp|Hp]; cbn [orb] in Er.
    - injection Er as <-. split; [lia|]. split; [reflexivity|]. split; [reflexivity|]. intros _.
      destruct (sp_side sp (2 * d + 1)); [lia|]. cbn. reflexivity.
    - destruct (sp_side sp (2 * d + 1)) as [p|]; [|lia]. destruct E2 as [_ <-].
      destruct (Nat.eqb_spec (length (present locs)) 0) as [H0|H0].
      + injection Er as <-. split; [lia|]. split; [reflexivity|]. split; [reflexivity|].
        intros Ha. exfalso. apply Ha. unfold active. destruct (present locs); [reflexivity|discriminate].
      + destruct (fold_left _ _ _) as [e|] eqn:Ee; [|discriminate]. injection Er as <-.
        apply one_side_right_fold in Ee. destruct Ee as (G1 & G2 & G3).
        split; [lia|]. split; [intros X; rewrite X in H0; cbn in H0; congruence|]. split; [discriminate|].
        intros Ha. fold (active d locs) in G2, G3. cbn [side_right_ok]. split.
        * intros x Hx. specialize (G2 x Hx). lia.
        * destruct G3 as [G3|(x & Hx & Gx)].
          -- destruct (active d locs) as [|x xs] eqn:Ea; [congruence|]. exists x. split; [left; reflexivity|].
             specialize (G2 x (or_introl eq_refl)). lia.
          -- exists x. split; [exact Hx|]. specialize (G2 x Hx). lia. }
  tauto.
Qed.

(** ** Indices *)

Lemma strides_length s : length (strides s) = length s.
Proof.
  induction s as [|n s IH]; cbn; [reflexivity|]. destruct (strides s); cbn in *; lia.
Qed.

Lemma strides_hd n s : nth 0 (strides (n :: s)) 0 = prodZ s.
Proof.
  revert n; induction s as [|m s IH]; intros n; [reflexivity|].
  specialize (IH m). cbn [strides hd] in *. fold (strides (m :: s)).
  change (match strides s with [] => [1] | t :: r => t * hd 0 s :: t :: r end) with (strides (m :: s)) in *.
  destruct (strides (m :: s)) as [|t r] eqn:E.
  - apply (f_equal (@length Z)) in E. rewrite strides_length in E. discriminate.
  - cbn in IH |- *. subst t. lia.
Qed.

Lemma strides_tl n s d : nth (S d) (strides (n :: s)) 0 = nth d (strides s) 0.
Proof.
  destruct s as [|m s]; [destruct d; reflexivity|].
  cbn [strides]. change (match strides s with [] => [1] | t :: r => t * hd 0 s :: t :: r end) with (strides (m :: s)).
  destruct (strides (m :: s)) as [|t r] eqn:E; [|reflexivity].
  apply (f_equal (@length Z)) in E. rewrite strides_length in E. discriminate.
Qed.

Lemma fold_add (g : nat -> Z) l b : fold_left (fun a d => a + g d) l b = b + fold_left (fun a d => a + g d) l 0.
Proof.
  revert b; induction l as [|x l IH]; intros b; cbn; [lia|]. rewrite IH, (IH (0 + g x)). lia.
Qed.

Lemma fold_add_ext (g h : nat -> Z) l b :
  (forall d, In d l -> g d = h d) -> fold_left (fun a d => a + g d) l b = fold_left (fun a d => a + h d) l b.
Proof.
  revert b; induction l as [|x l IH]; intros b H; cbn; [reflexivity|].
  rewrite (H x) by (left; reflexivity). apply IH. intros d Hd. apply H. right. exact Hd.
Qed.

Lemma fold_add_S (g : nat -> Z) k n b :
  fold_left (fun a d => a + g d) (seq (S k) n) b = fold_left (fun a d => a + g (S d)) (seq k n) b.
Proof. revert k b; induction n as [|n IH]; intros k b; cbn; [reflexivity|]. apply IH. Qed.

Lemma idx_sum s p :
  length p = length s ->
  idx s p = fold_left (fun a d => a + coord d p * nth d (strides s) 0) (seq 0 (length s)) 0.
Proof.
  revert p; induction s as [|n s IH]; intros [|x p] H; try discriminate; [reflexivity|].
  cbn [idx length seq fold_left]. rewrite fold_add_S, fold_add.
  rewrite strides_hd. rewrite (fold_add_ext _ (fun d => coord d p * nth d (strides s) 0)).
  - rewrite <- IH by (cbn in H; lia). unfold coord. cbn [nth]. lia.
  - intros d _. rewrite strides_tl. reflexivity.
Qed.

(** Position in the padded array of the model cell [p]. *)
Definition rel (E : list (Z * Z)) (pad : list Z) (p : pt) : pt :=
  map (fun d => coord d p - fst (nth d E (0, 0)) + nth (2 * d) pad 0) (seq 0 (length E)).

Lemma coord_map_seq (f : nat -> Z) n d : (d < n)%nat -> coord d (map f (seq 0 n)) = f d.
Proof. apply nth_map_seq. Qed.

Lemma rel_length E pad p : length (rel E pad p) = length E.
Proof. unfold rel. rewrite map_length, seq_length. reflexivity. Qed.

Lemma padded_shape_length E pad : length (padded_shape E pad) = length E.
Proof. unfold padded_shape. rewrite map_length, seq_length. reflexivity. Qed.

Lemma to_1d_active E pad p :
  (0 < length E)%nat ->
  (forall d, (d < length E)%nat -> coord d p <> IGNORE /\
     IGNORE < coord d p - fst (nth d E (0, 0)) + nth (2 * d) pad 0) ->
  to_1d (origin_of E pad) (strides (padded_shape E pad)) (length E) p = idx (padded_shape E pad) (rel E pad p).
Proof.
  intros Hn H. rewrite idx_sum by (rewrite rel_length, padded_shape_length; reflexivity).
  rewrite padded_shape_length. unfold to_1d. cbv zeta.
  assert (Hc : forall d, (d < length E)%nat ->
    coord d (map (fun d0 : nat => if coord d0 p =? IGNORE then IGNORE else coord d0 p - nth d0 (origin_of E pad) 0) (seq 0 (length E)))
    = coord d (rel E pad p) /\ coord d (rel E pad p) <> IGNORE).
  { intros d Hd. rewrite coord_map_seq by exact Hd. unfold rel. rewrite coord_map_seq by exact Hd.
    unfold origin_of. rewrite nth_map_seq by exact Hd. destruct (H d Hd) as [H1 H2].
    destruct (Z.eqb_spec (coord d p) IGNORE); [contradiction|]. split; lia. }
  set (sh := map _ _) in *. destruct (Hc 0%nat Hn) as [E0 E1]. rewrite E0.
  destruct (Z.eqb_spec (coord 0 (rel E pad p)) IGNORE); [contradiction|].
  apply fold_add_ext. intros d Hd. apply in_seq in Hd. destruct (Hc d ltac:(lia)) as [F0 F1]. rewrite F0.
  destruct (Z.eqb_spec (coord d (rel E pad p)) IGNORE); [contradiction|reflexivity].
Qed.

Lemma to_1d_ignored origin strd nd p :
  (0 < nd)%nat -> (forall d, (d < nd)%nat -> coord d p = IGNORE) -> to_1d origin strd nd p = IGNORE.
Proof.
  intros Hn H. unfold to_1d. cbv zeta.
  assert (Hc : forall d, (d < nd)%nat ->
    coord d (map (fun d0 : nat => if coord d0 p =? IGNORE then IGNORE else coord d0 p - nth d0 origin 0) (seq 0 nd)) = IGNORE).
  { intros d Hd. rewrite coord_map_seq by exact Hd. rewrite (H d Hd), Z.eqb_refl. reflexivity. }
  set (sh := map _ _) in *. rewrite (Hc 0%nat Hn), Z.eqb_refl.
  rewrite (fold_add_ext _ (fun _ => 0)).
  - rewrite fold_add. assert (forall l, fold_left (fun (a : Z) (_ : nat) => a + 0) l 0 = 0) as ->; [|lia].
    intros l. induction l; cbn; auto.
  - intros d Hd. apply in_seq in Hd. rewrite (Hc d) by lia. rewrite Z.eqb_refl. reflexivity.
Qed.

(** ** Models *)

Lemma flat2_length {X} (f g : nat -> X) l : length (flat_map (fun d => [f d; g d]) l) = (2 * length l)%nat.
Proof. induction l; cbn in *; lia. Qed.

Lemma flat2_nth0 {X} (f g : nat -> X) l j x :
  (j < length l)%nat -> nth (2 * j) (flat_map (fun d => [f d; g d]) l) x = f (nth j l 0%nat).
Proof.
  revert j; induction l as [|d l IH]; intros [|j] H; cbn [length] in H; try lia; [reflexivity|].
  replace (2 * S j)%nat with (S (S (2 * j))) by lia. cbn [flat_map app nth]. apply IH. lia.
Qed.

Lemma flat2_nth1 {X} (f g : nat -> X) l j x :
  (j < length l)%nat -> nth (2 * j + 1) (flat_map (fun d => [f d; g d]) l) x = g (nth j l 0%nat).
Proof.
  revert j; induction l as [|d l IH]; intros [|j] H; cbn [length] in H; try lia; [reflexivity|].
  replace (2 * S j + 1)%nat with (S (S (2 * j + 1))) by lia. cbn [flat_map app nth]. apply IH. lia.
Qed.

Lemma pad_of_reverse nd pad d :
  length pad = (2 * nd)%nat -> (d < nd)%nat ->
  pad_of (S nd) (reverse_pad pad) (S d) = (nth (2 * d) pad 0, nth (2 * d + 1) pad 0).
Proof.
  intros Hp Hd. unfold pad_of, reverse_pad. cbv zeta.
  assert (Hq : (length pad / 2 = nd)%nat) by (rewrite Hp, Nat.mul_comm; apply Nat.div_mul; lia). rewrite Hq.
  rewrite flat2_length, rev_length, seq_length.
  replace (S nd - 1 - S d)%nat with (nd - 1 - d)%nat by lia.
  destruct (Nat.ltb_spec (2 * (nd - 1 - d) + 1) (2 * nd)); [|lia].
  rewrite flat2_nth0, flat2_nth1 by (rewrite rev_length, seq_length; lia).
  rewrite rev_nth by (rewrite seq_length; lia). rewrite seq_length, seq_nth by lia.
  replace (0 + (nd - S (nd - 1 - d)))%nat with d by lia. reflexivity.
Qed.

Lemma pad_of_batch nd pad :
  length pad = (2 * nd)%nat -> pad_of (S nd) (reverse_pad pad) 0 = (0, 0).
Proof.
  intros Hp. unfold pad_of, reverse_pad. cbv zeta.
  assert (Hq : (length pad / 2 = nd)%nat) by (rewrite Hp, Nat.mul_comm; apply Nat.div_mul; lia). rewrite Hq.
  rewrite flat2_length, rev_length, seq_length.
  destruct (Nat.ltb_spec (2 * (S nd - 1 - 0) + 1) (2 * nd)); [lia|reflexivity].
Qed.

(** The extents lie inside the model. *)
Definition ext_in (E : list (Z * Z)) (shape : list Z) : Prop :=
  length E = length shape /\
  forall d, (d < length E)%nat -> 0 <= fst (nth d E (0, 0)) <= snd (nth d E (0, 0)) /\
                                  snd (nth d E (0, 0)) <= nth d shape 0.

Lemma slice_ix_id n i : 0 <= i <= n -> slice_ix n i = i.
Proof. intros H. unfold slice_ix. destruct (Z.ltb_spec i 0); lia. Qed.

Lemma slice_shape_ext s E :
  ext_in E s -> slice_shape s (map Some E) = map (fun e => snd e - fst e) E.
Proof.
  revert E; induction s as [|n s IH]; intros [|[b e] E] [HL H]; try discriminate; [reflexivity|].
  cbn. pose proof (H 0%nat ltac:(cbn; lia)) as H0. cbn in H0.
  rewrite !slice_ix_id by lia. f_equal; [lia|]. apply IH. split; [cbn in HL; lia|].
  intros d Hd. apply (H (S d)). cbn. lia.
Qed.

Lemma slice_pt_ext s E q :
  ext_in E s -> length q = length E ->
  slice_pt s (map Some E) q = map (fun d => coord d q + fst (nth d E (0, 0))) (seq 0 (length E)).
Proof.
  revert E q; induction s as [|n s IH]; intros [|[b e] E] [|x q] [HL H] Hq; try discriminate; [reflexivity|].
  cbn [map slice_pt length seq]. pose proof (H 0%nat ltac:(cbn; lia)) as H0. cbn in H0.
  rewrite !slice_ix_id by lia. f_equal. rewrite IH.
  - rewrite <- seq_shift, map_map. reflexivity.
  - split; [cbn in HL; lia|]. intros d Hd. apply (H (S d)). cbn. lia.
  - cbn in Hq. lia.
Qed.

(** Value of a model (with or without batch dimension) for shot [b] at cell [p]. *)
Definition mval {X} (nd : nat) (m : tens X) (b : Z) (p : pt) : X :=
  if (length (t_shape m) =? nd)%nat then t_at m p else t_at m (b :: p).
Definition mbatch {X} (nd : nat) (m : tens X) : Z :=
  if (length (t_shape m) =? nd)%nat then 1 else hd 0 (t_shape m).

(** Model cell under the padded cell [q]. *)
Definition under (E : list (Z * Z)) (pad : list Z) (q : pt) : pt :=
  map (fun d => coord d q - nth (2 * d) pad 0 + fst (nth d E (0, 0))) (seq 0 (length E)).
Definition nearest (E : list (Z * Z)) (p : pt) : pt :=
  map (fun d => clampZ (coord d p) (fst (nth d E (0, 0))) (snd (nth d E (0, 0)) - 1)) (seq 0 (length E)).

Lemma map_nth_seq (f : Z * Z -> Z) E : map f E = map (fun d => f (nth d E (0, 0))) (seq 0 (length E)).
Proof.
  apply (nth_ext _ _ (f (0, 0)) (f (0, 0))); [rewrite !map_length, seq_length; reflexivity|].
  intros k Hk. rewrite map_length in Hk. rewrite map_nth. rewrite nth_map_seq by exact Hk. reflexivity.
Qed.

Lemma last_n_self {X} n (l : list X) : length l = n -> last_n n l = l.
Proof. intros <-. unfold last_n. rewrite Nat.sub_diag. reflexivity. Qed.

Lemma pad_slice_spec {X} (z : X) (m : tens X) E pad mode nd m' :
  length pad = (2 * nd)%nat -> length E = nd -> (0 < nd)%nat ->
  length (t_shape m) = S nd -> ext_in E (tl (t_shape m)) ->
  tpad z mode (reverse_pad pad) (tslice m (None :: map Some E)) = Some m' ->
  t_shape m' = hd 0 (t_shape m) :: padded_shape E pad /\
  forall b q, 0 <= b < hd 0 (t_shape m) -> length q = nd ->
    t_at m' (b :: q) =
      match mode with
      | Replicate => t_at m (b :: nearest E (under E pad q))
      | Constant => if inb E (under E pad q) then t_at m (b :: under E pad q) else z
      end.
Proof.
  intros Hp HE Hnd Hm Hext.
  destruct m as [sh at_]. cbn [t_shape t_at] in *. destruct sh as [|nb s]; [discriminate|]. cbn [tl hd] in *.
  assert (Ls : length s = nd) by (cbn in Hm; lia).
  unfold tpad, tslice. cbn [t_shape t_at slice_shape].
  rewrite slice_shape_ext by exact Hext. cbn [length]. rewrite map_length, HE.
  assert (Hpd : forall d, (d < nd)%nat -> pad_of (S nd) (reverse_pad pad) (S d) = (nth (2 * d) pad 0, nth (2 * d + 1) pad 0)).
  { intros d Hd. apply pad_of_reverse; assumption. }
  pose proof (pad_of_batch nd pad Hp) as Hp0.
  assert (Hsz : forall d, (d < nd)%nat -> nth d (map (fun e : Z * Z => snd e - fst e) E) 0 = snd (nth d E (0, 0)) - fst (nth d E (0, 0))).
  { intros d Hd. rewrite (nth_indep _ 0 (snd (0, 0) - fst (0, 0))) by (rewrite map_length; lia).
    rewrite (map_nth (fun e : Z * Z => snd e - fst e)). reflexivity. }
  assert (Hshape : map (fun d : nat => nth d (nb :: map (fun e : Z * Z => snd e - fst e) E) 0 + fst (pad_of (S nd) (reverse_pad pad) d) + snd (pad_of (S nd) (reverse_pad pad) d)) (seq 0 (S nd)) = nb :: padded_shape E pad).
  { cbn [seq map nth]. rewrite Hp0. cbn [fst snd]. f_equal; [lia|].
    rewrite <- seq_shift, map_map. unfold padded_shape. rewrite HE. apply map_ext_in. intros d Hd.
    apply in_seq in Hd. rewrite Hpd by lia. cbn [fst snd nth]. rewrite Hsz by lia. lia. }
  rewrite Hshape.
  destruct mode.
  - destruct (forallb _ _) eqn:Ef; [|discriminate]. intros H. injection H as <-. cbn [t_shape t_at]. split; [reflexivity|].
    intros b q Hb Hq. f_equal. cbn [seq map]. rewrite Hp0. cbn [fst snd nth].
    unfold coord at 1. cbn [nth]. cbn [slice_pt]. f_equal; [unfold clampZ; lia|].
    rewrite <- seq_shift, map_map. rewrite slice_pt_ext; [|exact Hext|rewrite map_length, seq_length; lia].
    rewrite HE. unfold nearest. rewrite HE. apply map_ext_in. intros d Hd. apply in_seq in Hd.
    rewrite coord_map_seq by lia. unfold under. rewrite HE, coord_map_seq by lia. rewrite Hpd by lia.
    cbn [fst snd]. unfold coord at 1. cbn [nth]. rewrite Hsz by lia. unfold coord, clampZ.
    rewrite forallb_forall in Ef. specialize (Ef (S d)). rewrite Hpd in Ef by lia. cbn [fst snd nth] in Ef.
    rewrite Hsz in Ef by lia. destruct Hext as [_ Hext]. specialize (Hext d ltac:(lia)). lia.
  - intros H. injection H as <-. cbn [t_shape t_at]. split; [reflexivity|].
    intros b q Hb Hq. cbn [seq map]. rewrite Hp0. cbn [fst snd]. rewrite <- seq_shift, map_map.
    set (q' := map (fun x : nat => coord (S x) (b :: q) - fst (pad_of (S nd) (reverse_pad pad) (S x))) (seq 0 nd)).
    assert (Hq' : q' = map (fun d => coord d q - nth (2 * d) pad 0) (seq 0 nd)).
    { apply map_ext_in. intros d Hd. apply in_seq in Hd. rewrite Hpd by lia. reflexivity. }
    unfold abox. change (coord 0 (b :: q)) with b. replace (b - 0) with b by lia. cbn [map inb slice_pt].
    rewrite slice_pt_ext; [|exact Hext|rewrite Hq', map_length, seq_length; lia].
    assert (Hu : map (fun d : nat => coord d q' + fst (nth d E (0, 0))) (seq 0 (length E)) = under E pad q).
    { unfold under. apply map_ext_in. intros d Hd. apply in_seq in Hd. rewrite Hq', coord_map_seq by lia. lia. }
    rewrite Hu. destruct (Z.leb_spec 0 b); [|lia]. destruct (Z.ltb_spec b nb); [|lia]. cbn [andb].
    assert (Hi : inb (map (fun n : Z => (0, n)) (map (fun e : Z * Z => snd e - fst e) E)) q' = inb E (under E pad q)).
    { apply eq_true_iff_eq. change (map (fun n : Z => (0, n)) (map (fun e : Z * Z => snd e - fst e) E)) with (abox (map (fun e : Z * Z => snd e - fst e) E)).
      rewrite inb_abox, inb_spec, map_length, HE. unfold under. rewrite Hq', !map_length, !seq_length, HE.
      split; intros [G1 G2]; (split; [reflexivity|]); intros d Hd; specialize (G2 d Hd);
        rewrite ?Hsz, ?coord_map_seq in * by lia; lia. }
    unfold abox. rewrite Hi. reflexivity.
Qed.

Lemma nth_error_sequence {X} (l : list (option X)) r k x :
  sequence l = Some r -> nth_error r k = Some x -> nth_error l k = Some (Some x).
Proof. intros H Hk. apply sequence_spec in H. subst. rewrite nth_error_map, Hk. reflexivity. Qed.

Lemma extract_models_spec {X} (z : X) models E pad modes nb nd ms shape :
  length pad = (2 * nd)%nat -> (0 < nd)%nat ->
  match models with m0 :: _ => last_n nd (t_shape m0) = shape | [] => True end ->
  ext_in E shape ->
  extract_models z models E pad modes nb = Some ms ->
  length ms = length models /\ length modes = length models /\
  forall k m mode m', nth_error models k = Some m -> nth_error modes k = Some mode -> nth_error ms k = Some m' ->
    (mbatch nd m = 1 \/ mbatch nd m = nb) /\
    t_shape m' = mbatch nd m :: padded_shape E pad /\
    forall b q, 0 <= b < mbatch nd m -> length q = nd ->
      t_at m' (b :: q) =
        match mode with
        | Replicate => mval nd m b (nearest E (under E pad q))
        | Constant => if inb E (under E pad q) then mval nd m b (under E pad q) else z
        end.
Proof.
  intros Hp Hnd Hsh Hext. unfold extract_models. cbv zeta.
  assert (Hq : (length pad / 2 = nd)%nat) by (rewrite Hp, Nat.mul_comm; apply Nat.div_mul; lia). rewrite Hq.
  destruct (Nat.eqb_spec (length models) (length modes)) as [Em|]; [|discriminate].
  destruct (Nat.eqb_spec (length E) nd) as [EE|]; [|discriminate]. cbn [negb orb].
  destruct models as [|m0 models0]; [discriminate|]. remember (m0 :: models0) as models eqn:Emods.
  rewrite Hsh. destruct (forallb _ models) eqn:F1; [|discriminate].
  destruct (forallb _ (map _ models)) eqn:F2; [|discriminate]. intros H.
  split. { apply sequence_length in H. rewrite map_length, combine_length, map_length in H. lia. }
  split; [lia|]. intros k m mode m' Hk1 Hk2 Hk3.
  pose proof (nth_error_sequence _ _ _ _ H Hk3) as G. rewrite nth_error_map in G.
  rewrite forallb_forall in F1, F2.
  specialize (F1 m (nth_error_In _ _ Hk1)). apply andb_true_iff in F1. destruct F1 as [F1a F1b].
  destruct (list_eq_dec Z.eq_dec (last_n nd (t_shape m)) shape) as [F1c|]; [|discriminate].
  set (um := fun m : tens X => if (length (t_shape m) =? nd)%nat then mktens (1 :: t_shape m) (fun p => t_at m (tl p)) else m) in *.
  specialize (F2 (um m) (in_map _ _ _ (nth_error_In _ _ Hk1))).
  assert (Hc : nth_error (combine (map um models) modes) k = Some (um m, mode)).
  { clear - Hk1 Hk2. revert modes k Hk1 Hk2. induction models as [|a l IH]; intros [|b r] [|k] H1 H2; try discriminate.
    - cbn in *. congruence.
    - cbn in *. apply IH; assumption. }
  rewrite Hc in G. cbn [option_map fst snd] in G. injection G as G.
  assert (Hums : length (t_shape (um m)) = S nd /\ tl (t_shape (um m)) = shape /\ hd 0 (t_shape (um m)) = mbatch nd m).
  { unfold um, mbatch. destruct (Nat.eqb_spec (length (t_shape m)) nd) as [El|El]; cbn [t_shape length tl hd].
    - rewrite last_n_self in F1c by exact El. auto.
    - cbn [orb] in F1a. apply Nat.eqb_eq in F1a. split; [lia|]. split; [|reflexivity].
      rewrite <- F1c. unfold last_n. rewrite F1a. replace (nd + 1 - nd)%nat with 1%nat by lia.
      destruct (t_shape m); reflexivity. }
  destruct Hums as (U1 & U2 & U3).
  destruct (pad_slice_spec z (um m) E pad mode nd m' Hp EE Hnd U1) as [P1 P2]; [rewrite U2; exact Hext|exact G|].
  rewrite U3 in *. split.
  { apply orb_true_iff in F2. rewrite !Z.eqb_eq in F2. exact F2. }
  split; [exact P1|]. intros b q Hb Hql. rewrite P2 by assumption.
  assert (V : forall p, t_at (um m) (b :: p) = mval nd m b p).
  { intros p. unfold um, mval. destruct (length (t_shape m) =? nd)%nat; reflexivity. }
  rewrite !V. reflexivity.
Qed.
