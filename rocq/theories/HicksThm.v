(** * Off-grid locations: merging, spreading and gathering. *)
From Coq Require Import List ZArith QArith Qround Lia Bool Permutation.
From Verif Require Import Ops Sums Grid ScalarModel ScalarAdjoint ScalarForward Shots ElasticThm Hicks.
Import ListNotations.
Local Open Scope K_scope.

Lemma NoDup_skipn {A} (l : list A) n : NoDup l -> NoDup (skipn n l).
Proof. revert n. induction l as [|x l IH]; intros [|n] H; cbn; auto. inversion H; auto. Qed.
Lemma In_firstn {A} (x : A) n l : In x (firstn n l) -> In x l.
Proof. revert n. induction l as [|y l IH]; intros [|n]; cbn; try tauto. intros [->|H]; auto. right. exact (IH n H). Qed.
Lemma NoDup_firstn {A} (l : list A) n : NoDup l -> NoDup (firstn n l).
Proof.
  revert n. induction l as [|x l IH]; intros [|n] H; cbn; auto; try constructor; inversion H; subst; auto.
  intros I. apply In_firstn in I. contradiction.
Qed.
Lemma combine_app {A B} (a a' : list A) (b b' : list B) : length a = length b -> combine (a ++ a') (b ++ b') = combine a b ++ combine a' b'.
Proof. revert b. induction a as [|x a IH]; intros [|y b]; cbn; try discriminate; auto. intros H. rewrite IH by lia. reflexivity. Qed.
Lemma combine_map2 {A B C D} (f : A -> C) (g : B -> D) a b :
  combine (map f a) (map g b) = map (fun q => (f (fst q), g (snd q))) (combine a b).
Proof. revert b. induction a as [|x a IH]; intros [|y b]; cbn; auto. rewrite IH. reflexivity. Qed.
Lemma combine_map_l {A B C} (f : A -> C) a (b : list B) : combine (map f a) b = map (fun q => (f (fst q), snd q)) (combine a b).
Proof. revert b. induction a as [|x a IH]; intros [|y b]; cbn; auto. rewrite IH. reflexivity. Qed.
Lemma nth_firstn_lt {A} (d : A) l n k : (k < n)%nat -> nth k (firstn n l) d = nth k l d.
Proof. revert n k. induction l as [|x l IH]; intros [|n] [|k] H; cbn; auto; try lia. apply IH. lia. Qed.
Lemma nth_skipn {A} (d : A) l n k : nth k (skipn n l) d = nth (n + k) l d.
Proof. revert n. induction l as [|x l IH]; intros [|n]; cbn; auto. destruct k; reflexivity. Qed.
Lemma NoDup_combine_fst {A B} (a : list A) (b : list B) : NoDup a -> NoDup (map fst (combine a b)).
Proof.
  intros H. revert b. induction H as [|x a Hx H IH]; intros [|y b]; cbn; try constructor; auto.
  intros I. apply in_map_iff in I. destruct I as ([u v] & E & I). cbn in E. subst. apply in_combine_l in I. contradiction.
Qed.

(** ** Merging of the locations of a shot *)
Section Merge.

Lemma pos_of_some d l i : pos_of d l = Some i -> (i < length d)%nat /\ nth i d (0%Z, 0%Z) = l.
Proof.
  revert i. induction d as [|x d IH]; cbn; intros i; [discriminate|]. destruct (zz_dec x l) as [->|Ne].
  - intros [= <-]. split; [lia|reflexivity].
  - destruct (pos_of d l) as [j|] eqn:E; cbn; [|discriminate]. intros [= <-]. destruct (IH j eq_refl). split; [lia|assumption].
Qed.
Lemma pos_of_none d l : pos_of d l = None -> ~ In l d.
Proof.
  induction d as [|x d IH]; cbn; [tauto|]. destruct (zz_dec x l) as [->|Ne]; [discriminate|].
  destruct (pos_of d l); [discriminate|]. intros _ [->|H]; [contradiction|]. exact (IH eq_refl H).
Qed.

Definition lu (d : list (Z * Z)) (ix : list nat) : list (Z * Z) := map (fun i => nth i d (0%Z, 0%Z)) ix.
Lemma lu_app d e ix : (forall i, In i ix -> (i < length d)%nat) -> lu (d ++ e) ix = lu d ix.
Proof. intros H. apply map_ext_in. intros i Hi. apply app_nth1. apply H, Hi. Qed.

Lemma merge_locs cs : forall d ix, NoDup d -> (forall i, In i ix -> (i < length d)%nat) ->
  exists e ix', fold_left merge_loc cs (d, ix) = (d ++ e, ix ++ ix') /\ NoDup (d ++ e) /\
    (forall i, In i ix' -> (i < length (d ++ e))%nat) /\ lu (d ++ e) ix' = cs /\ (forall l, In l e -> In l cs).
Proof.
  induction cs as [|c cs IH]; intros d ix Hd Hix; cbn [fold_left].
  - exists [], []. rewrite !app_nil_r. repeat split; auto; intros i [].
  - unfold merge_loc at 2. destruct (pos_of d c) as [i|] eqn:E.
    + apply pos_of_some in E. destruct E as [Ei En].
      destruct (IH d (ix ++ [i]) Hd) as (e & ix' & E1 & E2 & E3 & E4 & E5).
      { intros j Hj. apply in_app_iff in Hj. destruct Hj as [Hj|[<-|[]]]; auto. }
      exists e, (i :: ix'). rewrite E1, <- app_assoc. split; [reflexivity|]. split; [exact E2|]. split; [|split].
      * intros j [<-|Hj]; [rewrite app_length; lia|auto].
      * cbn. rewrite app_nth1 by exact Ei. rewrite En. f_equal. exact E4.
      * intros l Hl. right. auto.
    + apply pos_of_none in E.
      destruct (IH (d ++ [c]) (ix ++ [length d])) as (e & ix' & E1 & E2 & E3 & E4 & E5).
      { apply NoDup_app; [exact Hd|repeat constructor; intros []|]. intros x Hx [<-|[]]. contradiction. }
      { intros j Hj. rewrite app_length. cbn. apply in_app_iff in Hj. destruct Hj as [Hj|[<-|[]]]; [apply Hix in Hj|]; lia. }
      exists (c :: e), (length d :: ix'). rewrite E1, <- !app_assoc in *. cbn [app] in *. split; [reflexivity|]. split; [exact E2|].
      split; [|split].
      * intros j [<-|Hj]; [rewrite app_length; cbn; lia|auto].
      * cbn. rewrite app_nth2 by lia. rewrite Nat.sub_diag. cbn. f_equal. exact E4.
      * intros l [<-|Hl]; [left; reflexivity|right; auto].
Qed.

Lemma merge_points css : forall d ixs, NoDup d ->
  exists e ixs', fold_left merge_point css (d, ixs) = (d ++ e, ixs ++ ixs') /\ NoDup (d ++ e) /\
    length ixs' = length css /\ map (lu (d ++ e)) ixs' = css /\
    (forall ix, In ix ixs' -> forall i, In i ix -> (i < length (d ++ e))%nat) /\
    (forall l, In l e -> exists cs, In cs css /\ In l cs).
Proof.
  induction css as [|cs css IH]; intros d ixs Hd; cbn [fold_left].
  - exists [], []. rewrite !app_nil_r. repeat split; auto; intros ix [].
  - unfold merge_point at 2. destruct (merge_locs cs d [] Hd) as (e & ix & E1 & E2 & E3 & E4 & E5); [intros i []|].
    rewrite E1. cbn [app]. destruct (IH (d ++ e) (ixs ++ [ix]) E2) as (e' & ixs' & F1 & F2 & F3 & F4 & F5 & F6).
    exists (e ++ e'), (ix :: ixs'). rewrite F1, <- !app_assoc in *. cbn [app]. split; [reflexivity|]. split; [exact F2|].
    split; [cbn; lia|]. split; [|split].
    + cbn. f_equal; [|exact F4]. rewrite app_assoc. rewrite lu_app by exact E3. exact E4.
    + intros jx [<-|Hj]; [|exact (F5 jx Hj)]. intros i Hi. specialize (E3 i Hi). rewrite app_assoc, app_length. lia.
    + intros l Hl. apply in_app_iff in Hl. destruct Hl as [Hl|Hl].
      * exists cs. split; [left; reflexivity|auto].
      * destruct (F6 l Hl) as (cs' & ? & ?). exists cs'. split; [right; assumption|assumption].
Qed.

Lemma merge_shot_spec (K : ops) (pts : list (pw2 K)) :
  exists d ixs, merge_shot K pts = (d, ixs) /\ NoDup d /\ length ixs = length pts /\
    map (lu d) ixs = map (cells2 K) pts /\ (forall ix, In ix ixs -> forall i, In i ix -> (i < length d)%nat) /\
    (forall l, In l d -> exists p, In p pts /\ In l (cells2 K p)).
Proof.
  unfold merge_shot. destruct (merge_points (map (cells2 K) pts) [] []) as (e & ixs & E1 & E2 & E3 & E4 & E5 & E6); [constructor|].
  exists e, ixs. rewrite E1. cbn [app] in *. split; [reflexivity|]. split; [exact E2|]. rewrite map_length in E3. split; [exact E3|].
  split; [exact E4|]. split; [exact E5|]. intros l Hl. destruct (E6 l Hl) as (cs & Hc & H). apply in_map_iff in Hc.
  destruct Hc as (p & <- & Hp). exists p. auto.
Qed.
End Merge.

(** ** Spreading and gathering in a shot *)
Section Spread.
Variable K : ops.
Hypothesis Kr : is_ring K.
Add Ring KRing : Kr.

(** Cells distinct and as many weights as cells. *)
Definition pw_ok (p : pw2 K) : Prop :=
  NoDup (fst (fst p)) /\ NoDup (fst (snd p)) /\ length (fst (fst p)) = length (snd (fst p)) /\ length (fst (snd p)) = length (snd (snd p)).

Lemma NoDup_cells2 p : pw_ok p -> NoDup (cells2 K p).
Proof.
  intros (H0 & H1 & _). unfold cells2. apply NoDup_flat_map_i; [exact H0| |].
  - intros a _. apply FinFun.Injective_map_NoDup; [|exact H1]. intros x y E. congruence.
  - intros a b x _ _ Ha Hb. apply in_map_iff in Ha. apply in_map_iff in Hb. destruct Ha as (? & <- & _), Hb as (? & E & _). congruence.
Qed.
Lemma cells2_weights2 p : pw_ok p ->
  length (cells2 K p) = length (weights2 K p) /\
  combine (cells2 K p) (weights2 K p)
  = flat_map (fun a => map (fun b => ((fst a, fst b), snd a * snd b)) (combine (fst (snd p)) (snd (snd p)))) (combine (fst (fst p)) (snd (fst p))).
Proof.
  intros (_ & _ & H0 & H1). unfold cells2, weights2. destruct p as [[l0 w0] [l1 w1]]. cbn [fst snd] in *.
  revert w0 H0. induction l0 as [|x l0 IH]; intros [|y w0] H0; cbn in H0; try discriminate; [split; reflexivity|]. cbn [flat_map combine].
  destruct (IH w0) as [V1 V2]; [lia|]. rewrite !app_length, !map_length. split; [lia|].
  rewrite combine_app by (rewrite !map_length; exact H1). rewrite V2. f_equal. rewrite combine_map2. reflexivity.
Qed.

(** [out[ix] += v] without repeated positions. *)
Lemma index_add_nth out ix v k : NoDup ix -> (k < length out)%nat ->
  nth k (index_add K out ix v) 0 = nth k out 0 + sumf (combine ix v) (fun iv => if (fst iv =? k)%nat then snd iv else 0).
Proof.
  intros Hn Hk. unfold index_add.
  set (G := fun k => fold_left (fun o iv => if (fst iv =? k)%nat then nth k out 0 + snd iv else o) (combine ix v) (nth k out 0)).
  rewrite (nth_indep _ 0 (G 0%nat)) by (rewrite map_length, seq_length; exact Hk). rewrite (map_nth G), seq_nth by exact Hk. cbn [plus]. unfold G. clear G.
  set (z := nth k out 0).
  assert (E : forall l o, NoDup (map fst l) -> (forall q, In q l -> fst q = k -> o = z) ->
    fold_left (fun o (iv : nat * K) => if (fst iv =? k)%nat then z + snd iv else o) l o
    = o + sumf l (fun iv => if (fst iv =? k)%nat then snd iv else 0)).
  { induction l as [|[i y] l IH]; intros o Hl Ho; cbn [fold_left sumf fst snd]; [ring|]. inversion Hl; subst.
    destruct (Nat.eqb_spec i k) as [->|Ne].
    - rewrite IH; [|assumption|].
      + rewrite (Ho (k, y)) by (cbn; auto). ring.
      + intros q Hq E. exfalso. apply H1. rewrite <- E. cbn. apply in_map. exact Hq.
    - rewrite IH; [ring|assumption|]. intros q Hq E. apply (Ho q); [right; exact Hq|exact E]. }
  apply E; [apply NoDup_combine_fst, Hn|]. reflexivity.
Qed.
Lemma index_add_length out ix v : length (index_add K out ix v) = length out.
Proof. unfold index_add. rewrite map_length. apply seq_length. Qed.

Lemma source_shot_spec nh idxs ws (a : list K) : (forall ix, In ix idxs -> NoDup ix) ->
  length (source_shot K nh idxs ws a) = nh /\
  forall k, (k < nh)%nat -> nth k (source_shot K nh idxs ws a) 0
    = sumf (seq 0 (length a)) (fun i => nth i a 0 * sumf (combine (nth i idxs []) (nth i ws [])) (fun iw => if (fst iw =? k)%nat then snd iw else 0)).
Proof.
  intros Hix. unfold source_shot.
  assert (E : forall l out, length out = nh ->
    length (fold_left (fun out i => index_add K out (nth i idxs []) (map (fun w => nth i a 0 * w) (nth i ws []))) l out) = nh /\
    forall k, (k < nh)%nat -> nth k (fold_left (fun out i => index_add K out (nth i idxs []) (map (fun w => nth i a 0 * w) (nth i ws []))) l out) 0
    = nth k out 0 + sumf l (fun i => nth i a 0 * sumf (combine (nth i idxs []) (nth i ws [])) (fun iw => if (fst iw =? k)%nat then snd iw else 0))).
  { induction l as [|i l IH]; intros out Ho; cbn [fold_left sumf]; [split; [exact Ho|intros; ring]|].
    destruct (IH (index_add K out (nth i idxs []) (map (fun w => nth i a 0 * w) (nth i ws [])))) as [V1 V2]; [rewrite index_add_length; exact Ho|].
    split; [exact V1|]. intros k Hk. rewrite V2 by exact Hk. rewrite index_add_nth; [| |rewrite Ho; exact Hk].
    - rewrite <- (map_id (nth i idxs [])) at 1. rewrite combine_map2, (sumf_map K). cbn [fst snd].
      rewrite <- (sumf_scal K Kr _ (nth i a 0)).
      rewrite (sumf_ext K _ (fun a0 : nat * K => if (fst a0 =? k)%nat then nth i a 0 * snd a0 else 0)
        (fun a0 => nth i a 0 * (if (fst a0 =? k)%nat then snd a0 else 0))) by (intros q _; destruct (fst q =? k)%nat; ring).
      ring.
    - destruct (nth_in_or_default i idxs []) as [H| ->]; [apply Hix, H|constructor]. }
  destruct (E (seq 0 (length a)) (repeat 0 nh) (repeat_length _ _)) as [E1 E2]. split; [exact E1|]. intros k Hk. rewrite E2 by exact Hk.
  assert (Z : nth k (repeat (o0 K) nh) 0 = 0) by apply nth_repeat. rewrite Z. ring.
Qed.

Lemma ldot_seq (a b : list K) n : length a = n -> length b = n -> ldot a b = sumf (seq 0 n) (fun i => nth i a 0 * nth i b 0).
Proof.
  revert a b. induction n as [|n IH]; intros [|x a] [|y b] Ha Hb; cbn in Ha, Hb; try discriminate; [reflexivity|].
  unfold ldot in *. cbn [combine sumf seq]. rewrite IH by lia. rewrite <- seq_shift, (sumf_map K). reflexivity.
Qed.
Lemma nth_map_seq {X} (f : nat -> X) n k d : (k < n)%nat -> nth k (map f (seq 0 n)) d = f k.
Proof. intros H. rewrite (nth_indep _ d (f 0%nat)) by (rewrite map_length, seq_length; exact H). rewrite map_nth, seq_nth by exact H. reflexivity. Qed.

(** Spreading and gathering are transposes. *)
Lemma shot_transpose nh idxs ws (a r : list K) : (forall ix, In ix idxs -> NoDup ix /\ forall i, In i ix -> (i < nh)%nat) -> length r = nh ->
  ldot (source_shot K nh idxs ws a) r = ldot a (receiver_shot K (length a) idxs ws r).
Proof.
  intros Hix Hr. destruct (source_shot_spec nh idxs ws a) as [U1 U2]; [intros ix H; apply Hix, H|].
  rewrite (ldot_seq _ r nh) by assumption. rewrite (ldot_seq a _ (length a)) by (try reflexivity; unfold receiver_shot; rewrite map_length, seq_length; reflexivity).
  rewrite (sumf_ext K (seq 0 nh) _ (fun k => sumf (seq 0 (length a)) (fun i => nth i a 0 *
     sumf (combine (nth i idxs []) (nth i ws [])) (fun iw => if (fst iw =? k)%nat then snd iw else 0) * nth k r 0))).
  2:{ intros k Hk. apply in_seq in Hk. rewrite U2 by lia. symmetry. apply (sumf_scal_r K Kr). }
  rewrite (sumf_swap K Kr). apply (sumf_ext K). intros i Hi. apply in_seq in Hi.
  unfold receiver_shot. rewrite nth_map_seq by lia.
  rewrite (sumf_ext K (seq 0 nh) _ (fun k => nth i a 0 * (sumf (combine (nth i idxs []) (nth i ws [])) (fun iw => (if (fst iw =? k)%nat then snd iw else 0) * nth k r 0)))).
  2:{ intros k _. rewrite (sumf_scal_r K Kr). ring. }
  rewrite (sumf_scal K Kr). f_equal. rewrite (sumf_swap K Kr). apply (sumf_ext K). intros [j w] Hj. cbn [fst snd].
  assert (Hj' : (j < nh)%nat).
  { apply in_combine_l in Hj. destruct (nth_in_or_default i idxs []) as [H|E]; [exact (proj2 (Hix _ H) j Hj)|rewrite E in Hj; destruct Hj]. }
  rewrite (sumf_single K Kr (seq 0 nh) j).
  - rewrite Nat.eqb_refl. ring.
  - apply seq_NoDup.
  - apply in_seq. lia.
  - intros k _ Ne. destruct (Nat.eqb_spec j k); [congruence|ring].
Qed.

(** Weight of a point at a cell. *)
Definition wt1 (lw : list Z * list K) (y : Z) : K := sumf (combine (fst lw) (snd lw)) (fun q => if (fst q =? y)%Z then snd q else 0).

Lemma sumf_flat_map' {A B} (f : A -> list B) l (g : B -> K) : sumf (flat_map f l) g = sumf l (fun a => sumf (f a) g).
Proof. induction l as [|a l IH]; cbn; [reflexivity|]. rewrite (sumf_app K Kr), IH. reflexivity. Qed.

Lemma wt2 p c : pw_ok p ->
  sumf (combine (cells2 K p) (weights2 K p)) (fun q => if zz_dec (fst q) c then snd q else 0) = wt1 (fst p) (fst c) * wt1 (snd p) (snd c).
Proof.
  intros Hp. destruct (cells2_weights2 p Hp) as [_ ->]. rewrite sumf_flat_map'. unfold wt1. rewrite <- (sumf_scal_r K Kr).
  apply (sumf_ext K). intros [x u] _. rewrite (sumf_map K). cbn [fst snd]. rewrite <- (sumf_scal K Kr). apply (sumf_ext K).
  intros [y v] _. cbn [fst snd]. destruct c as [cx cy]. cbn [fst snd].
  destruct (zz_dec (x, y) (cx, cy)) as [[= -> ->]|Ne].
  - rewrite !Z.eqb_refl. reflexivity.
  - destruct (Z.eqb_spec x cx), (Z.eqb_spec y cy); subst; try congruence; ring.
Qed.

Section Shot.
Variable pts : list (pw2 K).
Hypothesis Hpts : Forall pw_ok pts.
Variables (d : list (Z * Z)) (ixs : list (list nat)).
Hypothesis E : merge_shot K pts = (d, ixs).
Lemma mspec : NoDup d /\ length ixs = length pts /\
    map (lu d) ixs = map (cells2 K) pts /\ (forall ix, In ix ixs -> forall i, In i ix -> (i < length d)%nat) /\
    (forall l, In l d -> exists p, In p pts /\ In l (cells2 K p)).
Proof. destruct (merge_shot_spec K pts) as (d' & ixs' & E' & H). rewrite E in E'. injection E' as <- <-. exact H. Qed.

Lemma ixs_lu i : lu d (nth i ixs []) = cells2 K (nth i pts (([], []), ([], []))).
Proof.
  destruct mspec as (_ & _ & H & _). change (cells2 K (nth i pts (([], []), ([], [])))) with (cells2 K (nth i pts (([], []), ([], [])))).
  rewrite <- (map_nth (cells2 K)), <- H. change (cells2 K ([], [], ([], []))) with (lu d []). symmetry. apply map_nth.
Qed.
Lemma pts_ok i : pw_ok (nth i pts (([], []), ([], []))).
Proof.
  destruct (nth_in_or_default i pts (([], []), ([], []))) as [H| ->].
  - rewrite Forall_forall in Hpts. apply Hpts, H.
  - repeat split; constructor.
Qed.
Lemma ixs_nodup ix : In ix ixs -> NoDup ix.
Proof.
  intros H. apply In_nth with (d := []) in H. destruct H as (i & _ & <-).
  pose proof (NoDup_cells2 _ (pts_ok i)) as H. rewrite <- ixs_lu in H. apply NoDup_map_inv in H. exact H.
Qed.

Lemma spread_spec n (a : list K) c : c <> (IGNORE, IGNORE) -> (length d <= n)%nat ->
  sumf (combine (pad_locs n d) (source_shot K n ixs (map (weights2 K) pts) a)) (fun q => if zz_dec (fst q) c then snd q else 0)
  = sumf (seq 0 (length a)) (fun i => let p := nth i pts (([], []), ([], [])) in nth i a 0 * (wt1 (fst p) (fst c) * wt1 (snd p) (snd c))).
Proof.
  intros Hc Hn. destruct mspec as (Hd & Hl & Hlu & Hlt & _).
  destruct (source_shot_spec n ixs (map (weights2 K) pts) a ixs_nodup) as [U1 U2].
  assert (Lp : length (pad_locs n d) = n) by (unfold pad_locs; rewrite app_length, repeat_length; lia).
  assert (C : forall (X : list (Z * Z)) (Y : list K) m, length X = m -> length Y = m ->
    sumf (combine X Y) (fun q => if zz_dec (fst q) c then snd q else 0) = sumf (seq 0 m) (fun k => if zz_dec (nth k X (IGNORE, IGNORE)) c then nth k Y 0 else 0)).
  { intros X Y m. revert X Y. induction m as [|m IH]; intros [|x X] [|y Y] HX HY; cbn in HX, HY; try discriminate; [reflexivity|].
    cbn [combine sumf seq fst snd]. rewrite IH by lia. rewrite <- seq_shift, (sumf_map K). reflexivity. }
  rewrite (C _ _ n Lp U1).
  rewrite (sumf_ext K (seq 0 n) _ (fun k => sumf (seq 0 (length a)) (fun i => nth i a 0 *
     (if zz_dec (nth k (pad_locs n d) (IGNORE, IGNORE)) c then sumf (combine (nth i ixs []) (nth i (map (weights2 K) pts) [])) (fun iw => if (fst iw =? k)%nat then snd iw else 0) else 0)))).
  2:{ intros k Hk. apply in_seq in Hk. destruct (zz_dec (nth k (pad_locs n d) (IGNORE, IGNORE)) c); [rewrite U2 by lia; reflexivity|].
      symmetry. apply (sumf_zero K Kr). intros; ring. }
  rewrite (sumf_swap K Kr). apply (sumf_ext K). intros i _. cbn zeta. rewrite (sumf_scal K Kr). f_equal.
  set (p := nth i pts ([], [], ([], []))).
  rewrite <- (wt2 p c) by apply pts_ok. unfold p. rewrite <- ixs_lu.
  replace (nth i (map (weights2 K) pts) []) with (weights2 K (nth i pts ([], [], ([], [])))).
  2:{ symmetry. apply (map_nth (weights2 K) pts ([], [], ([], []))). }
  fold p. set (W := weights2 K p). unfold lu. rewrite combine_map_l, (sumf_map K). cbn [fst snd].
  rewrite (sumf_ext K (seq 0 n) _ (fun k => sumf (combine (nth i ixs []) W) (fun iw => if (fst iw =? k)%nat then (if zz_dec (nth k (pad_locs n d) (IGNORE, IGNORE)) c then snd iw else 0) else 0))).
  2:{ intros k _. destruct (zz_dec (nth k (pad_locs n d) (IGNORE, IGNORE)) c); [reflexivity|].
      symmetry. apply (sumf_zero K Kr). intros q _. destruct (fst q =? k)%nat; reflexivity. }
  rewrite (sumf_swap K Kr). apply (sumf_ext K). intros [j w] Hj. cbn [fst snd].
  assert (Hj' : (j < length d)%nat).
  { apply in_combine_l in Hj. destruct (nth_in_or_default i ixs []) as [H|E0]; [exact (Hlt _ H j Hj)|rewrite E0 in Hj; destruct Hj]. }
  rewrite (sumf_single K Kr (seq 0 n) j).
  - rewrite Nat.eqb_refl. unfold pad_locs. rewrite app_nth1 by exact Hj'. rewrite (nth_indep d (IGNORE, IGNORE) (0%Z, 0%Z)) by exact Hj'. reflexivity.
  - apply seq_NoDup.
  - apply in_seq. lia.
  - intros k _ Ne. destruct (Nat.eqb_spec j k); [congruence|reflexivity].
Qed.

Lemma gather_spec n np (f : Z * Z -> K) i : (i < np)%nat -> (length d <= n)%nat ->
  nth i (receiver_shot K np ixs (map (weights2 K) pts) (map f (pad_locs n d))) 0
  = let p := nth i pts (([], []), ([], [])) in
    sumf (combine (fst (fst p)) (snd (fst p))) (fun a => sumf (combine (fst (snd p)) (snd (snd p))) (fun b => snd a * snd b * f (fst a, fst b))).
Proof.
  intros Hi Hn. cbn zeta. set (p := nth i pts ([], [], ([], []))). destruct mspec as (_ & _ & _ & Hlt & _).
  unfold receiver_shot. rewrite nth_map_seq by exact Hi.
  replace (nth i (map (weights2 K) pts) []) with (weights2 K p).
  2:{ symmetry. apply (map_nth (weights2 K) pts ([], [], ([], []))). }
  transitivity (sumf (combine (cells2 K p) (weights2 K p)) (fun q => snd q * f (fst q))).
  - unfold p. rewrite <- ixs_lu. fold p. set (W := weights2 K p). unfold lu. rewrite combine_map_l, (sumf_map K). cbn [fst snd].
    apply (sumf_ext K). intros [j w] Hj. cbn [fst snd].
    assert (Hj' : (j < length d)%nat).
    { apply in_combine_l in Hj. destruct (nth_in_or_default i ixs []) as [H|E0]; [exact (Hlt _ H j Hj)|rewrite E0 in Hj; destruct Hj]. }
    unfold pad_locs. rewrite map_app, app_nth1 by (rewrite map_length; exact Hj').
    rewrite (nth_indep _ 0 (f (0%Z, 0%Z))) by (rewrite map_length; exact Hj'). rewrite map_nth. ring.
  - destruct (cells2_weights2 p) as [_ ->]; [apply pts_ok|]. rewrite sumf_flat_map'. apply (sumf_ext K). intros a _. rewrite (sumf_map K). reflexivity.
Qed.
End Shot.
End Spread.
