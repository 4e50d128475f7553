(** * The source and receiver kernels on the device. *)
From Coq Require Import List ZArith QArith Lia Bool.
From Verif Require Import Ops Sums Grid Stencil ScalarModel ScalarRefine ScalarForward ScalarBackward ScalarFunc Param ShotsModel Shots Threads GpuModel GpuLaunch GpuFwd.
Import ListNotations.
Local Open Scope K_scope.

Section Locs.
Variable K : ops.
Variable P0 : par K.
Variable NS : Z.
Notation shape := (p_shape P0).
Notation n := (prodZ shape).
Notation run := (run loc_eq).
Variable a : aname.
Variable m : Z.
Variable locs : Z -> Z.
Hypothesis Hm : (0 <= m < 2 ^ 31)%Z.
Hypothesis Hns : (0 <= NS < 2 ^ 31)%Z.
Hypothesis Hlocs : forall j, (0 <= j < NS * m)%Z -> (locs j < n)%Z.
Notation items := (flat_map (fun k => map (pair k) (zrange 0 m)) (zrange 0 NS)).
Lemma In_locs k j : In (k, j) items <-> (0 <= k < NS)%Z /\ (0 <= j < m)%Z.
Proof.
  rewrite in_flat_map. split.
  - intros (k' & Hk & H). apply in_map_iff in H. destruct H as (j' & E & Hj). injection E as -> ->. apply In_zrange in Hk, Hj. lia.
  - intros [Hk Hj]. exists k. split; [apply In_zrange; lia|]. apply in_map_iff. exists j. split; [reflexivity|apply In_zrange; lia].
Qed.
Lemma NoDup_locs : NoDup items.
Proof.
  assert (X : forall ks : list Z, NoDup ks -> NoDup (flat_map (fun k => map (pair k) (zrange 0 m)) ks)).
  { intros ks H. induction H as [|k ks Hk Hks IH]; [constructor|]. cbn. apply NoDup_app; [|exact IH|].
    - apply NoDup_map_inj; [intros; congruence|apply NoDup_zrange].
    - intros [k' j] H1 H2. apply in_map_iff in H1. destruct H1 as (j' & E & _). injection E as -> ->. apply in_flat_map in H2. destruct H2 as (k2 & Hk2 & H2). apply in_map_iff in H2. destruct H2 as (j2 & E & _). injection E as -> ->. contradiction. }
  apply X, NoDup_zrange.
Qed.
Lemma filter_locs k : (0 <= k < NS)%Z -> map snd (filter (fun x => fst x =? k)%Z items) = zrange 0 m.
Proof.
  intros Hk. rewrite (zrange_app 0 k NS) by lia. rewrite (zrange_app k (k + 1) NS) by lia. rewrite !flat_map_app, !filter_app.
  assert (X : forall ks, (forall j, In j ks -> j <> k) -> filter (fun x => fst x =? k)%Z (flat_map (fun k => map (pair k) (zrange 0 m)) ks) = []).
  { induction ks as [|j ks IH]; intros H; [reflexivity|]. cbn [flat_map]. rewrite filter_app, IH by (intros i Hi; apply H; right; exact Hi). rewrite app_nil_r. specialize (H j (or_introl eq_refl)).
    generalize (zrange 0 m) as l. induction l as [|x l IHl]; [reflexivity|]. cbn. destruct (Z.eqb_spec j k); [contradiction|exact IHl]. }
  rewrite (X (zrange 0 k)) by (intros j Hj; apply In_zrange in Hj; lia). rewrite (X (zrange (k + 1) NS)) by (intros j Hj; apply In_zrange in Hj; lia).
  rewrite app_nil_r. cbn [app]. rewrite (zrange_cons k (k + 1)), (zrange_nil (k + 1) (k + 1)) by lia. cbn [flat_map]. rewrite app_nil_r. generalize (zrange 0 m) as l. induction l as [|x l IHl]; [reflexivity|]. cbn. rewrite Z.eqb_refl. cbn. f_equal. exact IHl.
Qed.
Lemma combine_row {A B} (f : Z -> A) (g : Z -> B) k : combine (row f m k) (row g m k) = map (fun j => (f (k * m + j)%Z, g (k * m + j)%Z)) (zrange 0 m).
Proof. unfold row. generalize (zrange 0 m) as l. induction l as [|x l IH]; [reflexivity|]. cbn. f_equal. exact IH. Qed.
Lemma loc_bound k j : (0 <= k < NS)%Z -> (0 <= j < m)%Z -> (locs (k * m + j) < n)%Z.
Proof. intros Hk Hj. apply Hlocs. nia. Qed.

(** Adding amplitudes: the active locations of a shot must differ. *)
Definition aown (kj : Z * Z) (l : loc) : Prop := (0 <= locs (fst kj * m + snd kj))%Z /\ l = (a, fst kj * n + locs (fst kj * m + snd kj))%Z.
Lemma add_foot f kj : foot (fun l => False \/ aown kj l) (aown kj) (add_loc K P0 a m locs f kj).
Proof.
  destruct kj as [k j]. unfold add_loc. destruct (Z.leb_spec 0 (locs (k * m + j))) as [H|H]; [|constructor].
  apply foot_load; [right; split; [exact H|reflexivity]|]. intros x. apply foot_store; [split; [exact H|reflexivity]|constructor].
Qed.
Definition distinct : Prop := forall k j j', (0 <= k < NS)%Z -> (0 <= j < m)%Z -> (0 <= j' < m)%Z -> (0 <= locs (k * m + j))%Z -> locs (k * m + j)%Z = locs (k * m + j')%Z -> j = j'.
Lemma add_launch f M M' : distinct -> kexec K (launch_locs m NS) (add_thread K P0 NS a m locs f) M M' ->
  (forall k i, (0 <= k < NS)%Z -> (0 <= i < n)%Z -> M' (a, k * n + i)%Z = add_to_wavefield K (fun i => M (a, k * n + i)%Z) (row locs m k) (row f m k) i) /\
  (forall l, fst l <> a -> M' l = M l).
Proof.
  intros Hd [_ He].
  assert (E : forall l, M' l = fold_left (fun M it => run (add_loc K P0 a m locs f it) M) items M l).
  { rewrite <- (locs_items m NS Hm Hns). apply (kernel_seq loc_eq (threads (launch_locs m NS)) (items_locs m NS) (add_loc K P0 a m locs f) (fun _ => False) aown).
    - intros it _. apply add_foot.
    - intros it l _ _ [].
    - rewrite (locs_items m NS Hm Hns). apply own_pairs; [apply NoDup_locs|]. intros [k j] [k' j'] Ha Hb N l [A1 A2] [B1 B2]. cbn [fst snd] in *. apply In_locs in Ha, Hb. rewrite A2 in B2. injection B2 as B2.
      destruct (shot_idx K P0 k k' (locs (k * m + j)%Z) (locs (k' * m + j')%Z)) as [<- E]; [split; [exact A1|apply loc_bound; lia]|split; [exact B1|apply loc_bound; lia]|exact B2|].
      apply N. f_equal. apply (Hd k); [apply Ha|apply Ha|apply Hb|exact A1|exact E].
    - exact He. }
  split.
  - pose proof (interleave_inv (fun M it => run (add_loc K P0 a m locs f it) M) (fun k (wf : arr K) j => if (0 <=? locs (k * m + j))%Z then upd wf (locs (k * m + j)%Z) (wf (locs (k * m + j)%Z) + f (k * m + j)%Z) else wf)
       (fun M fam => forall k i, (0 <= k < NS)%Z -> (0 <= i < n)%Z -> M (a, k * n + i)%Z = fam k i) items M (fun k i => M (a, k * n + i)%Z)) as H.
    intros k i Hk Hi. rewrite E. rewrite H; [ | | |reflexivity|exact Hk|exact Hi].
    + rewrite filter_locs by exact Hk. unfold add_to_wavefield. rewrite combine_row. f_equal. generalize (fun i0 : Z => M (a, (k * n + i0)%Z)) as wf. generalize (zrange 0 m) as l. induction l as [|x l IH]; intros wf; [reflexivity|]. cbn. apply IH.
    + intros g fam k' j Hin Hg k2 i2 Hk2 Hi2. apply In_locs in Hin. unfold fset, add_loc. pose proof (loc_bound k' j (proj1 Hin) (proj2 Hin)) as Hb. destruct (Z.leb_spec 0 (locs (k' * m + j))) as [Hp|Hp].
      * cbn [Threads.run]. rewrite put_idx. destruct (Z.eqb_spec k2 k') as [->|N].
        -- unfold upd. destruct (Z.eqb_spec (k' * n + i2) (k' * n + locs (k' * m + j))) as [X|X]; destruct (Z.eqb_spec i2 (locs (k' * m + j))) as [Y|Y]; try lia; [|apply Hg; assumption]. rewrite Hg by (try apply Hin; lia). reflexivity.
        -- destruct (Z.eqb_spec (k2 * n + i2) (k' * n + locs (k' * m + j))) as [X|X]; [|apply Hg; assumption]. destruct (shot_idx K P0 k2 k' i2 (locs (k' * m + j)%Z)) as [-> _]; [lia|lia|exact X|contradiction].
      * cbn [Threads.run]. destruct (Z.eqb_spec k2 k') as [->|N]; apply Hg; assumption.
    + intros g fam fam' Hf Hg k2 i2 Hk2 Hi2. rewrite <- Hf. apply Hg; assumption.
  - intros l Hl. rewrite E. apply (items_keep loc_eq (add_loc K P0 a m locs f) (fun _ => False) aown); [intros it _; apply add_foot|]. intros it _ [_ ->]. apply Hl. reflexivity.
Qed.

(** Recording. *)
Variable t : Z.
Hypothesis Ha : forall s, a <> NAmp s.
Definition rown (kj : Z * Z) (l : loc) : Prop := l = (NAmp t, fst kj * m + snd kj)%Z.
Definition rshared (l : loc) : Prop := fst l = a.
Lemma rec_foot kj : foot (fun l => rshared l \/ rown kj l) (rown kj) (rec_loc K P0 a m locs t kj).
Proof.
  destruct kj as [k j]. unfold rec_loc. destruct (Z.leb_spec 0 (locs (k * m + j))) as [H|H]; [|constructor].
  apply foot_load; [left; reflexivity|]. intros x. apply foot_store; [reflexivity|constructor].
Qed.
Lemma rec_launch M M' : kexec K (launch_locs m NS) (rec_thread K P0 NS a m locs t) M M' ->
  (forall k, (0 <= k < NS)%Z -> row (fun j => M' (NAmp t, j)) m k = record_from_wavefield K (fun i => M (a, k * n + i)%Z) (row locs m k) (row (fun j => M (NAmp t, j)) m k)) /\
  (forall l, fst l <> NAmp t -> M' l = M l).
Proof.
  intros [_ He].
  assert (H1 : forall it, In it items -> foot (fun l => rshared l \/ rown it l) (rown it) (rec_loc K P0 a m locs t it)) by (intros it _; apply rec_foot).
  assert (H2 : forall it l, In it items -> rown it l -> ~ rshared l) by (intros it l _ ->; unfold rshared; cbn; intros E; apply (Ha t); congruence).
  assert (H3 : ForallOrdPairs (fun x y => forall l, rown x l -> ~ rown y l) items).
  { apply own_pairs; [apply NoDup_locs|]. intros [k j] [k' j'] A B N l -> E. unfold rown in E. cbn in E. injection E as E. apply In_locs in A, B. apply N. assert (k = k') by nia. subst k'. f_equal. lia. }
  assert (E : forall l, M' l = fold_left (fun M it => run (rec_loc K P0 a m locs t it) M) items M l).
  { rewrite <- (locs_items m NS Hm Hns) in *. apply (kernel_seq loc_eq (threads (launch_locs m NS)) (items_locs m NS) (rec_loc K P0 a m locs t) rshared rown); assumption. }
  split.
  - intros k Hk. unfold record_from_wavefield. rewrite combine_row, map_map. unfold row. apply map_ext_in. intros j Hj. apply In_zrange in Hj. cbn [fst snd]. rewrite E.
    rewrite (items_item loc_eq (rec_loc K P0 a m locs t) rshared rown items H1 H2 H3 M (k, j)); [|apply In_locs; lia|reflexivity].
    unfold rec_loc. destruct (0 <=? locs (k * m + j))%Z; cbn [Threads.run]; [apply put_eq|reflexivity].
  - intros l Hl. rewrite E. apply (items_keep loc_eq (rec_loc K P0 a m locs t) rshared rown); [exact H1|]. intros it _ ->. apply Hl. reflexivity.
Qed.
End Locs.
