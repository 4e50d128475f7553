(** * Launches of the Born propagator on the device that treat the two wavefields separately. *)
From Coq Require Import List ZArith QArith Lia Bool.
From Verif Require Import Ops Sums Grid Stencil ScalarModel ScalarRefine ScalarForward ScalarBackward ScalarFunc Param ShotsModel Shots Threads GpuModel GpuLaunch GpuFwd GpuLocs BornModel BornGpuModel.
Import ListNotations.
Local Open Scope K_scope.

Section Lift.
Variable K : ops.
Variable P0 : par K.
Variable NS : Z.
Notation fd := (fd_pad (p_acc P0)).
Notation n := (prodZ (p_shape P0)).
Notation mem := (mem nloc K).
Notation run := (run loc_eq).
Notation nrun := (Threads.run nloc_eq).
Notation half := (half K).
Notation lift := (lift K).

Lemma nput_eq (M : mem) l x : put nloc_eq M l x l = x.
Proof. unfold put. destruct (nloc_eq l l); [reflexivity|contradiction]. Qed.
Lemma nput_ne (M : mem) l x l' : l <> l' -> put nloc_eq M l x l' = M l'.
Proof. intros H. unfold put. destruct (nloc_eq l l'); [contradiction|reflexivity]. Qed.
Lemma put_cong (m1 m2 : Threads.mem loc K) l x : (forall l', m1 l' = m2 l') -> forall l', put loc_eq m1 l x l' = put loc_eq m2 l x l'.
Proof. intros E l'. unfold put. destruct (loc_eq l l'); [reflexivity|apply E]. Qed.
Lemma half_put b (M : mem) l x l' : half b (put nloc_eq M (b, l) x) l' = put loc_eq (half b M) l x l'.
Proof.
  unfold half, put. destruct (loc_eq l l') as [<-|N]; destruct (nloc_eq (b, l) (b, _)) as [E|E]; try reflexivity; [contradiction|congruence].
Qed.
Lemma half_put_other b b' (M : mem) l x l' : b <> b' -> half b (put nloc_eq M (b', l) x) l' = half b M l'.
Proof. intros N. unfold half. apply nput_ne. congruence. Qed.

Lemma run_nloads ls : forall (k : list K -> prog nloc K) M, nrun (nloads K ls k) M = nrun (k (map M ls)) M.
Proof. induction ls as [|l ls IH]; intros k M; [reflexivity|]. cbn. rewrite IH. reflexivity. Qed.
Lemma foot_nloads (R W : nloc -> Prop) ls : (forall l, In l ls -> R l) -> forall k : list K -> prog nloc K, (forall xs, foot R W (k xs)) -> foot R W (nloads K ls k).
Proof.
  induction ls as [|l ls IH]; intros Hl k Hk; cbn; [apply Hk|]. constructor; [apply Hl; left; reflexivity|]. intros x. apply IH; [intros l' H'; apply Hl; right; exact H'|]. intros xs. apply Hk.
Qed.
Lemma run_nrd_st b a i s k (M : mem) : exists W, nrun (nrd_st K P0 b a i s k) M = nrun (k W) M /\ forall o, (- fd <= o <= fd)%Z -> W o = half b M (a, i + o * s)%Z.
Proof.
  unfold nrd_st. rewrite run_nloads. eexists. split; [reflexivity|]. intros o Ho. cbn beta. rewrite map_map.
  rewrite (nth_indep _ _ (M (b, (a, i + 0 * s)%Z))) by (rewrite map_length, zrange_length; lia). rewrite (map_nth (fun o => M (b, (a, i + o * s)%Z))). rewrite nth_zrange by lia.
  replace (- fd + Z.of_nat (Z.to_nat (o + fd)))%Z with o by lia. reflexivity.
Qed.
Lemma foot_nrd_st (R W : nloc -> Prop) b a i s (k : (Z -> K) -> prog nloc K) : (forall j, R (b, (a, j))) -> (forall f, foot R W (k f)) -> foot R W (nrd_st K P0 b a i s k).
Proof. intros Ha Hk. apply foot_nloads; [|intros xs; apply Hk]. intros l Hl. apply in_map_iff in Hl. destruct Hl as (o & <- & _). apply Ha. Qed.

(** ** Programs on one wavefield *)
Lemma run_lift b p : forall M : mem, (forall l, half b (nrun (lift b p) M) l = run p (half b M) l) /\ (forall b' l, b' <> b -> half b' (nrun (lift b p) M) l = half b' M l).
Proof.
  induction p as [|l k IH|l x k IH]; intros M; cbn [BornGpuModel.lift Threads.run]; [split; reflexivity|apply IH|].
  destruct (IH (put nloc_eq M (b, l) x)) as [H1 H2]. split.
  - intros l'. rewrite H1. apply (run_ext loc_eq). intros l2. apply half_put.
  - intros b' l' N. rewrite H2 by exact N. apply half_put_other. exact N.
Qed.
Lemma exec_ext ps (m m' : Threads.mem loc K) : exec loc_eq ps m m' -> forall m0, (forall l, m0 l = m l) -> exists m1, exec loc_eq ps m0 m1 /\ forall l, m1 l = m' l.
Proof.
  induction 1 as [ts m Hd|a l k b m m' He IH|a l x k b m m' He IH]; intros m0 E.
  - exists m0. split; [apply exec_done; exact Hd|exact E].
  - destruct (IH m0 E) as (m1 & H1 & H2). exists m1. split; [|exact H2]. apply exec_load. rewrite E. exact H1.
  - destruct (IH (put loc_eq m0 l x)) as (m1 & H1 & H2); [intros l'; unfold put; destruct (loc_eq l l'); [reflexivity|apply E]|].
    exists m1. split; [|exact H2]. apply exec_store. exact H1.
Qed.
Lemma map_mid {A B} (f : A -> B) (l : list A) a x b : map f l = a ++ x :: b -> exists l1 y l2, l = l1 ++ y :: l2 /\ map f l1 = a /\ f y = x /\ map f l2 = b.
Proof.
  revert a. induction l as [|z l IH]; intros a E; [destruct a; discriminate|]. destruct a as [|c a]; cbn in E; injection E as E1 E2.
  - exists [], z, l. auto.
  - destruct (IH a E2) as (l1 & y & l2 & -> & <- & Hy & Hb). exists (z :: l1), y, l2. subst c. auto.
Qed.
Lemma exec_lift b ts (M M' : mem) : exec nloc_eq ts M M' -> forall ps, ts = map (lift b) ps ->
  (exists M1, exec loc_eq ps (half b M) M1 /\ forall l, M1 l = half b M' l) /\ (forall b' l, b' <> b -> half b' M' l = half b' M l).
Proof.
  induction 1 as [ts m Hd|a l k c m m' He IH|a l x k c m m' He IH]; intros ps E.
  - split; [|reflexivity]. exists (half b m). split; [|reflexivity]. apply exec_done. intros p Hp. subst ts. specialize (Hd (lift b p) (in_map _ _ _ Hp)). destruct p; [reflexivity|discriminate|discriminate].
  - symmetry in E. apply map_mid in E. destruct E as (l1 & y & l2 & -> & <- & Hy & <-). destruct y as [|l0 k0|]; try discriminate. cbn in Hy. injection Hy as <- <-.
    destruct (IH (l1 ++ k0 (m (b, l0)) :: l2)) as [(M1 & H1 & H2) H3]; [rewrite map_app; reflexivity|]. split; [|exact H3]. exists M1. split; [|exact H2]. apply exec_load. exact H1.
  - symmetry in E. apply map_mid in E. destruct E as (l1 & y & l2 & -> & <- & Hy & <-). destruct y as [| |l0 x0 k0]; try discriminate. cbn in Hy. injection Hy as <- <- <-.
    destruct (IH (l1 ++ k0 :: l2)) as [(M1 & H1 & H2) H3]; [rewrite map_app; reflexivity|]. split.
    + destruct (exec_ext _ _ _ H1 (put loc_eq (half b m) l0 x0)) as (M2 & H4 & H5); [intros l; symmetry; apply half_put|].
      exists M2. split; [apply exec_store; exact H4|]. intros l. rewrite H5. apply H2.
    + intros b' l N. rewrite H3 by exact N. apply half_put_other. exact N.
Qed.
Lemma lift_launch b L tp (M M' : mem) : nkexec K L (fun th => lift b (tp th)) M M' ->
  (exists M1, kexec K L tp (half b M) M1 /\ forall l, M1 l = half b M' l) /\ (forall b' l, b' <> b -> half b' M' l = half b' M l).
Proof.
  intros [Hv He]. destruct (exec_lift b _ M M' He (map tp (threads L))) as [(M1 & H1 & H2) H3]; [rewrite map_map; reflexivity|].
  split; [|exact H3]. exists M1. split; [split; assumption|exact H2].
Qed.

(** ** Recording and adding *)
Section Locs.
Variables (m : Z) (locs : Z -> Z).
Hypothesis Hm : (0 <= m < 2 ^ 31)%Z.
Hypothesis Hns : (0 <= NS < 2 ^ 31)%Z.
Hypothesis Hlocs : forall j, (0 <= j < NS * m)%Z -> (locs j < n)%Z.
Lemma nrec_launch b a t (M M' : mem) : (forall s, a <> NAmp s) -> (if (0 <? m)%Z then nkexec K (launch_locs m NS) (nrec_thread K P0 NS b a m locs t) M M' else M' = M) ->
  (forall k, (0 <= k < NS)%Z -> row (fun j => half b M' (NAmp t, j)) m k = record_from_wavefield K (fun i => half b M (a, k * n + i)%Z) (row locs m k) (row (fun j => half b M (NAmp t, j)) m k)) /\
  (forall l, fst l <> NAmp t -> half b M' l = half b M l) /\ (forall b' l, b' <> b -> half b' M' l = half b' M l).
Proof.
  intros Ha H. destruct (Z.ltb_spec 0 m) as [Hp|Hp].
  - apply lift_launch in H. destruct H as [(M1 & H1 & H2) H3]. destruct (rec_launch K P0 NS a m locs Hm Hns t Ha _ _ H1) as [R1 R2]. split; [|split; [|exact H3]].
    + intros k Hk. rewrite <- R1 by exact Hk. apply row_ext. intros j Hj. symmetry. apply H2.
    + intros l Hl. rewrite <- H2. apply R2. exact Hl.
  - subst M'. assert (m = 0%Z) by lia. subst m. repeat split; reflexivity.
Qed.
Lemma nadd1_launch b a f (M M' : mem) : distinct NS m locs -> (if (0 <? m)%Z then nkexec K (launch_locs m NS) (nadd1_thread K P0 NS b a m locs f) M M' else M' = M) ->
  (forall k i, (0 <= k < NS)%Z -> (0 <= i < n)%Z -> half b M' (a, k * n + i)%Z = add_to_wavefield K (fun i => half b M (a, k * n + i)%Z) (row locs m k) (row f m k) i) /\
  (forall l, fst l <> a -> half b M' l = half b M l) /\ (forall b' l, b' <> b -> half b' M' l = half b' M l).
Proof.
  intros Hd H. destruct (Z.ltb_spec 0 m) as [Hp|Hp].
  - apply lift_launch in H. destruct H as [(M1 & H1 & H2) H3]. destruct (add_launch K P0 NS a m locs Hm Hns Hlocs f _ _ Hd H1) as [R1 R2]. split; [|split; [|exact H3]].
    + intros k i Hk Hi. rewrite <- R1 by assumption. symmetry. apply H2.
    + intros l Hl. rewrite <- H2. apply R2. exact Hl.
  - subst M'. assert (m = 0%Z) by lia. subst m. repeat split; reflexivity.
Qed.

Notation items := (flat_map (fun k => map (pair k) (zrange 0 m)) (zrange 0 NS)).
Definition naown (a : aname) (kj : Z * Z) (l : nloc) : Prop := aown K P0 a m locs kj (snd l).
Lemma nadd_foot a f fsc kj : foot (fun l => False \/ naown a kj l) (naown a kj) (nadd_loc K P0 m locs a f fsc kj).
Proof.
  destruct kj as [k j]. unfold nadd_loc. destruct (Z.leb_spec 0 (locs (k * m + j))) as [H|H]; [|constructor]. cbv zeta.
  assert (O : forall b, naown a (k, j) (b, (a, (k * n + locs (k * m + j))%Z))) by (intros b; split; [exact H|reflexivity]).
  apply foot_load; [right; apply O|]. intros x. apply foot_store; [apply O|]. apply foot_load; [right; apply O|]. intros y. apply foot_store; [apply O|constructor].
Qed.
Lemma nadd_half a f fsc kj (M : mem) b l : half b (nrun (nadd_loc K P0 m locs a f fsc kj) M) l = run (add_loc K P0 a m locs (if b then fsc else f) kj) (half b M) l.
Proof.
  destruct kj as [k j]. unfold nadd_loc, add_loc. destruct (0 <=? locs (k * m + j))%Z; [|reflexivity]. cbv zeta. cbn [Threads.run].
  destruct b.
  - rewrite half_put. destruct (loc_eq (a, (k * n + locs (k * m + j))%Z) l) as [<-|N].
    + rewrite !put_eq. rewrite nput_ne by discriminate. reflexivity.
    + rewrite !put_ne by exact N. apply half_put_other. discriminate.
  - rewrite half_put_other by discriminate. apply half_put.
Qed.
Lemma nadd_fold a f fsc b its : forall (M : mem) (H : Threads.mem loc K), (forall l, half b M l = H l) -> forall l,
  half b (fold_left (fun M it => nrun (nadd_loc K P0 m locs a f fsc it) M) its M) l = fold_left (fun M it => run (add_loc K P0 a m locs (if b then fsc else f) it) M) its H l.
Proof.
  induction its as [|it its IH]; intros M H E l; [apply E|]. cbn [fold_left]. apply IH. intros l'. rewrite nadd_half. apply (run_ext loc_eq). exact E.
Qed.
Lemma fold_threads {A L V} (leq : forall a b : L, {a = b} + {a <> b}) (pr : A -> prog L V) (ths : list (Z * Z * Z)) (its : Z * Z * Z -> list A) : forall M,
  fold_left (fun M p => Threads.run leq p M) (map (fun th => seqp (map pr (its th))) ths) M = fold_left (fun M it => Threads.run leq (pr it) M) (flat_map its ths) M.
Proof.
  induction ths as [|t ts IH]; intros M; [reflexivity|]. cbn [map fold_left flat_map]. rewrite fold_left_app, IH, run_seqp. f_equal. generalize (its t) as l. intros l. revert M. induction l as [|x l IHl]; intros M; [reflexivity|]. cbn. apply IHl.
Qed.
Lemma nadd_launch a f fsc (M M' : mem) : distinct NS m locs -> (if (0 <? m)%Z then nkexec K (launch_locs m NS) (nadd_thread K P0 NS m locs a f fsc) M M' else M' = M) ->
  forall b, (forall k i, (0 <= k < NS)%Z -> (0 <= i < n)%Z -> half b M' (a, k * n + i)%Z = add_to_wavefield K (fun i => half b M (a, k * n + i)%Z) (row locs m k) (row (if b then fsc else f) m k) i) /\
  (forall l, fst l <> a -> half b M' l = half b M l).
Proof.
  intros Hd H b. destruct (Z.ltb_spec 0 m) as [Hp|Hp].
  - destruct H as [Hv He].
    assert (E : forall l, M' l = fold_left (fun M it => nrun (nadd_loc K P0 m locs a f fsc it) M) items M l).
    { rewrite <- (locs_items m NS Hm Hns). apply (kernel_seq nloc_eq (threads (launch_locs m NS)) (items_locs m NS) (nadd_loc K P0 m locs a f fsc) (fun _ => False) (naown a)).
      - intros it _. apply nadd_foot.
      - intros it l _ _ [].
      - rewrite (locs_items m NS Hm Hns). apply own_pairs; [apply NoDup_locs|]. intros [k j] [k' j'] Ha Hb N l [A1 A2] [B1 B2]. cbn [fst snd] in *. apply In_locs in Ha, Hb. rewrite A2 in B2. injection B2 as B2.
        destruct (shot_idx K P0 k k' (locs (k * m + j)%Z) (locs (k' * m + j')%Z)) as [<- E]; [split; [exact A1|apply (loc_bound K P0 NS m locs Hm Hlocs); lia]|split; [exact B1|apply (loc_bound K P0 NS m locs Hm Hlocs); lia]|exact B2|].
        apply N. f_equal. apply (Hd k); [apply Ha|apply Ha|apply Hb|exact A1|exact E].
      - exact He. }
    set (ff := if b then fsc else f). set (M1 := fold_left (fun M p => run p M) (map (add_thread K P0 NS a m locs ff) (threads (launch_locs m NS))) (half b M)).
    assert (E1 : forall l, half b M' l = M1 l).
    { intros l. unfold M1, add_thread. rewrite (fold_threads loc_eq (add_loc K P0 a m locs ff)). rewrite (locs_items m NS Hm Hns). unfold half at 1. rewrite E. apply (nadd_fold a f fsc b). reflexivity. }
    destruct (add_launch K P0 NS a m locs Hm Hns Hlocs ff (half b M) M1 Hd) as [R1 R2]; [split; [exact Hv|apply exec_exists]|]. split.
    + intros k i Hk Hi. rewrite E1. apply R1; assumption.
    + intros l Hl. rewrite E1. apply R2. exact Hl.
  - subst M'. assert (m = 0%Z) by lia. subst m. repeat split; reflexivity.
Qed.
End Locs.
End Lift.
