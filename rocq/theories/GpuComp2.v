(** * Compression on a CUDA device: executions *)
From Coq Require Import List ZArith Reals Lia Lra Bool.
From Verif Require Import Grid StorageModel Storage Threads Barrier GpuCompModel GpuComp.
Import ListNotations.
Local Open Scope Z_scope.

Section Phase.
Context {I : Type}.
Variables (pr : I -> prog loc item) (its : list I) (shared : loc -> Prop) (own : I -> loc -> Prop).
Hypothesis Hf : forall i, In i its -> foot (fun l => shared l \/ own i l) (own i) (pr i).
Hypothesis Hs : forall i l, In i its -> own i l -> ~ shared l.
Hypothesis Ho : forall i j, In i its -> In j its -> i <> j -> forall l, own i l -> ~ own j l.
Hypothesis Hn : NoDup its.
Lemma phase_quiet : quiet (map pr its).
Proof.
  exists (map (fun i => (fun l => shared l \/ own i l, own i)) its). split.
  - assert (H : forall js, NoDup js -> (forall i, In i js -> In i its) -> separate (map (fun i => (fun l => shared l \/ own i l, own i)) js)).
    { intros js Hj. induction Hj as [|x l Hx Hl IH]; intros Hr; [constructor|]. cbn [map]. constructor; [|apply IH; intros i Hi; apply Hr; right; exact Hi].
      apply Forall_forall. intros f Hfx. apply in_map_iff in Hfx. destruct Hfx as (y & <- & Hy). cbn [fst snd]. pose proof (Hr x (or_introl eq_refl)) as Ix. pose proof (Hr y (or_intror Hy)) as Iy.
      assert (N : x <> y) by (intros ->; contradiction). split; [intros l0 O; split|intros l0 O].
      - intros [S|O']; [apply (Hs x l0 Ix O S)|apply (Ho x y Ix Iy N l0 O O')].
      - apply (Ho x y Ix Iy N l0 O).
      - intros [S|O']; [apply (Hs y l0 Iy O S)|apply (Ho x y Ix Iy N l0 O' O)]. }
    apply H; [exact Hn|auto].
  - assert (H : forall js, (forall i, In i js -> In i its) -> feet (map (fun i => (fun l => shared l \/ own i l, own i)) js) (map pr js)).
    { intros js. induction js as [|x l IH]; intros Hr; [constructor|]. cbn [map]. constructor; [apply Hf, Hr; left; reflexivity|apply IH; intros i Hi; apply Hr; right; exact Hi]. }
    apply H. auto.
Qed.
Lemma phase_fold m : runs loc_eq (map pr its) m = fold_left (fun m i => run loc_eq (pr i) m) its m.
Proof. unfold runs. generalize its as js. intros js. revert m. induction js as [|x l IH]; intros m; cbn; [reflexivity|apply IH]. Qed.
Lemma phase_own m i l : In i its -> own i l -> runs loc_eq (map pr its) m l = run loc_eq (pr i) m l.
Proof. intros Hi Hl. rewrite phase_fold. apply (items_item loc_eq pr shared own its Hf Hs); [apply own_pairs; assumption|exact Hi|exact Hl]. Qed.
Lemma phase_keep m l : (forall i, In i its -> ~ own i l) -> runs loc_eq (map pr its) m l = m l.
Proof. intros Hl. rewrite phase_fold. apply (items_keep loc_eq pr shared own its Hf). exact Hl. Qed.
Lemma phase_foot (R W : loc -> Prop) : (forall l, shared l -> R l) -> (forall i l, In i its -> own i l -> R l /\ W l) -> Forall (foot R W) (map pr its).
Proof.
  intros HR HW. apply Forall_forall. intros p Hp. apply in_map_iff in Hp. destruct Hp as (i & <- & Hi). apply (foot_weaken (fun l => shared l \/ own i l) (own i)); [apply Hf, Hi| |].
  - intros l [S|O]; [apply HR, S|apply (HW i l Hi O)].
  - intros l O. apply (HW i l Hi O).
Qed.
End Phase.

Lemma get_put (m : Threads.mem loc item) l x : Threads.put loc_eq m l x l = x.
Proof. unfold Threads.put. destruct (loc_eq l l); [reflexivity|contradiction]. Qed.
Lemma get_put_other (m : Threads.mem loc item) l l' x : l <> l' -> Threads.put loc_eq m l x l' = m l'.
Proof. intros H. unfold Threads.put. destruct (loc_eq l l'); [contradiction|reflexivity]. Qed.

Section G2.
Variable shape : list Z.
Variable ds : Z.
Variable junk : R.
Variable NS : Z.
Hypothesis Hdim : (1 <= length shape <= 3)%nat.
Hypothesis Hpos : forall n, In n shape -> 0 < n.
Hypothesis Hds : 0 < ds.
Hypothesis Htot : 0 <= total shape NS < 2 ^ 31.
Notation T := (threads shape).
Notation G := (grid shape NS).
Notation n := (prodZ shape).
Notation ins := (inside shape).
Notation gi := (gidx shape).
Notation numj := (num junk).
Notation run' := (run loc_eq).
Notation runs' := (runs loc_eq).

(** ** First phase *)
Definition own0 (b t : Z) (l : loc) : Prop := l = LVal b t \/ l = LShared b t.
Definition isnum (l : loc) : Prop := match l with LNum _ => True | _ => False end.
Lemma start_foot b t : foot (fun l => isnum l \/ own0 b t l) (own0 b t) (start_thread shape junk b t).
Proof.
  unfold start_thread. destruct (ins b t).
  - constructor; [left; exact I|]. intros v. constructor; [left; reflexivity|]. constructor; [right; reflexivity|]. constructor.
  - constructor; [left; reflexivity|]. constructor; [right; reflexivity|]. constructor.
Qed.
Lemma own0_num b t l : own0 b t l -> ~ isnum l.
Proof. intros [->| ->]; intros []. Qed.
Lemma own0_sep b t t' l : t <> t' -> own0 b t l -> ~ own0 b t' l.
Proof. intros N [->| ->] [E|E]; try discriminate; injection E as E; contradiction. Qed.
Definition xv (m : Threads.mem loc item) (b t : Z) : R := if ins b t then numj (m (LNum (gi b t))) else 0%R.
Lemma start_val b t m : run' (start_thread shape junk b t) m (LVal b t) = one (xv m b t).
Proof.
  unfold start_thread, xv. destruct (ins b t); cbn [run]; rewrite get_put_other by discriminate; apply get_put.
Qed.
Lemma start_abs b t m : run' (start_thread shape junk b t) m (LShared b t) = one (Rabs (xv m b t)).
Proof.
  assert (A : forall x, (if Rle_dec 0 x then x else - x)%R = Rabs x).
  { intros x. destruct (Rle_dec 0 x); [rewrite Rabs_pos_eq by assumption; reflexivity|rewrite Rabs_left by lra; reflexivity]. }
  unfold start_thread, xv. destruct (ins b t); cbn [run]; rewrite get_put; rewrite A; reflexivity.
Qed.
Lemma ts_nodup : NoDup (ts shape).
Proof. apply NoDup_zrange. Qed.
Lemma start_phase b m : let m1 := runs' (map (start_thread shape junk b) (ts shape)) m in
  (forall t, 0 <= t < T -> m1 (LVal b t) = one (xv m b t) /\ m1 (LShared b t) = one (Rabs (xv m b t))) /\
  (forall l, (forall t, ~ own0 b t l) -> m1 l = m l).
Proof.
  cbv zeta. split.
  - intros t Ht. assert (Hi : In t (ts shape)) by (apply In_zrange; lia).
    rewrite (phase_own (start_thread shape junk b) (ts shape) isnum (own0 b) (fun t _ => start_foot b t) (fun t l _ => own0_num b t l) (fun t t' _ _ N l => own0_sep b t t' l N) ts_nodup m t _ Hi (or_introl eq_refl)).
    rewrite (phase_own (start_thread shape junk b) (ts shape) isnum (own0 b) (fun t _ => start_foot b t) (fun t l _ => own0_num b t l) (fun t t' _ _ N l => own0_sep b t t' l N) ts_nodup m t _ Hi (or_intror eq_refl)).
    split; [apply start_val|apply start_abs].
  - intros l Hl. apply (phase_keep (start_thread shape junk b) (ts shape) isnum (own0 b) (fun t _ => start_foot b t)). intros t _. apply Hl.
Qed.

(** ** Reduction *)
Definition own1 (b s t : Z) (l : loc) : Prop := t < s /\ l = LShared b t.
Definition upper (b s : Z) (l : loc) : Prop := exists t, s <= t /\ l = LShared b t.
Lemma reduce_foot b s t : 0 <= t -> foot (fun l => upper b s l \/ own1 b s t l) (own1 b s t) (reduce_thread junk b s t).
Proof.
  intros H0. unfold reduce_thread. destruct (Z.ltb_spec t s); [|constructor].
  constructor; [left; exists (t + s); split; [lia|reflexivity]|]. intros x. constructor; [right; split; [assumption|reflexivity]|]. intros y.
  destruct (Rlt_dec (numj y) (numj x)); [|constructor]. constructor; [left; exists (t + s); split; [lia|reflexivity]|]. intros z. constructor; [split; [assumption|reflexivity]|]. constructor.
Qed.
Lemma reduce_foot_in b s t : In t (ts shape) -> foot (fun l => upper b s l \/ own1 b s t l) (own1 b s t) (reduce_thread junk b s t).
Proof. intros H. apply In_zrange in H. apply reduce_foot. lia. Qed.
Lemma own1_upper b s t l : own1 b s t l -> ~ upper b s l.
Proof. intros [H ->] (t' & H' & E). injection E as ->. lia. Qed.
Lemma own1_sep b s t t' l : t <> t' -> own1 b s t l -> ~ own1 b s t' l.
Proof. intros N [_ ->] [_ E]. injection E as E. contradiction. Qed.
Lemma reduce_phase b s m : let m1 := runs' (map (reduce_thread junk b s) (ts shape)) m in
  (forall t, 0 <= t < s -> s <= T -> numj (m1 (LShared b t)) = Rmax (numj (m (LShared b t))) (numj (m (LShared b (t + s))))) /\
  (forall l, (forall t, 0 <= t < s -> l <> LShared b t) -> m1 l = m l).
Proof.
  cbv zeta. split.
  - intros t Ht HsT. assert (Hi : In t (ts shape)) by (apply In_zrange; lia).
    rewrite (phase_own (reduce_thread junk b s) (ts shape) (upper b s) (own1 b s) (reduce_foot_in b s) (fun t l _ => own1_upper b s t l) (fun t t' _ _ N l => own1_sep b s t t' l N) ts_nodup m t _ Hi (conj (proj2 Ht) eq_refl)).
    unfold reduce_thread. destruct (Z.ltb_spec t s); [|lia]. cbn [run]. destruct (Rlt_dec (numj (m (LShared b t))) (numj (m (LShared b (t + s))))) as [L|L]; cbn [run].
    + rewrite get_put. cbn [num one]. rewrite Rmax_right by lra. reflexivity.
    + rewrite Rmax_left by lra. reflexivity.
  - intros l Hl. apply (phase_keep (reduce_thread junk b s) (ts shape) (upper b s) (own1 b s) (reduce_foot_in b s)). intros t Ht [H1 H2]. apply In_zrange in Ht. apply (Hl t); [lia|exact H2].
Qed.
Fixpoint powers (k : nat) : list Z := match k with O => [] | S k' => 2 ^ Z.of_nat k' :: powers k' end.
Definition rphases (b : Z) (ss : list Z) : list (list (prog loc item)) := map (fun s => map (reduce_thread junk b s) (ts shape)) ss.
Lemma reduce_all b k : forall m, 2 ^ Z.of_nat k <= T -> let m' := runs' (concat (rphases b (powers k))) m in
  (forall t, 0 <= t < 2 ^ Z.of_nat k -> (numj (m (LShared b t)) <= numj (m' (LShared b 0)))%R) /\
  (exists t, 0 <= t < 2 ^ Z.of_nat k /\ numj (m' (LShared b 0)) = numj (m (LShared b t))) /\
  (forall l, (forall t, l <> LShared b t) -> m' l = m l).
Proof.
  induction k as [|k IH]; intros m Hk; cbv zeta.
  - cbn. split; [intros t Ht; assert (t = 0) by lia; subst; lra|]. split; [exists 0; split; [lia|reflexivity]|reflexivity].
  - rewrite Nat2Z.inj_succ, Z.pow_succ_r in * by lia. set (s := 2 ^ Z.of_nat k) in *. assert (Hs0 : 0 < s) by (apply Z.pow_pos_nonneg; lia).
    cbn [powers rphases map concat]. rewrite runs_app. fold (rphases b (powers k)). fold s.
    destruct (reduce_phase b s m) as [R1 R2]. cbv zeta in R1, R2. set (m1 := runs' (map (reduce_thread junk b s) (ts shape)) m) in *.
    destruct (IH m1 ltac:(lia)) as (I1 & (t0 & Ht0 & I2) & I3). cbv zeta in I1, I2, I3. set (m' := runs' (concat (rphases b (powers k))) m1) in *. split; [|split].
    + intros t Ht. destruct (Z_lt_le_dec t s) as [L|L].
      * pose proof (I1 t ltac:(lia)) as Q. rewrite (R1 t ltac:(lia) ltac:(lia)) in Q. pose proof (Rmax_l (numj (m (LShared b t))) (numj (m (LShared b (t + s))))). lra.
      * pose proof (I1 (t - s) ltac:(lia)) as Q. rewrite (R1 (t - s) ltac:(lia) ltac:(lia)) in Q. replace (t - s + s) with t in Q by lia. pose proof (Rmax_r (numj (m (LShared b (t - s)))) (numj (m (LShared b t)))). lra.
    + rewrite (R1 t0 ltac:(lia) ltac:(lia)) in I2. unfold Rmax in I2. destruct (Rle_dec (numj (m (LShared b t0))) (numj (m (LShared b (t0 + s))))).
      * exists (t0 + s). split; [lia|exact I2].
      * exists t0. split; [lia|exact I2].
    + intros l Hl. rewrite I3 by exact Hl. apply R2. intros t _. apply Hl.
Qed.
Lemma halvings_powers : exists k, halvings (Z.to_nat T) (T / 2) = powers k /\ 2 ^ Z.of_nat k = T.
Proof.
  unfold threads. destruct shape as [|a [|c [|d [|? ?]]]]; cbn [length] in Hdim; try lia; [exists 3%nat|exists 6%nat|exists 9%nat]; split; vm_compute; reflexivity.
Qed.

(** ** Last phase *)
Definition own2 (b t : Z) (l : loc) : Prop :=
  match l with LByte j => (t = 0 /\ exists i, 0 <= i < ds /\ j = b * ds + i) \/ (ins b t = true /\ j = G * ds + gi b t) | _ => False end.
Definition blockmem (b : Z) (l : loc) : Prop := match l with LShared b' _ => b' = b | LVal b' _ => b' = b | _ => False end.
Lemma store_bytes_foot (R W : loc -> Prop) k x is p : (forall i, In i is -> W (LByte (k + i))) -> foot R W p -> foot R W (store_bytes k x is p).
Proof. induction is as [|i is IH]; intros H Hp; cbn; [exact Hp|]. constructor; [apply H; left; reflexivity|]. apply IH; [intros j Hj; apply H; right; exact Hj|exact Hp]. Qed.
Lemma finish_foot b t : foot (fun l => blockmem b l \/ own2 b t l) (own2 b t) (finish_thread shape ds junk NS b t).
Proof.
  unfold finish_thread. constructor; [left; reflexivity|]. intros mv. apply foot_bind.
  - destruct (Z.eqb_spec t 0); [|constructor]. apply store_bytes_foot; [|constructor]. intros i Hi. apply In_zrange in Hi. left. split; [assumption|]. exists i. split; [lia|reflexivity].
  - destruct (ins b t) eqn:E; [|constructor]. constructor; [left; reflexivity|]. intros v. constructor; [right; split; [exact E|reflexivity]|]. constructor.
Qed.
Lemma own2_mem b t l : own2 b t l -> ~ blockmem b l.
Proof. destruct l; cbn; tauto. Qed.
(** Bytes of different threads, also of different blocks, are different. *)
Lemma own2_sep b t b' t' l : 0 <= b < G -> 0 <= t < T -> 0 <= b' < G -> 0 <= t' < T -> (b, t) <> (b', t') -> own2 b t l -> ~ own2 b' t' l.
Proof.
  intros Hb Ht Hb' Ht' N. destruct l as [i|j|? ?|? ?]; cbn; try tauto.
  intros [[E1 (i & Hi & Ej)]|[I1 Ej]] [[E2 (i' & Hi' & Ej')]|[I2 Ej']].
  - apply N. f_equal; [nia|lia].
  - pose proof (gidx_bound shape NS Hdim Hpos Htot b' t' Hb' Ht' I2). nia.
  - pose proof (gidx_bound shape NS Hdim Hpos Htot b t Hb Ht I1). nia.
  - destruct (gidx_inj shape NS Hdim Hpos Htot b t b' t' Hb Ht Hb' Ht' I1 I2 ltac:(lia)) as [-> ->]. apply N. reflexivity.
Qed.
Lemma run_store_bytes k x is p : forall m, NoDup is -> run' (store_bytes k x is p) m = run' p (fold_left (fun m i => Threads.put loc_eq m (LByte (k + i)) (Part x i)) is m).
Proof. induction is as [|i is IH]; intros m Hn; cbn; [reflexivity|]. inversion Hn; subst. apply IH. assumption. Qed.
Lemma fold_bytes k x is : forall m l, (forall i, In i is -> l <> LByte (k + i)) -> fold_left (fun m i => Threads.put loc_eq m (LByte (k + i)) (Part x i)) is m l = m l.
Proof. induction is as [|i is IH]; intros m l H; cbn; [reflexivity|]. rewrite IH by (intros j Hj; apply H; right; exact Hj). apply get_put_other. intros E. apply (H i (or_introl eq_refl)). symmetry. exact E. Qed.
Lemma fold_bytes_at k x is : forall m i, NoDup is -> In i is -> fold_left (fun m i => Threads.put loc_eq m (LByte (k + i)) (Part x i)) is m (LByte (k + i)) = Part x i.
Proof.
  induction is as [|j is IH]; intros m i Hn Hi; [destruct Hi|]. inversion Hn; subst. cbn. destruct Hi as [->|Hi]; [|apply IH; assumption].
  rewrite fold_bytes; [apply get_put|]. intros q Hq E. injection E as E. assert (i = q) by lia. subst. contradiction.
Qed.
Lemma finish_phase b m : 0 <= b < G -> let m1 := runs' (map (finish_thread shape ds junk NS b) (ts shape)) m in
  let M := numj (m (LShared b 0)) in
  (forall i, 0 <= i < ds -> m1 (LByte (b * ds + i)) = Part M i) /\
  (forall t, 0 <= t < T -> ins b t = true -> m1 (LByte (G * ds + gi b t)) = Byte (u8 (128 + numj (m (LVal b t)) * scale_of M + 1 / 2)%R)) /\
  (forall l, (forall t, 0 <= t < T -> ~ own2 b t l) -> m1 l = m l).
Proof.
  intros Hb m1 M. pose proof (T_pos shape NS Hdim Hpos Htot) as TP.
  assert (PO : forall t l, 0 <= t < T -> own2 b t l -> m1 l = run' (finish_thread shape ds junk NS b t) m l).
  { intros t l Ht Hl. apply (phase_own (finish_thread shape ds junk NS b) (ts shape) (blockmem b) (own2 b) (fun t _ => finish_foot b t) (fun t l _ => own2_mem b t l)); [|apply ts_nodup|apply In_zrange; lia|exact Hl].
    intros t1 t2 H1 H2 N l'. apply In_zrange in H1, H2. apply own2_sep; try lia. congruence. }
  repeat split.
  - intros i Hi. rewrite (PO 0); [|lia|left; split; [reflexivity|exists i; split; [lia|reflexivity]]].
    unfold finish_thread. cbn [run]. rewrite run_bind. fold M. change (0 =? 0) with true. cbv iota.
    transitivity (run' (store_bytes (b * ds) M (zrange 0 ds) Ret) m (LByte (b * ds + i))).
    + destruct (ins b 0) eqn:E; [|reflexivity]. cbn [run]. apply get_put_other. intros Q. injection Q as Q. pose proof (gidx_bound shape NS Hdim Hpos Htot b 0 Hb ltac:(lia) E). nia.
    + rewrite run_store_bytes by apply NoDup_zrange. cbn [run]. apply fold_bytes_at; [apply NoDup_zrange|apply In_zrange; lia].
  - intros t Ht E. rewrite (PO t); [|assumption|right; split; [exact E|reflexivity]].
    unfold finish_thread. cbn [run]. rewrite run_bind. fold M. rewrite E. cbn [run]. rewrite get_put.
    assert (K : run' (if t =? 0 then store_bytes (b * ds) M (zrange 0 ds) Ret else Ret) m (LVal b t) = m (LVal b t)).
    { destruct (t =? 0); [|reflexivity]. rewrite run_store_bytes by apply NoDup_zrange. cbn [run]. apply fold_bytes. intros i _. discriminate. }
    rewrite K. reflexivity.
  - intros l Hl. apply (phase_keep (finish_thread shape ds junk NS b) (ts shape) (blockmem b) (own2 b) (fun t _ => finish_foot b t)). intros t Ht. apply In_zrange in Ht. apply Hl. lia.
Qed.

(** ** One block *)
Definition bown (b : Z) (l : loc) : Prop := blockmem b l \/ exists t, 0 <= t < T /\ own2 b t l.
Lemma bown_num b l : bown b l -> ~ isnum l.
Proof. intros [H|(t & _ & H)]; destruct l; cbn in *; tauto. Qed.
Lemma bown_sep b b' l : 0 <= b < G -> 0 <= b' < G -> b <> b' -> bown b l -> ~ bown b' l.
Proof.
  intros Hb Hb' N [H|(t & Ht & H)] [H'|(t' & Ht' & H')].
  - destruct l; cbn in *; congruence || tauto.
  - destruct l; cbn in *; tauto.
  - destruct l; cbn in *; tauto.
  - apply (own2_sep b t b' t' l Hb Ht Hb' Ht'); congruence.
Qed.
Lemma block_fine b : 0 <= b < G -> block_ok (fun l => isnum l \/ bown b l, bown b) (compress_block shape ds junk NS b).
Proof.
  intros Hb. unfold compress_block. split.
  - cbn [fst snd]. unfold flat. cbn [fst snd]. rewrite concat_app. cbn [concat]. rewrite app_nil_r. apply Forall_app. split; [|apply Forall_app; split].
    + apply (phase_foot (start_thread shape junk b) (ts shape) isnum (own0 b) (fun t _ => start_foot b t)); [tauto|]. intros t l _ H. assert (bown b l) by (left; destruct H as [->| ->]; reflexivity). tauto.
    + generalize (halvings (Z.to_nat T) (T / 2)). intros ss. induction ss as [|s ss IH]; [constructor|]. cbn [map concat]. apply Forall_app. split; [|exact IH].
      apply (phase_foot (reduce_thread junk b s) (ts shape) (upper b s) (own1 b s) (reduce_foot_in b s)); [intros l (t & _ & ->); right; left; reflexivity|].
      intros t l _ [_ ->]. split; [right|]; left; reflexivity.
    + apply (phase_foot (finish_thread shape ds junk NS b) (ts shape) (blockmem b) (own2 b) (fun t _ => finish_foot b t)); [intros l H; right; left; exact H|].
      intros t l Ht H. apply In_zrange in Ht. assert (bown b l) by (right; exists t; split; [lia|exact H]). tauto.
  - cbn [fst snd]. constructor; [|apply Forall_app; split].
    + apply (phase_quiet (start_thread shape junk b) (ts shape) isnum (own0 b) (fun t _ => start_foot b t) (fun t l _ => own0_num b t l) (fun t t' _ _ N l => own0_sep b t t' l N) ts_nodup).
    + apply Forall_forall. intros p Hp. apply in_map_iff in Hp. destruct Hp as (s & <- & _).
      apply (phase_quiet (reduce_thread junk b s) (ts shape) (upper b s) (own1 b s) (reduce_foot_in b s) (fun t l _ => own1_upper b s t l) (fun t t' _ _ N l => own1_sep b s t t' l N) ts_nodup).
    + constructor; [|constructor]. apply (phase_quiet (finish_thread shape ds junk NS b) (ts shape) (blockmem b) (own2 b) (fun t _ => finish_foot b t) (fun t l _ => own2_mem b t l)); [|apply ts_nodup].
      intros t1 t2 H1 H2 N l'. apply In_zrange in H1, H2. apply own2_sep; try lia. congruence.
Qed.
Lemma block_run b m : 0 <= b < G -> let m1 := run' (serial (compress_block shape ds junk NS b)) m in
  exists M, (forall t, 0 <= t < T -> (Rabs (xv m b t) <= M)%R) /\ (exists t, 0 <= t < T /\ M = Rabs (xv m b t)) /\
  (forall i, 0 <= i < ds -> m1 (LByte (b * ds + i)) = Part M i) /\
  (forall t, 0 <= t < T -> ins b t = true -> m1 (LByte (G * ds + gi b t)) = Byte (u8 (128 + xv m b t * scale_of M + 1 / 2)%R)).
Proof.
  intros Hb. cbv zeta. rewrite run_serial. unfold flat, compress_block. cbn [fst snd]. rewrite concat_app. cbn [concat]. rewrite app_nil_r, !runs_app.
  destruct halvings_powers as (k & -> & Ek). fold (rphases b (powers k)).
  destruct (start_phase b m) as [S1 S2]. cbv zeta in S1, S2. set (m1 := runs' (map (start_thread shape junk b) (ts shape)) m) in *.
  destruct (reduce_all b k m1 ltac:(lia)) as (R1 & (t0 & Ht0 & R2) & R3). cbv zeta in R1, R2, R3. set (m2 := runs' (concat (rphases b (powers k))) m1) in *.
  destruct (finish_phase b m2 Hb) as (F1 & F2 & _). cbv zeta in F1, F2. rewrite Ek in *.
  exists (numj (m2 (LShared b 0))). split; [|split; [|split]].
  - intros t Ht. pose proof (R1 t Ht) as Q. rewrite (proj2 (S1 t Ht)) in Q. exact Q.
  - exists t0. split; [exact Ht0|]. rewrite R2, (proj2 (S1 t0 Ht0)). reflexivity.
  - exact F1.
  - intros t Ht E. rewrite (F2 t Ht E). rewrite (R3 (LVal b t)) by (intros; discriminate). rewrite (proj1 (S1 t Ht)). reflexivity.
Qed.

(** ** All blocks *)
Lemma blocks_separate (own : Z -> loc -> Prop) (shared : loc -> Prop) : (forall b l, 0 <= b < G -> own b l -> ~ shared l) -> (forall b b' l, 0 <= b < G -> 0 <= b' < G -> b <> b' -> own b l -> ~ own b' l) ->
  separate (map (fun b => (fun l => shared l \/ own b l, own b)) (zrange 0 G)).
Proof.
  intros HS HO. assert (H : forall its, NoDup its -> (forall b, In b its -> 0 <= b < G) -> separate (map (fun b => (fun l => shared l \/ own b l, own b)) its)); [|apply H; [apply NoDup_zrange|intros b Hb; apply In_zrange in Hb; lia]].
  intros its Hn. induction Hn as [|x l Hx Hl IH]; intros Hr; [constructor|]. cbn [map]. constructor; [|apply IH; intros b Hb; apply Hr; right; exact Hb].
  apply Forall_forall. intros f Hfx. apply in_map_iff in Hfx. destruct Hfx as (y & <- & Hy). cbn [fst snd]. pose proof (Hr x (or_introl eq_refl)) as Bx. pose proof (Hr y (or_intror Hy)) as By.
  assert (N : x <> y) by (intros ->; contradiction). split; [intros l0 O; split|intros l0 O].
  - intros [S|O']; [apply (HS x l0 Bx O S)|apply (HO x y l0 Bx By N O O')].
  - apply (HO x y l0 Bx By N O).
  - intros [S|O']; [apply (HS y l0 By O S)|apply (HO x y l0 Bx By N O' O)].
Qed.
Lemma compress_serial m m' : compress_cuda shape ds junk NS m m' -> forall l, m' l = runs' (map (fun b => serial (compress_block shape ds junk NS b)) (zrange 0 G)) m l.
Proof.
  intros He l. rewrite (bexec_seq loc_eq _ _ _ He (map (fun b => (fun l => isnum l \/ bown b l, bown b)) (zrange 0 G))).
  - rewrite map_map. reflexivity.
  - apply blocks_separate; [intros b l0 _; apply bown_num|intros b b' l0 H1 H2 H3; apply (bown_sep b b' l0 H1 H2 H3)].
  - assert (H : forall its, (forall b, In b its -> 0 <= b < G) -> Forall2 block_ok (map (fun b => (fun l => isnum l \/ bown b l, bown b)) its) (map (compress_block shape ds junk NS) its)).
    { intros its. induction its as [|x its IH]; intros Hr; [constructor|]. cbn [map]. constructor; [apply block_fine, Hr; left; reflexivity|apply IH; intros b Hb; apply Hr; right; exact Hb]. }
    apply H. intros b Hb. apply In_zrange in Hb. lia.
Qed.
Lemma serial_foot b : 0 <= b < G -> foot (fun l => isnum l \/ bown b l) (bown b) (serial (compress_block shape ds junk NS b)).
Proof. intros Hb. apply foot_seqp. apply (block_fine b Hb). Qed.
Lemma compress_own m m' : compress_cuda shape ds junk NS m m' ->
  (forall b l, 0 <= b < G -> bown b l -> m' l = run' (serial (compress_block shape ds junk NS b)) m l) /\
  (forall l, (forall b, 0 <= b < G -> ~ bown b l) -> m' l = m l).
Proof.
  intros He. pose proof (compress_serial m m' He) as E.
  assert (Hf : forall b, In b (zrange 0 G) -> foot (fun l => isnum l \/ bown b l) (bown b) (serial (compress_block shape ds junk NS b))) by (intros b Hb; apply In_zrange in Hb; apply serial_foot; lia).
  split.
  - intros b l Hb Hl. rewrite E. apply (phase_own (fun b => serial (compress_block shape ds junk NS b)) (zrange 0 G) isnum bown Hf); [intros b' l' _; apply bown_num| |apply NoDup_zrange|apply In_zrange; lia|exact Hl].
    intros i j Hi Hj N l'. apply In_zrange in Hi, Hj. apply bown_sep; lia.
  - intros l Hl. rewrite E. apply (phase_keep (fun b => serial (compress_block shape ds junk NS b)) (zrange 0 G) isnum bown Hf). intros b Hb. apply In_zrange in Hb. apply Hl. lia.
Qed.

(** ** Decompression *)
Definition downs (b : Z) (l : loc) : Prop := exists t, 0 <= t < T /\ ins b t = true /\ l = LNum (gi b t).
Definition down (b t : Z) (l : loc) : Prop := ins b t = true /\ l = LNum (gi b t).
Definition isbyte (l : loc) : Prop := match l with LByte j => 0 <= j < G * ds + NS * n | _ => False end.
Lemma load_bytes_foot (R W : loc -> Prop) k is p : forall M, (forall i, In i is -> R (LByte (k + i))) -> (forall M, foot R W (p M)) -> foot R W (load_bytes k is M p).
Proof. induction is as [|i is IH]; intros M H Hp; cbn; [apply Hp|]. constructor; [apply H; left; reflexivity|]. intros v. apply IH; [intros j Hj; apply H; right; exact Hj|exact Hp]. Qed.
Lemma run_load_bytes k is p m : forall M, run' (load_bytes k is M p) m = run' (p (fold_left (fun M i => StorageModel.put M (k + i) (m (LByte (k + i)))) is M)) m.
Proof. induction is as [|i is IH]; intros M; cbn; [reflexivity|apply IH]. Qed.
Lemma loaded k is (m : Threads.mem loc item) : forall M j, (In (j - k) is -> fold_left (fun M i => StorageModel.put M (k + i) (m (LByte (k + i)))) is M j = m (LByte j)) /\
  (~ In (j - k) is -> fold_left (fun M i => StorageModel.put M (k + i) (m (LByte (k + i)))) is M j = M j).
Proof.
  induction is as [|i is IH]; intros M j; cbn [fold_left]; [split; [intros []|reflexivity]|]. destruct (IH (StorageModel.put M (k + i) (m (LByte (k + i)))) j) as [A B]. split.
  - intros Hi. destruct (in_dec Z.eq_dec (j - k) is) as [H|H]; [apply A, H|]. rewrite (B H). destruct Hi as [->|Hi]; [|contradiction]. unfold StorageModel.put. replace (k + (j - k)) with j by lia. rewrite Z.eqb_refl. reflexivity.
  - intros H. rewrite B by (intros Q; apply H; right; exact Q). unfold StorageModel.put. destruct (Z.eqb_spec j (k + i)) as [->|]; [|reflexivity]. exfalso. apply H. left. lia.
Qed.
Lemma decompress_foot b t : 0 <= b < G -> 0 <= t < T -> foot (fun l => isbyte l \/ down b t l) (down b t) (decompress_thread shape ds junk NS b t).
Proof.
  intros Hb Ht. unfold decompress_thread. destruct (ins b t) eqn:E; [|constructor]. pose proof (gidx_bound shape NS Hdim Hpos Htot b t Hb Ht E) as B.
  apply load_bytes_foot; [intros i Hi; apply In_zrange in Hi; left; cbn; nia|]. intros M. constructor; [left; cbn; nia|]. intros v. constructor; [split; [exact E|reflexivity]|]. constructor.
Qed.
Lemma down_sep b t b' t' l : 0 <= b < G -> 0 <= t < T -> 0 <= b' < G -> 0 <= t' < T -> (b, t) <> (b', t') -> down b t l -> ~ down b' t' l.
Proof. intros Hb Ht Hb' Ht' N [E ->] [E' Q]. injection Q as Q. destruct (gidx_inj shape NS Hdim Hpos Htot b t b' t' Hb Ht Hb' Ht' E E' Q) as [-> ->]. apply N. reflexivity. Qed.
Lemma down_byte b t l : down b t l -> ~ isbyte l.
Proof. intros [_ ->] []. Qed.
Lemma decompress_run b t m : ins b t = true ->
  run' (decompress_thread shape ds junk NS b t) m (LNum (gi b t)) =
  one ((rd_byte junk (fun j => m (LByte j)) (G * ds + gi b t) - 128) * (rd_flt ds junk (fun j => m (LByte j)) (b * ds) / 127))%R.
Proof.
  intros E. unfold decompress_thread. rewrite E, run_load_bytes. cbn [run]. rewrite get_put. unfold rd_byte. do 3 f_equal.
  set (M := fold_left _ _ _). assert (EM : forall i, 0 <= i < ds -> M (b * ds + i) = m (LByte (b * ds + i))).
  { intros i Hi. unfold M. apply loaded. apply In_zrange. lia. }
  unfold rd_flt. pose proof (EM 0 ltac:(lia)) as E0. rewrite Z.add_0_r in E0. rewrite E0. destruct (m (LByte (b * ds))) as [x i|z]; [|reflexivity].
  match goal with |- (if ?a then _ else _) = (if ?c then _ else _) => assert (Q : a = c) end; [|rewrite Q; reflexivity].
  assert (H : forall l f g, (forall i : Z, In i l -> f i = g i :> bool) -> forallb f l = forallb g l) by (intros l f g; induction l as [|q l IH]; intros HQ; cbn; [reflexivity|]; rewrite (HQ q (or_introl eq_refl)), IH by (intros q' Hq'; apply HQ; right; exact Hq'); reflexivity).
  apply H. intros q Hq. apply In_zrange in Hq. rewrite (EM q ltac:(lia)). reflexivity.
Qed.
Definition dblock (b : Z) : list (prog loc item) * list (list (prog loc item)) := (map (decompress_thread shape ds junk NS b) (ts shape), []).
Lemma decompress_in b t : 0 <= b < G -> In t (ts shape) -> foot (fun l => isbyte l \/ down b t l) (down b t) (decompress_thread shape ds junk NS b t).
Proof. intros Hb Ht. apply In_zrange in Ht. apply decompress_foot; [assumption|lia]. Qed.
Lemma dblock_fine b : 0 <= b < G -> block_ok (fun l => isbyte l \/ downs b l, downs b) (dblock b).
Proof.
  intros Hb. unfold dblock. split; cbn [fst snd].
  - unfold flat. cbn [fst snd concat]. rewrite app_nil_r. apply (phase_foot (decompress_thread shape ds junk NS b) (ts shape) isbyte (down b) (fun t => decompress_in b t Hb)); [tauto|].
    intros t l Ht [H1 H2]. apply In_zrange in Ht. assert (downs b l) by (exists t; split; [lia|split; assumption]). tauto.
  - constructor; [|constructor]. apply (phase_quiet (decompress_thread shape ds junk NS b) (ts shape) isbyte (down b) (fun t => decompress_in b t Hb) (fun t l _ => down_byte b t l)); [|apply ts_nodup].
    intros t1 t2 H1 H2 N l'. apply In_zrange in H1, H2. apply down_sep; try lia. congruence.
Qed.
Lemma downs_sep b b' l : 0 <= b < G -> 0 <= b' < G -> b <> b' -> downs b l -> ~ downs b' l.
Proof. intros Hb Hb' N (t & Ht & E & ->) (t' & Ht' & E' & Q). apply (down_sep b t b' t' (LNum (gi b t)) Hb Ht Hb' Ht'); [congruence|split; [exact E|reflexivity]|split; [exact E'|exact Q]]. Qed.
Lemma downs_byte b l : downs b l -> ~ isbyte l.
Proof. intros (t & _ & _ & ->) []. Qed.
Lemma decompress_own m m' : decompress_cuda shape ds junk NS m m' ->
  (forall b t, 0 <= b < G -> 0 <= t < T -> ins b t = true -> m' (LNum (gi b t)) = run' (decompress_thread shape ds junk NS b t) m (LNum (gi b t))) /\
  (forall l, (forall b, 0 <= b < G -> ~ downs b l) -> m' l = m l).
Proof.
  intros He.
  assert (E : forall l, m' l = runs' (map (fun b => serial (dblock b)) (zrange 0 G)) m l).
  { intros l. unfold decompress_cuda in He. rewrite (bexec_seq loc_eq _ _ _ He (map (fun b => (fun l => isbyte l \/ downs b l, downs b)) (zrange 0 G))).
    - rewrite map_map. reflexivity.
    - apply blocks_separate; [intros b l0 _; apply downs_byte|intros b b' l0 H1 H2 H3; apply (downs_sep b b' l0 H1 H2 H3)].
    - assert (H : forall its, (forall b, In b its -> 0 <= b < G) -> Forall2 block_ok (map (fun b => (fun l => isbyte l \/ downs b l, downs b)) its) (map dblock its)).
      { intros its. induction its as [|x its IH]; intros Hr; [constructor|]. cbn [map]. constructor; [apply dblock_fine, Hr; left; reflexivity|apply IH; intros b Hb; apply Hr; right; exact Hb]. }
      apply H. intros b Hb. apply In_zrange in Hb. lia. }
  assert (Hf : forall b, In b (zrange 0 G) -> foot (fun l => isbyte l \/ downs b l) (downs b) (serial (dblock b))) by (intros b Hb; apply In_zrange in Hb; apply foot_seqp; apply (dblock_fine b); lia).
  split.
  - intros b t Hb Ht Hi. rewrite E. rewrite (phase_own (fun b => serial (dblock b)) (zrange 0 G) isbyte downs Hf) with (i := b); [|intros b' l' _; apply downs_byte| |apply NoDup_zrange|apply In_zrange; lia|exists t; split; [exact Ht|split; [exact Hi|reflexivity]]].
    + rewrite run_serial. unfold flat, dblock. cbn [fst snd concat]. rewrite app_nil_r.
      apply (phase_own (decompress_thread shape ds junk NS b) (ts shape) isbyte (down b) (fun t => decompress_in b t Hb) (fun t l _ => down_byte b t l)); [|apply ts_nodup|apply In_zrange; lia|split; [exact Hi|reflexivity]].
      intros t1 t2 H1 H2 N l'. apply In_zrange in H1, H2. apply down_sep; try lia. congruence.
    + intros i j Hi' Hj N l'. apply In_zrange in Hi', Hj. apply downs_sep; lia.
  - intros l Hl. rewrite E. apply (phase_keep (fun b => serial (dblock b)) (zrange 0 G) isbyte downs Hf). intros b Hb. apply In_zrange in Hb. apply Hl. lia.
Qed.
End G2.
