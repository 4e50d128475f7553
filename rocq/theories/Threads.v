(** * Threads of a GPU kernel, interleaved in any way between single loads and stores. *)
From Coq Require Import List ZArith Lia Bool Permutation.
Import ListNotations.

Section Threads.
Context {L V : Type}.
Variable leq : forall a b : L, {a = b} + {a <> b}.
(** A thread: what it does next may depend on the values it has loaded. *)
Inductive prog := Ret | Load (l : L) (k : V -> prog) | Store (l : L) (x : V) (k : prog).
Definition mem := L -> V.
Definition put (m : mem) (l : L) (x : V) : mem := fun l' => if leq l l' then x else m l'.
(** The thread alone. *)
Fixpoint run (p : prog) (m : mem) : mem :=
  match p with Ret => m | Load l k => run (k (m l)) m | Store l x k => run k (put m l x) end.
Fixpoint bind (p q : prog) : prog :=
  match p with Ret => q | Load l k => Load l (fun x => bind (k x) q) | Store l x k => Store l x (bind k q) end.
Definition seqp (ps : list prog) : prog := fold_right bind Ret ps.
(** All executions: some thread that has not finished makes its next access, until all have. *)
Inductive exec : list prog -> mem -> mem -> Prop :=
| exec_done ts m : (forall p, In p ts -> p = Ret) -> exec ts m m
| exec_load a l k b m m' : exec (a ++ k (m l) :: b) m m' -> exec (a ++ Load l k :: b) m m'
| exec_store a l x k b m m' : exec (a ++ k :: b) (put m l x) m' -> exec (a ++ Store l x k :: b) m m'.

(** [p] loads only from [R] and stores only to [W]. *)
Inductive foot (R W : L -> Prop) : prog -> Prop :=
| foot_ret : foot R W Ret
| foot_load l k : R l -> (forall x, foot R W (k x)) -> foot R W (Load l k)
| foot_store l x k : W l -> foot R W k -> foot R W (Store l x k).

Lemma run_bind p q m : run (bind p q) m = run q (run p m).
Proof. revert m. induction p as [|l k IH|l x k IH]; intros m; cbn; auto. Qed.
Lemma run_seqp ps m : run (seqp ps) m = fold_left (fun m p => run p m) ps m.
Proof. revert m. induction ps as [|p ps IH]; intros m; cbn; [reflexivity|]. rewrite run_bind. apply IH. Qed.
Lemma foot_bind R W p q : foot R W p -> foot R W q -> foot R W (bind p q).
Proof. intros Hp Hq. induction Hp; cbn; [exact Hq|constructor; auto|constructor; auto]. Qed.
Lemma foot_seqp R W ps : Forall (foot R W) ps -> foot R W (seqp ps).
Proof. induction 1 as [|p ps H1 H2 IH]; cbn; [constructor|apply foot_bind; assumption]. Qed.
Lemma foot_weaken (R W R' W' : L -> Prop) p : foot R W p -> (forall l, R l -> R' l) -> (forall l, W l -> W' l) -> foot R' W' p.
Proof. intros H HR HW. induction H; constructor; auto. Qed.
Lemma run_outside R W p : foot R W p -> forall m l, ~ W l -> run p m l = m l.
Proof.
  induction 1 as [|l k Hl Hk IH|l x k Hl Hk IH]; intros m l' Hn; cbn; [reflexivity|apply IH, Hn|]. rewrite IH by exact Hn. unfold put. destruct (leq l l') as [->|]; [contradiction|reflexivity].
Qed.
(** What a thread does to the locations it stores to depends only on its own locations. *)
Lemma run_frame R W p : foot R W p -> forall m m', (forall l, R l \/ W l -> m l = m' l) -> forall l, W l -> run p m l = run p m' l.
Proof.
  induction 1 as [|l k Hl Hk IH|l x k Hl Hk IH]; intros m m' E l' Hl'; cbn.
  - apply E. right. exact Hl'.
  - rewrite (E l (or_introl Hl)). apply IH; assumption.
  - apply IH; [|exact Hl']. intros l'' H''. unfold put. destruct (leq l l''); [reflexivity|apply E, H''].
Qed.

Lemma run_ext p : forall m m', (forall l, m l = m' l) -> forall l, run p m l = run p m' l.
Proof.
  induction p as [|l k IH|l x k IH]; intros m m' E l'; cbn; [apply E|rewrite (E l); apply IH, E|].
  apply IH. intros l''. unfold put. destruct (leq l l''); [reflexivity|apply E].
Qed.
Lemma runs_ext ps : forall m m', (forall l, m l = m' l) -> forall l, fold_left (fun m p => run p m) ps m l = fold_left (fun m p => run p m) ps m' l.
Proof. induction ps as [|p ps IH]; intros m m' E l; cbn; [apply E|]. apply IH. apply run_ext, E. Qed.
Lemma run_put R W p : foot R W p -> forall m l x, ~ R l -> ~ W l -> forall l', run p (put m l x) l' = put (run p m) l x l'.
Proof.
  induction 1 as [|l0 k Hl Hk IH|l0 y k Hl Hk IH]; intros m l x NR NW l'; cbn; [reflexivity| |].
  - assert (E : put m l x l0 = m l0) by (unfold put; destruct (leq l l0) as [->|]; [contradiction|reflexivity]). rewrite E. apply IH; assumption.
  - rewrite <- (IH (put m l0 y) l x NR NW l'). apply run_ext. intros l''. unfold put.
    destruct (leq l0 l'') as [->|]; destruct (leq l l'') as [->|]; try reflexivity. contradiction.
Qed.

(** Threads whose stores nobody else loads or stores. *)
Definition separate (fs : list ((L -> Prop) * (L -> Prop))) : Prop :=
  ForallOrdPairs (fun f g : (L -> Prop) * (L -> Prop) => (forall l, snd f l -> ~ fst g l /\ ~ snd g l) /\ (forall l, snd g l -> ~ fst f l)) fs.
Definition feet fs ts : Prop := Forall2 (fun (f : (L -> Prop) * (L -> Prop)) p => foot (fst f) (snd f) p) fs ts.
Lemma separate_mid a f b : separate (a ++ f :: b) -> forall g, In g a -> (forall l, snd g l -> ~ fst f l /\ ~ snd f l) /\ (forall l, snd f l -> ~ fst g l).
Proof.
  induction a as [|h a IH]; intros H g Hg; [destruct Hg|]. inversion H as [|h0 t0 Hh Ht]; subst. destruct Hg as [->|Hg]; [|apply IH; assumption].
  rewrite Forall_forall in Hh. apply Hh. apply in_or_app. right. left. reflexivity.
Qed.
Lemma feet_keep fa ta : feet fa ta -> forall l, (forall f, In f fa -> ~ snd f l) -> forall m, fold_left (fun m p => run p m) ta m l = m l.
Proof.
  induction 1 as [|f p fs ts Hf HF IH]; intros l Hl m; cbn; [reflexivity|]. rewrite IH by (intros g Hg; apply Hl; right; exact Hg).
  apply (run_outside _ _ _ Hf). apply Hl. left. reflexivity.
Qed.
Lemma feet_put fa ta : feet fa ta -> forall l x, (forall f, In f fa -> ~ fst f l /\ ~ snd f l) -> forall m l',
  fold_left (fun m p => run p m) ta (put m l x) l' = put (fold_left (fun m p => run p m) ta m) l x l'.
Proof.
  induction 1 as [|f p fs ts Hf HF IH]; intros l x Hl m l'; cbn; [reflexivity|].
  rewrite <- (IH l x (fun g Hg => Hl g (or_intror Hg)) (run p m) l'). apply runs_ext. intros l''. destruct (Hl f (or_introl eq_refl)) as [N1 N2]. apply (run_put _ _ _ Hf); assumption.
Qed.
(** Every execution of such threads ends in the memory that running them one after the other gives. *)
Theorem exec_seq ts m m' : exec ts m m' -> forall fs, separate fs -> feet fs ts -> forall l, m' l = fold_left (fun m p => run p m) ts m l.
Proof.
  induction 1 as [ts m Hd|a l k b m m' He IH|a l x k b m m' He IH]; intros fs Hs HF l'.
  - clear HF Hs fs. induction ts as [|p ts IHt]; [reflexivity|]. cbn. rewrite (Hd p (or_introl eq_refl)). cbn. apply IHt. intros q Hq. apply Hd. right. exact Hq.
  - unfold feet in HF. apply Forall2_app_inv_r in HF. destruct HF as (fa & fb & Ha & Hb & ->). inversion Hb as [|f p fb' b' Hf Hb']; subst. inversion Hf as [|l0 k0 Rl Hk|]; subst.
    rewrite (IH (fa ++ f :: fb') Hs) by (apply Forall2_app; [exact Ha|constructor; [apply Hk|exact Hb']]).
    rewrite !fold_left_app. cbn [fold_left run]. rewrite (feet_keep fa a Ha l); [reflexivity|]. intros g Hg Wg. destruct (separate_mid _ _ _ Hs g Hg) as [S1 S2]. destruct (S1 l Wg) as [N _]. contradiction.
  - unfold feet in HF. apply Forall2_app_inv_r in HF. destruct HF as (fa & fb & Ha & Hb & ->). inversion Hb as [|f p fb' b' Hf Hb']; subst. inversion Hf as [| |l0 x0 k0 Wl Hk]; subst.
    rewrite (IH (fa ++ f :: fb') Hs) by (apply Forall2_app; [exact Ha|constructor; [exact Hk|exact Hb']]).
    rewrite !fold_left_app. cbn [fold_left run]. apply runs_ext. apply run_ext. intros l''. apply (feet_put fa a Ha). intros g Hg. destruct (separate_mid _ _ _ Hs g Hg) as [S1 S2].
    split; [apply S2, Wl|]. intros Wg. destruct (S1 l Wg) as [_ N]. contradiction.
Qed.
(** Some execution always exists: the threads one after the other. *)
Lemma exec_prepend p : forall ts m m', exec (Ret :: ts) (run p m) m' -> exec (p :: ts) m m'.
Proof.
  induction p as [|l k IH|l x k IH]; intros ts m m' He; cbn in He; [exact He| |].
  - apply (exec_load [] l k ts m m'). cbn. apply IH. exact He.
  - apply (exec_store [] l x k ts m m'). cbn. apply IH. exact He.
Qed.
Lemma exec_cons_ret ts m m' : exec ts m m' -> exec (Ret :: ts) m m'.
Proof.
  induction 1 as [ts m Hd|a l k b m m' He IH|a l x k b m m' He IH].
  - apply exec_done. intros p [<-|Hp]; [reflexivity|apply Hd, Hp].
  - apply (exec_load (Ret :: a) l k b m m'). exact IH.
  - apply (exec_store (Ret :: a) l x k b m m'). exact IH.
Qed.
Lemma exec_exists ts : forall m, exec ts m (fold_left (fun m p => run p m) ts m).
Proof.
  induction ts as [|p ts IH]; intros m; cbn; [apply exec_done; intros q []|]. apply exec_prepend. apply exec_cons_ret, IH.
Qed.

(** The threads of a launch, each with a list of items to work on: if what the items own is
    not shared and owned once, every execution ends as if the items were processed in turn. *)
Section Kernel.
Context {T I : Type}.
Variables (ths : list T) (items : T -> list I) (pr : I -> prog) (shared : L -> Prop) (own : I -> L -> Prop).
Hypothesis Hfoot : forall it, In it (flat_map items ths) -> foot (fun l => shared l \/ own it l) (own it) (pr it).
Hypothesis Hshared : forall it l, In it (flat_map items ths) -> own it l -> ~ shared l.
Hypothesis Hown : ForallOrdPairs (fun a b => forall l, own a l -> ~ own b l) (flat_map items ths).

Lemma ord_pairs_app {A} (R : A -> A -> Prop) (l1 l2 : list A) : ForallOrdPairs R (l1 ++ l2) -> ForallOrdPairs R l2 /\ forall a b, In a l1 -> In b l2 -> R a b.
Proof.
  induction l1 as [|x l1 IH]; intros H; [split; [exact H|intros a b []]|]. inversion H as [|x0 l0 Hx Hl]; subst. destruct (IH Hl) as [I1 I2]. split; [exact I1|].
  intros a b [<-|Ha] Hb; [|apply I2; assumption]. rewrite Forall_forall in Hx. apply Hx. apply in_or_app. right. exact Hb.
Qed.
Lemma kernel_seq m m' : exec (map (fun t => seqp (map pr (items t))) ths) m m' -> forall l, m' l = fold_left (fun m it => run (pr it) m) (flat_map items ths) m l.
Proof.
  set (fr := fun t l => shared l \/ exists it, In it (items t) /\ own it l). set (fw := fun t l => exists it, In it (items t) /\ own it l).
  intros He l. rewrite (exec_seq _ _ _ He (map (fun t => (fr t, fw t)) ths)).
  - clear. revert m. induction ths as [|t ts IH]; intros m; [reflexivity|]. cbn [map fold_left flat_map]. rewrite fold_left_app, IH.
    assert (E : run (seqp (map pr (items t))) m = fold_left (fun m it => run (pr it) m) (items t) m).
    { rewrite run_seqp. generalize (items t) as its. intros its. revert m. induction its as [|x its IHi]; intros m; [reflexivity|]. cbn. apply IHi. }
    rewrite E. reflexivity.
  - revert Hshared Hown. clear. intros Hshared Hown. induction ths as [|t ts IH]; [constructor|]. cbn [map]. cbn [flat_map] in Hown, Hshared.
    destruct (ord_pairs_app _ _ _ Hown) as [O1 O2]. constructor; [|apply IH; [intros it l Hi; apply Hshared; apply in_or_app; right; exact Hi|exact O1]].
    apply Forall_forall. intros f Hf. apply in_map_iff in Hf. destruct Hf as (u & <- & Hu). cbn [fst snd].
    assert (X : forall it, In it (items u) -> In it (flat_map items ts)) by (intros it Hi; apply in_flat_map; exists u; auto).
    split; [intros l (it & Hi & Hl); split|intros l (it & Hi & Hl)].
    + intros [S|(b & Hb & Hb')]; [apply (Hshared it l); [apply in_or_app; left; exact Hi|exact Hl|exact S]|]. apply (O2 it b Hi (X b Hb) l Hl Hb').
    + intros (b & Hb & Hb'). apply (O2 it b Hi (X b Hb) l Hl Hb').
    + intros [S|(b & Hb & Hb')]; [apply (Hshared it l); [apply in_or_app; right; apply X; exact Hi|exact Hl|exact S]|]. apply (O2 b it Hb (X it Hi) l Hb' Hl).
  - revert Hfoot. clear. intros Hfoot. induction ths as [|t ts IH]; [constructor|]. cbn [map]. cbn [flat_map] in Hfoot. constructor; [|apply IH; intros it Hi; apply Hfoot; apply in_or_app; right; exact Hi].
    cbn [fst snd]. apply foot_seqp. apply Forall_forall. intros p Hp. apply in_map_iff in Hp. destruct Hp as (it & <- & Hi).
    apply (foot_weaken (fun l => shared l \/ own it l) (own it)); [apply Hfoot; apply in_or_app; left; exact Hi| |].
    + intros l [S|O]; [left; exact S|right; exists it; auto].
    + intros l O. exists it. auto.
Qed.
End Kernel.
Lemma own_pairs {I} (own : I -> L -> Prop) (l : list I) : NoDup l -> (forall a b, In a l -> In b l -> a <> b -> forall x, own a x -> ~ own b x) -> ForallOrdPairs (fun a b => forall x, own a x -> ~ own b x) l.
Proof.
  intros Hn H. induction Hn as [|x l Hx Hl IH]; constructor.
  - apply Forall_forall. intros y Hy. apply H; [left; reflexivity|right; exact Hy|]. intros ->. contradiction.
  - apply IH. intros a b Ha Hb. apply H; right; assumption.
Qed.
(** Items processed in turn: where an item stores, its own effect on the initial memory is found
    in the end; elsewhere nothing changes. *)
Lemma items_keep {I} (pr : I -> prog) (shared : L -> Prop) (own : I -> L -> Prop) its : (forall it, In it its -> foot (fun l => shared l \/ own it l) (own it) (pr it)) ->
  forall m l, (forall it, In it its -> ~ own it l) -> fold_left (fun m it => run (pr it) m) its m l = m l.
Proof.
  induction its as [|x its IH]; intros Hf m l Hl; cbn; [reflexivity|]. rewrite IH; [|intros it Hi; apply Hf; right; exact Hi|intros it Hi; apply Hl; right; exact Hi].
  apply (run_outside _ _ _ (Hf x (or_introl eq_refl))). apply Hl. left. reflexivity.
Qed.
Lemma items_item {I} (pr : I -> prog) (shared : L -> Prop) (own : I -> L -> Prop) its : (forall it, In it its -> foot (fun l => shared l \/ own it l) (own it) (pr it)) ->
  (forall it l, In it its -> own it l -> ~ shared l) -> ForallOrdPairs (fun a b => forall l, own a l -> ~ own b l) its ->
  forall m it l, In it its -> own it l -> fold_left (fun m it => run (pr it) m) its m l = run (pr it) m l.
Proof.
  induction its as [|x its IH]; intros Hf Hs Ho m it l Hi Hl; [destruct Hi|]. inversion Ho as [|? ? Hx Ho']; subst. rewrite Forall_forall in Hx. cbn [fold_left]. destruct Hi as [<-|Hi].
  - apply (items_keep pr shared own); [intros it Hi; apply Hf; right; exact Hi|]. intros it Hi. apply (Hx it Hi l Hl).
  - rewrite (IH (fun it Hi => Hf it (or_intror Hi)) (fun it l Hi => Hs it l (or_intror Hi)) Ho' _ it l Hi Hl).
    apply (run_frame _ _ _ (Hf it (or_intror Hi))); [|exact Hl]. intros l' H'. apply (run_outside _ _ _ (Hf x (or_introl eq_refl))). intros O. destruct H' as [[S|O']|O'].
    + apply (Hs x l' (or_introl eq_refl) O S).
    + apply (Hx it Hi l' O O').
    + apply (Hx it Hi l' O O').
Qed.
End Threads.
Arguments prog : clear implicits.
Arguments mem : clear implicits.
