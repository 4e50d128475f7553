(** * Blocks of GPU threads with barriers ([__syncthreads]), and their executions. *)
From Coq Require Import List ZArith Lia Bool.
From Verif Require Import Threads.
Import ListNotations.

Section Barrier.
Context {L V : Type}.
Variable leq : forall a b : L, {a = b} + {a <> b}.
(** A block: the threads up to the next barrier, and what they do after it, barrier by barrier.  What a thread keeps
    across a barrier is in memory that is its own. *)
Notation block := (list (prog L V) * list (list (prog L V)))%type.
(** All executions of a launch: some thread of some block makes its next access, or all threads of a block have
    reached the barrier and go on. *)
Inductive bexec : list block -> mem L V -> mem L V -> Prop :=
| bexec_done bs m : (forall b, In b bs -> snd b = [] /\ forall p, In p (fst b) -> p = Ret) -> bexec bs m m
| bexec_load A a l k b ph B m m' : bexec (A ++ (a ++ k (m l) :: b, ph) :: B) m m' -> bexec (A ++ (a ++ Load l k :: b, ph) :: B) m m'
| bexec_store A a l x k b ph B m m' : bexec (A ++ (a ++ k :: b, ph) :: B) (put leq m l x) m' -> bexec (A ++ (a ++ Store l x k :: b, ph) :: B) m m'
| bexec_bar A ts ts' ph B m m' : (forall p, In p ts -> p = Ret) -> bexec (A ++ (ts', ph) :: B) m m' -> bexec (A ++ (ts, ts' :: ph) :: B) m m'.

(** The block as one thread. *)
Definition flat (b : block) : list (prog L V) := fst b ++ concat (snd b).
Definition serial (b : block) : prog L V := seqp (flat b).
Definition runs (ps : list (prog L V)) (m : mem L V) : mem L V := fold_left (fun m p => run leq p m) ps m.
Definition quiet (ts : list (prog L V)) : Prop := exists fs, separate fs /\ feet fs ts.
Definition block_ok (f : (L -> Prop) * (L -> Prop)) (b : block) : Prop := Forall (foot (fst f) (snd f)) (flat b) /\ Forall quiet (fst b :: snd b).

Lemma run_serial b m : run leq (serial b) m = runs (flat b) m.
Proof. apply run_seqp. Qed.
Lemma feet_foot fs bs : Forall2 block_ok fs bs -> feet fs (map serial bs).
Proof. induction 1 as [|f b fs bs [H _] HF IH]; cbn; constructor; [apply foot_seqp, H|exact IH]. Qed.
Lemma runs_rets ts : (forall p, In p ts -> p = Ret) -> forall m, runs ts m = m.
Proof. unfold runs. induction ts as [|p ts IH]; intros H m; cbn; [reflexivity|]. rewrite (H p (or_introl eq_refl)). cbn. apply IH. intros q Hq. apply H. right. exact Hq. Qed.
Lemma runs_cons p ps m : runs (p :: ps) m = runs ps (run leq p m).
Proof. reflexivity. Qed.
Lemma runs_app a b m : runs (a ++ b) m = runs b (runs a m).
Proof. apply fold_left_app. Qed.
Lemma runs_same ps m m' : (forall l, m l = m' l) -> forall l, runs ps m l = runs ps m' l.
Proof. intros E. apply runs_ext. exact E. Qed.

(** Every execution ends as if the blocks, and in them the threads between barriers, were run in turn. *)
Theorem bexec_seq bs m m' : bexec bs m m' -> forall fs, separate fs -> Forall2 block_ok fs bs -> forall l, m' l = runs (map serial bs) m l.
Proof.
  induction 1 as [bs m Hd|A a l k b ph B m m' He IH|A a l x k b ph B m m' He IH|A ts ts' ph B m m' Ht He IH]; intros fs Hs HF l'.
  - clear HF Hs fs. unfold runs. induction bs as [|c bs IHb]; [reflexivity|]. cbn [map fold_left]. rewrite run_serial. unfold flat.
    destruct (Hd c (or_introl eq_refl)) as [E1 E2]. rewrite E1. cbn [concat]. rewrite app_nil_r, (runs_rets (fst c) E2). apply IHb. intros q Hq. apply Hd. right. exact Hq.
  - apply Forall2_app_inv_r in HF. destruct HF as (fa & fb & Ha & Hb & ->). inversion Hb as [|f c fb' B' [Hf Hq] Hb']; subst. cbn [fst snd flat] in *.
    unfold flat in Hf. cbn [fst snd] in Hf. rewrite <- app_assoc in Hf. pose proof Hf as Hf0. apply Forall_app in Hf. destruct Hf as [Fa Fr]. inversion Fr as [|q qs Fl Fr']; subst.
    inversion Fl as [|l0 k0 Rl Fk|]; subst. inversion Hq as [|q qs (gs & Gs & Gf) Hq']; subst.
    pose proof Gf as Gf0. apply Forall2_app_inv_r in Gf. destruct Gf as (ga & gb & Ga & Gb & ->). inversion Gb as [|g q gb' b' Gk Gb']; subst. inversion Gk as [|l1 k1 Rg Gk'|]; subst.
    rewrite (IH (fa ++ f :: fb') Hs).
    + rewrite !map_app. cbn [map]. rewrite !runs_app. rewrite !runs_cons. remember (runs (map serial A) m) as M eqn:HM.
      assert (EM : M l = m l).
      { rewrite HM; unfold runs. apply (feet_keep leq fa _ (feet_foot _ _ Ha)). intros h Hh Wh. destruct (separate_mid _ _ _ Hs h Hh) as [S1 S2]. destruct (S1 l Wh). contradiction. }
      apply runs_ext. intros l2. rewrite !run_serial. unfold flat. cbn [fst snd]. rewrite <- !app_assoc, !runs_app. cbn [app]. rewrite !runs_cons. cbn [run].
      assert (EL : runs a M l = m l).
      { rewrite <- EM. unfold runs. apply (feet_keep leq ga _ Ga). intros h Hh Wh. destruct (separate_mid _ _ _ Gs h Hh) as [S1 S2]. destruct (S1 l Wh). contradiction. }
      rewrite EL. reflexivity.
    + apply Forall2_app; [exact Ha|]. constructor; [|exact Hb']. split.
      * unfold flat. cbn [fst snd]. rewrite <- app_assoc. apply Forall_app. split; [exact Fa|]. cbn [app]. constructor; [apply Fk|exact Fr'].
      * cbn [fst snd]. constructor; [|exact Hq']. exists (ga ++ g :: gb'). split; [exact Gs|]. apply Forall2_app; [exact Ga|]. constructor; [apply Gk'|exact Gb'].
  - apply Forall2_app_inv_r in HF. destruct HF as (fa & fb & Ha & Hb & ->). inversion Hb as [|f c fb' B' [Hf Hq] Hb']; subst. cbn [fst snd flat] in *.
    unfold flat in Hf. cbn [fst snd] in Hf. rewrite <- app_assoc in Hf. apply Forall_app in Hf. destruct Hf as [Fa Fr]. inversion Fr as [|q qs Fl Fr']; subst.
    inversion Fl as [| |l0 x0 k0 Wl Fk]; subst. inversion Hq as [|q qs (gs & Gs & Gf) Hq']; subst.
    apply Forall2_app_inv_r in Gf. destruct Gf as (ga & gb & Ga & Gb & ->). inversion Gb as [|g q gb' b' Gk Gb']; subst. inversion Gk as [| |l1 x1 k1 Wg Gk']; subst.
    rewrite (IH (fa ++ f :: fb') Hs).
    + rewrite !map_app. cbn [map]. rewrite !runs_app. rewrite !runs_cons. remember (runs (map serial A) m) as M eqn:HM.
      assert (EM : forall l2, runs (map serial A) (put leq m l x) l2 = put leq M l x l2).
      { intros l2. rewrite HM; unfold runs. apply (feet_put leq fa _ (feet_foot _ _ Ha)). intros h Hh. destruct (separate_mid _ _ _ Hs h Hh) as [S1 S2]. split; [apply S2, Wl|]. intros Wh. destruct (S1 l Wh). contradiction. }
      apply runs_ext. intros l2. rewrite (run_ext leq _ _ _ EM l2). rewrite !run_serial. unfold flat. cbn [fst snd]. rewrite <- !app_assoc, !runs_app. cbn [app]. rewrite !runs_cons. cbn [run].
      apply runs_ext. apply runs_ext. apply run_ext. intros l3. unfold runs. apply (feet_put leq ga _ Ga). intros h Hh. destruct (separate_mid _ _ _ Gs h Hh) as [S1 S2]. split; [apply S2, Wg|]. intros Wh. destruct (S1 l Wh). contradiction.
    + apply Forall2_app; [exact Ha|]. constructor; [|exact Hb']. split.
      * unfold flat. cbn [fst snd]. rewrite <- app_assoc. apply Forall_app. split; [exact Fa|]. cbn [app]. constructor; [exact Fk|exact Fr'].
      * cbn [fst snd]. constructor; [|exact Hq']. exists (ga ++ g :: gb'). split; [exact Gs|]. apply Forall2_app; [exact Ga|]. constructor; [exact Gk'|exact Gb'].
  - apply Forall2_app_inv_r in HF. destruct HF as (fa & fb & Ha & Hb & ->). inversion Hb as [|f c fb' B' [Hf Hq] Hb']; subst. cbn [fst snd] in *. inversion Hq as [|q qs Hq0 Hq']; subst.
    unfold flat in Hf. cbn [fst snd concat] in Hf. apply Forall_app in Hf. destruct Hf as [_ Hf].
    rewrite (IH (fa ++ f :: fb') Hs).
    + rewrite !map_app. cbn [map]. rewrite !runs_app. rewrite !runs_cons, !run_serial. unfold flat. cbn [fst snd concat]. rewrite (runs_app ts), (runs_rets ts Ht). reflexivity.
    + apply Forall2_app; [exact Ha|]. constructor; [|exact Hb']. split; [exact Hf|exact Hq'].
Qed.

(** Some execution always exists. *)
Lemma bexec_thread p : forall A a b ph B m m', bexec (A ++ (a ++ Ret :: b, ph) :: B) (run leq p m) m' -> bexec (A ++ (a ++ p :: b, ph) :: B) m m'.
Proof.
  induction p as [|l k IH|l x k IH]; intros A a b ph B m m' He; cbn in He; [exact He| |].
  - apply bexec_load. apply IH. exact He.
  - apply bexec_store. apply IH. exact He.
Qed.
Lemma bexec_phase ts : forall A a ph B m m', (forall p, In p a -> p = Ret) ->
  (forall rs, (forall p, In p rs -> p = Ret) -> bexec (A ++ (rs, ph) :: B) (runs ts m) m') -> bexec (A ++ (a ++ ts, ph) :: B) m m'.
Proof.
  induction ts as [|p ts IH]; intros A a ph B m m' Ha H.
  - rewrite app_nil_r. apply H. exact Ha.
  - apply bexec_thread. change (a ++ Ret :: ts) with (a ++ [Ret] ++ ts). rewrite app_assoc. apply IH; [|exact H].
    intros q Hq. apply in_app_or in Hq. destruct Hq as [Hq|[<-|[]]]; [apply Ha, Hq|reflexivity].
Qed.
Lemma bexec_block ph : forall A ts B m m',
  (forall rs, (forall p, In p rs -> p = Ret) -> bexec (A ++ (rs, []) :: B) (runs (ts ++ concat ph) m) m') -> bexec (A ++ (ts, ph) :: B) m m'.
Proof.
  induction ph as [|t2 ph IH]; intros A ts B m m' H.
  - apply (bexec_phase ts A [] [] B); [intros p []|]. intros rs Hrs. rewrite app_nil_r in H. apply H, Hrs.
  - apply (bexec_phase ts A [] (t2 :: ph) B); [intros p []|]. intros rs Hrs. apply bexec_bar; [exact Hrs|]. apply IH. intros rs' H'. rewrite <- runs_app. apply H, H'.
Qed.
Lemma bexec_exists_aux bs : forall A m, (forall b, In b A -> snd b = [] /\ forall p, In p (fst b) -> p = Ret) -> bexec (A ++ bs) m (runs (map serial bs) m).
Proof.
  induction bs as [|[ts ph] bs IH]; intros A m HA.
  - rewrite app_nil_r. apply bexec_done. exact HA.
  - apply bexec_block. intros rs Hrs. change ((rs, []) :: bs) with ([(rs, [])] ++ bs). rewrite app_assoc.
    cbn [map]. rewrite runs_cons, run_serial. unfold flat at 1. cbn [fst snd]. apply IH.
    intros b Hb. apply in_app_or in Hb. destruct Hb as [Hb|[<-|[]]]; [apply HA, Hb|]. split; [reflexivity|exact Hrs].
Qed.
Lemma bexec_exists bs m : bexec bs m (runs (map serial bs) m).
Proof. apply (bexec_exists_aux bs []). intros b []. Qed.
End Barrier.
