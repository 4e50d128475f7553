(** * The commands of the propagators are ordered. *)
From Coq Require Import List ZArith Lia Bool.
From Verif Require Import StreamModel StreamThm.
Import ListNotations.
Local Open Scope Z_scope.

Section Lists.
Variable mem : Type.
Notation cmd := (cmd mem).
Notation comm := (comm mem).
Notation reach := (reach mem).
Notation good := (good mem).
(** [x], then the commands [b], then [L]. *)
Fixpoint after (x : cmd) (b L : list cmd) : Prop :=
  match L with [] => True | c :: d => (comm x c \/ reach x b c) /\ after x (b ++ [c]) d end.
Lemma after_in x : forall L b a2 c d, after x b L -> L = a2 ++ c :: d -> comm x c \/ reach x (b ++ a2) c.
Proof.
  induction L as [|c' L IH]; intros b a2 c d H E; [destruct a2; discriminate|]. destruct H as [H1 H2]. destruct a2 as [|y a2]; cbn in E.
  - injection E as <- <-. rewrite app_nil_r. exact H1.
  - injection E as <- E. replace (b ++ c' :: a2) with ((b ++ [c']) ++ a2) by (rewrite <- app_assoc; reflexivity). apply (IH _ _ _ _ H2 E).
Qed.
Fixpoint allgood (L : list cmd) : Prop := match L with [] => True | x :: d => after x [] d /\ allgood d end.
Lemma allgood_good : forall L, allgood L -> good L.
Proof.
  induction L as [|x L IH]; intros H a y b c d E; [destruct a; discriminate|]. destruct H as [H1 H2]. destruct a as [|z a]; cbn in E.
  - injection E as <- E. exact (after_in _ _ [] _ _ _ H1 E).
  - injection E as <- E. exact (IH H2 _ _ _ _ _ E).
Qed.
Lemma good_after L1 L2 : good L1 -> good L2 -> (forall a x b, L1 = a ++ x :: b -> after x b L2) -> good (L1 ++ L2).
Proof. intros G1 G2 H. apply good_app; [assumption..|]. intros a x b a2 c d E1 E2. exact (after_in _ _ _ _ _ _ (H a x b E1) E2). Qed.
(** Commands of a list, for those followed by others. *)
Lemma split_app (Q : cmd -> list cmd -> Prop) L1 L2 : (forall x b, Q x b -> forall b', Q x (b ++ b')) ->
  (forall a x b, L1 = a ++ x :: b -> Q x b) -> (forall a x b, L2 = a ++ x :: b -> Q x b) -> forall a x b, L1 ++ L2 = a ++ x :: b -> Q x b.
Proof.
  intros M H1 H2 a x b E. destruct (app_eq_app _ _ _ _ E) as (l & [[E1 E2]|[E1 E2]]).
  - destruct l as [|x' l]; cbn in E2; [apply (H2 [] x b (eq_sym E2))|]. injection E2 as <- E2. subst b. apply M. apply (H1 a x l E1).
  - apply (H2 l x b E2).
Qed.
Fixpoint tails (Q : cmd -> list cmd -> Prop) (L : list cmd) : Prop := match L with [] => True | x :: b => Q x b /\ tails Q b end.
Lemma tails_all Q : forall L, tails Q L -> forall a x b, L = a ++ x :: b -> Q x b.
Proof.
  induction L as [|y L IH]; intros H a x b E; [destruct a; discriminate|]. destruct H as [H1 H2]. destruct a as [|z a]; cbn in E; injection E as <- E; [subst b; exact H1|exact (IH H2 _ _ _ E)].
Qed.
Lemma reach_rec x y b z c s e : stream_of x = s -> In (Rec s e) b -> y = Wt z e -> stream_of c = z -> forall p, reach x (b ++ y :: p) c.
Proof.
  intros Hx Hb -> Hc p. apply in_split in Hb. destruct Hb as (b1 & b2 & ->). rewrite <- app_assoc. cbn [app]. apply reach_in; [left; exact Hx|]. apply reach_in; [right; reflexivity|]. apply stream_reach. symmetry. exact Hc.
Qed.
Fixpoint heads (Q : list cmd -> cmd -> Prop) (p L : list cmd) : Prop := match L with [] => True | c :: d => Q p c /\ heads Q (p ++ [c]) d end.
Lemma heads_all Q : forall L p, heads Q p L -> forall a x b, L = a ++ x :: b -> Q (p ++ a) x.
Proof.
  induction L as [|y L IH]; intros p H a x b E; [destruct a; discriminate|]. destruct H as [H1 H2]. destruct a as [|z a]; cbn in E; injection E as <- E; [rewrite app_nil_r; exact H1|].
  replace (p ++ y :: a) with ((p ++ [y]) ++ a) by (rewrite <- app_assoc; reflexivity). exact (IH _ H2 _ _ _ E).
Qed.
Lemma enters_heads L : heads (fun a c => stream_of c <> Comp -> (forall M, act c M = M) \/ exists a1 y a2, a = a1 ++ y :: a2 /\ stream_of y = Comp /\ reach y a2 c) [] L -> enters mem L.
Proof. intros H a c b Ea Hc. exact (heads_all _ _ _ H a c b Ea Hc). Qed.
End Lists.
Ltac app_norm := cbn [app]; repeat (rewrite <- app_assoc; cbn [app]).
Ltac splits := repeat match goal with |- _ /\ _ => split end.
Ltac linked := first [left; reflexivity | right; reflexivity].
Ltac reached := first [apply r_link; linked | apply r_via; [linked|reached] | apply r_skip; reached].

Local Opaque Z.modulo Z.div.
Section Prog.
Variables X D E : Type.
Variable fwd : Z -> X -> X.
Variable snap : Z -> X -> D.
Variable fwd2 : Z -> X -> X.
Variable comp : D -> E.
Variable decomp : E -> D.
Variable pre : Z -> X -> X.
Variable bwd : Z -> X -> option D -> X.
Variable post : Z -> X -> X.
Variable fin : X -> X.
Variable via everyF everyB : bool.
Variable sr : Z.
Hypothesis Hsr : 1 <= sr.
Notation mem := (mem X D E).
Notation store := (store sr).
Notation odd_step := (odd_step sr).
Notation kernF := (kernF X D E fwd snap sr).
Notation stepF := (stepF X D E fwd snap fwd2 comp via everyF sr).
Notation callF := (callF X D E fwd snap fwd2 comp via everyF sr).
Notation kernB := (kernB X D E bwd sr).
Notation stepB := (stepB X D E decomp pre bwd post via everyB sr).
Notation callB := (callB X D E decomp pre bwd post fin via everyB sr).
Notation xop g := (Op Comp (fun M : mem => set_x X D E (g (mx M)) M)).
Notation good := (good mem).
Notation comm := (comm mem).
Notation reach := (reach mem).

(** ** Forward *)
(** A command of the storage stream that touches the buffer [i] only. *)
Definition lim (i : bool) (x : cmd mem) : Prop :=
  (forall t, store t = false \/ odd_step t = negb i -> comm x (Op Comp (kernF t))) /\ (forall g : X -> X, comm x (xop g)).
Definition statF (c : nat) (x : cmd mem) (b : list (cmd mem)) : Prop :=
  stream_of x = Comp \/ (stream_of x = Stor c /\ ((forall M, act x M = M) \/ exists i, lim i x /\ In (Rec (Stor c) (c, SD, i)) b)).
(** The last record of the storage stream. *)
Definition lastrec (c : nat) (L : list (cmd mem)) (i : bool) : Prop :=
  exists L1 L2, L = L1 ++ Rec (Stor c) (c, SD, i) :: L2 /\ forall x, In x L2 -> stream_of x = Comp.
Record invF (c : nat) (L : list (cmd mem)) : Prop := {
  if_good : good L;
  if_enters : enters mem L;
  if_stat : forall a x b, L = a ++ x :: b -> statF c x b }.

Lemma saves_lim c t x : In x (saves X D E comp via sr c t) -> lim (odd_step t) x /\ stream_of x = Stor c.
Proof.
  unfold saves. intros H. destruct via; [destruct H as [<-|[<-|[]]]|destruct H as [<-|[]]]; (split; [|reflexivity]); split; [intros t' Ht M|intros g M|intros t' Ht M|intros g M|intros t' Ht M|intros g M]; try reflexivity;
  cbn; unfold StreamModel.kernF; (destruct Ht as [->|Ht]; [reflexivity|]); destruct (store t'); try reflexivity; rewrite Ht; destruct (odd_step t); reflexivity.
Qed.
Lemma statF_post c x b : statF c x b -> forall b', statF c x (b ++ b').
Proof. intros [H|(H1 & [H|(i & H2 & H3)])] b'; [left; exact H|right; auto|right; split; [exact H1|right; exists i; split; [exact H2|apply in_or_app; auto]]]. Qed.

Lemma step_stat c t : forall a x b, stepF c t = a ++ x :: b -> statF c x b.
Proof.
  assert (S : forall x, In x (saves X D E comp via sr c t) -> store t = true -> forall b, In (Rec (Stor c) (sdF everyF sr c t)) b -> statF c x b).
  { intros x Hx Hs b Hb. destruct (saves_lim c t x Hx) as [H1 H2]. right. split; [exact H2|]. right. exists (odd_step t). split; [exact H1|]. unfold sdF in Hb. rewrite Hs, orb_true_r in Hb. exact Hb. }
  apply tails_all. unfold StreamModel.stepF. destruct (store t) eqn:Hs.
  - rewrite orb_true_r. unfold saves in S |- *. destruct via; cbn; (repeat split); try (left; reflexivity); try (right; split; [reflexivity|left; reflexivity]); (apply S; cbn; auto).
  - destruct (everyF); cbn; (repeat split); try (left; reflexivity); try (right; split; [reflexivity|left; reflexivity]).
Qed.
Lemma step_good c t : good (stepF c t).
Proof.
  apply allgood_good. unfold StreamModel.stepF. destruct (store t) eqn:Hs.
  - rewrite orb_true_r. unfold saves. destruct via; cbn; (repeat split); first [left; intros M; reflexivity|right; reached].
  - destruct everyF; cbn; (repeat split); first [left; intros M; reflexivity|right; reached].
Qed.
Lemma step_enters c t : enters mem (stepF c t).
Proof.
  apply enters_heads. unfold StreamModel.stepF. destruct (store t) eqn:Hs.
  - rewrite orb_true_r. unfold saves. destruct via; cbn; (repeat split); intros H; try (exfalso; apply H; reflexivity); try (left; reflexivity); right;
      match goal with |- exists a1 y a2, ?w :: ?k :: ?r :: ?l = _ /\ _ => exists [w; k], r, l end; (split; [reflexivity|]); (split; [reflexivity|]); reached.
  - destruct everyF; cbn; (repeat split); intros H; try (exfalso; apply H; reflexivity); left; reflexivity.
Qed.
Lemma step_inv c t L : invF c L -> invF c (L ++ stepF c t).
Proof.
  intros [G N S]. constructor.
  - apply good_after; [exact G|apply step_good|]. intros a x b Hl. specialize (S a x b Hl).
    assert (A : forall c' d b', (comm x c' \/ reach x b' c') -> after mem x (b' ++ [c']) d -> after mem x b' (c' :: d)) by (intros c' d b' H1 H2; split; assumption).
    assert (I : forall d b', (forall M, act x M = M) -> after mem x b' d).
    { induction d as [|c' d IH]; intros b' H; [exact Logic.I|]. apply A; [left; apply comm_id_l, H|apply IH, H]. }
    destruct S as [S|(S & [S'|(i & [S1 S2] & S3)])]; [| |].
    + unfold StreamModel.stepF. destruct (store t) eqn:Hs.
      * rewrite orb_true_r. unfold saves. destruct via; cbn [app after]; splits; try exact Logic.I;
          first [right; apply stream_reach; exact S|left; apply comm_id_r; reflexivity|right; app_norm; apply reach_pre; apply r_skip, r_skip, r_via; [left; exact S|]; reached].
      * destruct everyF; cbn [app orb after]; splits; try exact Logic.I; first [right; apply stream_reach; exact S|left; apply comm_id_r; reflexivity].
    + apply I, S'.
    + assert (K : store t = false \/ odd_step t = negb i \/ (store t = true /\ odd_step t = i)) by (destruct (store t); [|auto]; destruct (odd_step t), i; auto).
      unfold StreamModel.stepF. destruct K as [K|K].
      * rewrite K. destruct (everyF); cbn [app orb after]; splits; try exact Logic.I; first [left; apply comm_id_r; reflexivity|left; apply S1; left; exact K|left; apply S2].
      * assert (K' : store t = false \/ store t = true) by (destruct (store t); auto). destruct K' as [K'|K'].
        -- rewrite K'. destruct (everyF); cbn [app orb after]; splits; try exact Logic.I; first [left; apply comm_id_r; reflexivity|left; apply S1; left; exact K'|left; apply S2].
        -- assert (Ek : comm x (Op Comp (kernF t)) \/ reach x (b ++ [Wt Comp (sdF everyF sr c t)]) (Op Comp (kernF t))).
           { destruct K as [K|[_ K]]; [left; apply S1; right; exact K|]. right. apply (reach_rec mem x _ b Comp _ (Stor c) (c, SD, i)); [exact S|exact S3| |reflexivity]. unfold sdF. rewrite K', orb_true_r, K. reflexivity. }
           rewrite K', orb_true_r. unfold saves. destruct via; cbn [app after]; splits; try exact Logic.I;
             first [left; apply comm_id_r; reflexivity|exact Ek|left; apply S2|right; apply stream_reach; exact S].
  - apply enters_app; [exact N|apply step_enters].
  - apply split_app; [apply statF_post|exact S|apply step_stat].
Qed.

Lemma lastrec_step c L t i : lastrec c L i -> store t = false -> odd_step t = i -> lastrec c (L ++ stepF c t) i.
Proof.
  intros (L1 & L2 & -> & H) Hs Ho. unfold StreamModel.stepF. rewrite Hs. destruct everyF; cbn [orb].
  - unfold sdF. cbn [orb andb]. rewrite Ho. exists ((L1 ++ Rec (Stor c) (c, SD, i) :: L2) ++ [Wt Comp (c, SD, i); Op Comp (kernF t); Rec Comp (cdF true sr c t); Wt (Stor c) (cdF true sr c t)]), [xop (fwd2 t)]. split; [app_norm; reflexivity|]. intros x [<-|[]]. reflexivity.
  - exists L1, (L2 ++ [Op Comp (kernF t); xop (fwd2 t)]). split; [app_norm; reflexivity|]. intros x Hx. apply in_app_or in Hx. destruct Hx as [Hx|[<-|[<-|[]]]]; auto.
Qed.
Lemma lastrec_store c L t : store t = true -> lastrec c (L ++ stepF c t) (odd_step t).
Proof.
  intros Hs. unfold StreamModel.stepF, sdF. rewrite Hs, orb_true_r. cbn [andb]. exists (L ++ [Wt Comp (c, SD, odd_step t); Op Comp (kernF t); Rec Comp (cdF everyF sr c t); Wt (Stor c) (cdF everyF sr c t)] ++ saves X D E comp via sr c t), [xop (fwd2 t)].
  split; [app_norm; reflexivity|]. intros x [<-|[]]. reflexivity.
Qed.

Definition loopF (c : nat) (t0 : Z) (n : nat) : list (cmd mem) := [Rec (Stor c) (c, SD, false); Rec (Stor c) (c, SD, true)] ++ flat_map (stepF c) (zseq t0 n).
Lemma zseq_S t0 n : zseq t0 (S n) = zseq t0 n ++ [t0 + Z.of_nat n].
Proof. unfold zseq. rewrite seq_S, map_app. reflexivity. Qed.
Lemma loopF_S c t0 n : loopF c t0 (S n) = loopF c t0 n ++ stepF c (t0 + Z.of_nat n).
Proof. unfold loopF. rewrite zseq_S, flat_map_app, <- app_assoc. cbn [flat_map]. rewrite app_nil_r. reflexivity. Qed.
Lemma loop_inv c t0 n : invF c (loopF c t0 n).
Proof.
  induction n as [|n IH]; [|rewrite loopF_S; apply step_inv, IH]. constructor.
  - apply (good_stream _ (Stor c)). intros x [<-|[<-|[]]]; reflexivity.
  - apply enters_heads. cbn. repeat split; left; reflexivity.
  - apply tails_all. cbn. repeat split; right; (split; [reflexivity|left; reflexivity]).
Qed.
Lemma loop_last c s n : lastrec c (loopF c (s * sr) (S n)) (odd_step (s * sr + Z.of_nat n)).
Proof.
  induction n as [|n IH]; rewrite loopF_S.
  - apply lastrec_store. unfold StreamModel.store. cbn [Z.of_nat]. rewrite Z.add_0_r, Z.mod_mul by lia. reflexivity.
  - destruct (store (s * sr + Z.of_nat (S n))) eqn:Hs; [apply lastrec_store, Hs|].
    assert (Eo : odd_step (s * sr + Z.of_nat (S n)) = odd_step (s * sr + Z.of_nat n)).
    { unfold StreamModel.store in Hs. apply Z.eqb_neq in Hs. unfold StreamModel.odd_step. do 3 f_equal. rewrite Nat2Z.inj_succ in *. set (u := s * sr + Z.of_nat n) in *. replace (s * sr + Z.succ (Z.of_nat n)) with (u + 1) in * by (unfold u; lia).
      pose proof (Z.div_mod (u + 1) sr ltac:(lia)) as D1. pose proof (Z.mod_pos_bound (u + 1) sr ltac:(lia)) as B1.
      apply (Z.div_unique_pos u sr _ ((u + 1) mod sr - 1)); [lia|]. lia. }
    rewrite Eo. apply lastrec_step; [exact IH|exact Hs|exact Eo].
Qed.

(** The wait at the end of a call covers the last snapshot. *)
Definition covered (s : Z) (n : nat) : Prop := everyF = true \/ sr = 1 \/ n = O \/ (s + Z.of_nat n) mod 2 = 1.
Lemma callF_good c t0 n : good (callF c t0 n).
Proof.
  unfold StreamModel.callF. rewrite app_assoc. fold (loopF c t0 n). apply good_after; [apply (loop_inv c t0 n)|apply (good_stream _ Comp); intros x [<-|[]]; reflexivity|].
  intros a x b Hl. split; [|exact I]. left. apply comm_id_r. reflexivity.
Qed.
Lemma callF_enters c t0 n : enters mem (callF c t0 n).
Proof. unfold StreamModel.callF. rewrite app_assoc. apply enters_app; [apply (loop_inv c t0 n)|apply enters_comp; intros x [<-|[]]; reflexivity]. Qed.
Lemma callF_exits c s n : covered s n -> exits mem (callF c (s * sr) (n * Z.to_nat sr)).
Proof.
  intros Hc. unfold StreamModel.callF. rewrite app_assoc. fold (loopF c (s * sr) (n * Z.to_nat sr)).
  destruct (n * Z.to_nat sr)%nat as [|k] eqn:Ek.
  - intros a x b Hl Hx. left. cbn in Hl. destruct a as [|? [|? [|? a]]]; cbn in Hl; [injection Hl as <- _; reflexivity|injection Hl as _ <- _; reflexivity|injection Hl as _ _ <- _; reflexivity|].
    injection Hl as _ _ _ Hl. destruct a; discriminate.
  - assert (Ev : sdF everyF sr c (s * sr + Z.of_nat k) = (c, SD, odd_step (s * sr + Z.of_nat k))).
    { unfold sdF. f_equal. assert (Kn : Z.of_nat k = Z.of_nat n * sr - 1) by (apply (f_equal Z.of_nat) in Ek; rewrite Nat2Z.inj_mul, Z2Nat.id in Ek by lia; lia).
      destruct Hc as [->|[Hc|[Hc|Hc]]]; [reflexivity| |subst n; discriminate|].
      - replace (store (s * sr + Z.of_nat k)) with true; [rewrite orb_true_r; reflexivity|]. symmetry. unfold StreamModel.store. rewrite Hc, Z.mod_1_r. reflexivity.
      - replace (odd_step (s * sr + Z.of_nat k)) with false; [apply andb_false_r|]. symmetry. unfold StreamModel.odd_step.
        replace ((s * sr + Z.of_nat k) / sr) with (s + Z.of_nat n - 1); [|apply (Z.div_unique_pos _ sr _ (sr - 1)); lia].
        assert (Hm : (s + Z.of_nat n - 1) mod 2 = 0) by (pose proof (Z.div_mod (s + Z.of_nat n) 2 ltac:(lia)); symmetry; apply (Z.mod_unique_pos _ 2 ((s + Z.of_nat n) / 2)); lia).
        rewrite Hm. reflexivity. }
    rewrite Ev. pose proof (loop_last c s k) as (L1 & L2 & HL & HL2). pose proof (if_stat _ _ (loop_inv c (s * sr) (S k))) as St. rewrite HL in *.
    assert (Q : forall a x b, (L1 ++ Rec (Stor c) (c, SD, odd_step (s * sr + Z.of_nat k)) :: L2) = a ++ x :: b -> stream_of x <> Comp ->
       (forall M, act x M = M) \/ (stream_of x = Stor c /\ In (Rec (Stor c) (c, SD, odd_step (s * sr + Z.of_nat k))) b)).
    { intros a x b Hl Hx. pose proof (St a x b Hl) as Sx. assert (Sc : stream_of x = Stor c) by (destruct Sx as [C|[C _]]; [contradiction|exact C]).
      destruct (app_eq_app _ _ _ _ Hl) as (l & [[E1 E2]|[E1 E2]]).
      - destruct l as [|x' l]; cbn in E2; [injection E2 as -> _; left; reflexivity|]. injection E2 as <- ->. right. split; [exact Sc|apply in_elt].
      - destruct l as [|y l]; cbn in E2; [injection E2 as <- _; left; reflexivity|]. injection E2 as _ E2. exfalso. apply Hx. apply HL2. rewrite E2. apply in_elt. }
    intros a x b Hl Hx. destruct (app_eq_app _ _ _ _ Hl) as (l & [[E1 E2]|[E1 E2]]).
    + destruct l as [|x' l]; cbn in E2; [injection E2 as -> _; exfalso; apply Hx; reflexivity|]. injection E2 as <- ->. destruct (Q a x l E1 Hx) as [I|[I1 I2]]; [left; exact I|].
      right. exists l, (Wt Comp (c, SD, odd_step (s * sr + Z.of_nat k))), []. split; [reflexivity|]. split; [reflexivity|]. apply in_split in I2. destruct I2 as (m1 & m2 & ->). apply reach_in; [left; exact I1|]. apply r_link. right. reflexivity.
    + destruct l as [|y [|? l]]; cbn in E2; [injection E2 as <- _; exfalso; apply Hx; reflexivity| |]; discriminate.
Qed.

(** ** Backward *)
(** Loads of the buffer [i]. *)
Definition ld (i : bool) (f : mem -> mem) : Prop :=
  (exists k, f = fun M => set_t X D E (ms M k) M) \/ f = (fun M => set_buf X D E i (decomp (mt M)) M) \/ exists k, f = fun M => set_buf X D E i (decomp (ms M k)) M.
Definition limB (i : bool) (x : cmd mem) : Prop := forall s f, ld i f -> comm x (Op s f).
Definition statB (c : nat) (x : cmd mem) (b : list (cmd mem)) : Prop :=
  (stream_of x = Comp /\ forall i, limB i x \/ In (Rec Comp (c, CD, i)) b) \/ stream_of x = Stor c.
Record invB (c : nat) (L : list (cmd mem)) : Prop := {
  ib_good : good L;
  ib_enters : enters mem L;
  ib_exits : exits mem L;
  ib_rec : forall i, In (Rec Comp (c, CD, i)) L;
  ib_stat : forall a x b, L = a ++ x :: b -> statB c x b }.
Lemma limB_x i g : limB i (xop g).
Proof. intros s f [(k & ->)|[->|(k & ->)]] M; destruct i; reflexivity. Qed.
Lemma limB_id i x : (forall M, act x M = M) -> limB i x.
Proof. intros H s f _. apply comm_id_l, H. Qed.
Lemma limB_kern i t : (store t = true -> odd_step t <> i) -> limB i (Op Comp (kernB t)).
Proof.
  intros H s f Hf M. cbn. unfold StreamModel.kernB. destruct (store t); [|destruct Hf as [(k & ->)|[->|(k & ->)]]; destruct i; reflexivity].
  specialize (H eq_refl). destruct Hf as [(k & ->)|[->|(k & ->)]]; destruct i, (odd_step t); try reflexivity; exfalso; apply H; reflexivity.
Qed.
Lemma loads_ld c t x : In x (loads X D E decomp via sr c t) -> exists f, x = Op (Stor c) f /\ ld (odd_step t) f.
Proof.
  unfold loads. intros H. destruct via; [destruct H as [<-|[<-|[]]]|destruct H as [<-|[]]]; (eexists; split; [reflexivity|]); [left; eexists; reflexivity|right; left; reflexivity|right; right; eexists; reflexivity].
Qed.
Lemma statB_post c x b : statB c x b -> forall b', statB c x (b ++ b').
Proof. intros [[H1 H2]|H] b'; [|right; exact H]. left. split; [exact H1|]. intros i. destruct (H2 i) as [H|H]; [left; exact H|right; apply in_or_app; auto]. Qed.
Lemma stepB_stat c t : forall a x b, stepB c t = a ++ x :: b -> statB c x b.
Proof.
  assert (K : forall y b, statB c (Op Comp (kernB t)) (Rec Comp (cdB everyB sr c t) :: y :: b)).
  { intros y b. left. split; [reflexivity|]. intros i. destruct (store t) eqn:Hs; [|left; apply limB_kern; congruence].
    destruct (Bool.bool_dec (odd_step t) i) as [Hi|Hi]; [|left; apply limB_kern; auto]. right. left. unfold cdB. rewrite Hs, orb_true_r, Hi. reflexivity. }
  assert (I : forall x b, (forall M, act x M = M) -> stream_of x = Comp -> statB c x b) by (intros x b Hx Hc; left; split; [exact Hc|intros i; left; apply limB_id, Hx]).
  assert (G : forall g b, statB c (xop g) b) by (intros g b; left; split; [reflexivity|intros i; left; apply limB_x]).
  apply tails_all. unfold StreamModel.stepB. destruct (store t) eqn:Hs.
  - rewrite orb_true_r. unfold loads. destruct via; cbn [app tails]; splits; try exact Logic.I; first [right; reflexivity|apply G|apply K|apply I; reflexivity].
  - destruct everyB; cbn [app orb tails]; splits; try exact Logic.I; first [right; reflexivity|apply G|apply K|apply I; reflexivity].
Qed.
Lemma stepB_good c t : good (stepB c t).
Proof.
  apply allgood_good. unfold StreamModel.stepB. destruct (store t) eqn:Hs.
  - rewrite orb_true_r. unfold loads. destruct via; cbn [app allgood after]; splits; try exact Logic.I;
      first [left; apply comm_id_l; reflexivity|left; apply comm_id_r; reflexivity|right; reached|left; apply (limB_x (odd_step t)); unfold ld; eauto].
  - destruct everyB; cbn [app orb allgood after]; splits; try exact Logic.I; first [left; apply comm_id_l; reflexivity|left; apply comm_id_r; reflexivity|right; reached].
Qed.
Lemma stepB_exits c t : exits mem (stepB c t).
Proof.
  intros a x b Hl Hx.
  assert (T : tails mem (fun x b => stream_of x = Comp \/ (forall M, act x M = M) \/ exists b1 y b2, b = b1 ++ y :: b2 /\ stream_of y = Comp /\ reach x b1 y) (stepB c t)).
  { unfold StreamModel.stepB. destruct (store t) eqn:Hs.
    - rewrite orb_true_r. unfold loads. destruct via; cbn [app tails]; splits; try exact Logic.I; try (left; reflexivity); try (right; left; reflexivity); right; right.
      + match goal with |- exists b1 y b2, ?u :: ?v :: ?w :: ?z = _ /\ _ => exists [u; v], w, z end. split; [reflexivity|]. split; [reflexivity|]. reached.
      + match goal with |- exists b1 y b2, ?v :: ?w :: ?z = _ /\ _ => exists [v], w, z end. split; [reflexivity|]. split; [reflexivity|]. reached.
      + match goal with |- exists b1 y b2, ?v :: ?w :: ?z = _ /\ _ => exists [v], w, z end. split; [reflexivity|]. split; [reflexivity|]. reached.
    - destruct everyB; cbn [app orb tails]; splits; try exact Logic.I; first [left; reflexivity|right; left; reflexivity]. }
  destruct (tails_all _ _ _ T a x b Hl) as [C|[C|C]]; [contradiction|auto|auto].
Qed.
Lemma stepB_inv c t L : invB c L -> invB c (L ++ stepB c t).
Proof.
  intros [G N Ex Rc S]. constructor.
  - apply good_after; [exact G|apply stepB_good|]. intros a x b Hl. pose proof (S a x b Hl) as Sx.
    destruct Sx as [[Sx Li]|Sx].
    + assert (Ld : forall f, ld (odd_step t) f -> store t = true -> forall p, comm x (Op (Stor c) f) \/ reach x (b ++ Wt (Stor c) (cdB everyB sr c t) :: p) (Op (Stor c) f)).
      { intros f Hf Hs p. destruct (Li (odd_step t)) as [H|H]; [left; apply H, Hf|right]. apply (reach_rec mem x _ b (Stor c) _ Comp (c, CD, odd_step t)); [exact Sx|exact H| |reflexivity].
        unfold cdB. rewrite Hs, orb_true_r. reflexivity. }
      unfold StreamModel.stepB. destruct (store t) eqn:Hs.
      * rewrite orb_true_r. unfold loads. destruct via; cbn [app after]; splits; try exact Logic.I;
          first [right; apply stream_reach; exact Sx|left; apply comm_id_r; reflexivity|app_norm; apply Ld; [unfold ld; eauto|reflexivity]].
      * destruct everyB; cbn [app orb after]; splits; try exact Logic.I; first [right; apply stream_reach; exact Sx|left; apply comm_id_r; reflexivity].
    + destruct (Ex a x b Hl ltac:(rewrite Sx; discriminate)) as [I|(b1 & y & b2 & -> & Hy & R)].
      * clear -I. generalize (stepB c t). intros d. generalize b. induction d as [|c' d IH]; intros b'; [exact Logic.I|]. split; [left; apply comm_id_l, I|apply IH].
      * assert (Rc' : forall p z, stream_of z = Comp -> reach x ((b1 ++ y :: b2) ++ p) z).
        { intros p z Hz. app_norm. apply (reach_trans _ x b1 y); [exact R|]. apply stream_reach. congruence. }
        assert (Rc0 : forall z, stream_of z = Comp -> reach x (b1 ++ y :: b2) z) by (intros z Hz; rewrite <- (app_nil_r (b1 ++ y :: b2)); apply Rc', Hz).
        unfold StreamModel.stepB. destruct (store t) eqn:Hs.
        -- rewrite orb_true_r. unfold loads. destruct via; cbn [app after]; rewrite <- ?app_assoc; splits; try exact Logic.I; right; first [apply stream_reach; exact Sx|rewrite <- ?app_assoc in *; cbn [app] in *; first [apply Rc'|apply Rc0]; reflexivity
             |repeat rewrite app_comm_cons; rewrite ?app_assoc; app_norm; apply (reach_trans _ x b1 y); [exact R|]; apply stream_reach; exact Hy].
        -- destruct everyB; cbn [app orb after]; splits; try exact Logic.I; right; first [apply stream_reach; exact Sx|app_norm; apply (reach_trans _ x b1 y); [exact R|]; apply stream_reach; exact Hy].
  - assert (Hh : heads mem (fun a c => stream_of c <> Comp -> (forall M, act c M = M) \/ exists a1 y a2, a = a1 ++ y :: a2 /\ stream_of y = Comp /\ reach y a2 c) L (stepB c t)).
    { unfold StreamModel.stepB. destruct (store t) eqn:Hs.
      - assert (Ld : forall f p, (fun M => M) = (fun M : mem => M) -> (forall M : mem, f M = M) \/ exists a1 y a2, L ++ Wt (Stor c) (cdB everyB sr c t) :: p = a1 ++ y :: a2 /\ stream_of y = Comp /\ reach y a2 (Op (Stor c) f)).
        { intros f p _. right. pose proof (Rc (odd_step t)) as H. apply in_split in H. destruct H as (l1 & l2 & ->). exists l1, (Rec Comp (c, CD, odd_step t)), (l2 ++ Wt (Stor c) (cdB everyB sr c t) :: p).
          split; [app_norm; reflexivity|]. split; [reflexivity|]. apply reach_in; [right; unfold cdB; rewrite Hs, orb_true_r; reflexivity|]. apply stream_reach. reflexivity. }
        rewrite orb_true_r. unfold loads. destruct via; cbn [app heads]; splits; try exact Logic.I; intros Hx; try (exfalso; apply Hx; reflexivity); try (left; reflexivity); app_norm; apply Ld; reflexivity.
      - destruct everyB; cbn [app orb heads]; splits; try exact Logic.I; intros Hx; first [exfalso; apply Hx; reflexivity|left; reflexivity]. }
    intros a x b Hl Hx. destruct (app_eq_app _ _ _ _ Hl) as (l & [[E1 E2]|[E1 E2]]).
    + destruct l as [|x' l]; cbn in E2.
      * rewrite app_nil_r in E1. subst a. destruct (heads_all _ _ _ _ Hh [] x b (eq_sym E2) Hx) as [I|I]; [left; exact I|right; rewrite app_nil_r in I; exact I].
      * injection E2 as <- E2. apply (N a x l E1 Hx).
    + rewrite E1. exact (heads_all _ _ _ _ Hh l x b E2 Hx).
  - apply exits_app; [exact Ex|apply stepB_exits].
  - intros i. apply in_or_app. left. apply Rc.
  - apply split_app; [apply statB_post|exact S|apply stepB_stat].
Qed.
Lemma loopB_inv c ts : invB c ([Rec Comp (c, CD, false); Rec Comp (c, CD, true)] ++ flat_map (stepB c) ts).
Proof.
  assert (A : forall ts L, invB c L -> invB c (L ++ flat_map (stepB c) ts)).
  { clear ts. induction ts as [|t ts IH]; intros L H; cbn [flat_map]; [rewrite app_nil_r; exact H|]. rewrite app_assoc. apply IH, stepB_inv, H. }
  apply A. constructor.
  - apply (good_stream _ Comp). intros x [<-|[<-|[]]]; reflexivity.
  - apply enters_comp. intros x [<-|[<-|[]]]; reflexivity.
  - apply exits_comp. intros x [<-|[<-|[]]]; reflexivity.
  - intros [|]; cbn; auto.
  - apply tails_all. cbn. repeat split; left; (split; [reflexivity|intros i; left; apply limB_id; reflexivity]).
Qed.
Lemma callB_ok c t1 n : good (callB c t1 n) /\ enters mem (callB c t1 n) /\ exits mem (callB c t1 n).
Proof.
  unfold StreamModel.callB. rewrite app_assoc. set (L := _ ++ flat_map _ _). assert (H : invB c L) by apply loopB_inv.
  assert (F : forall x, In x [xop fin] -> stream_of x = Comp) by (intros x [<-|[]]; reflexivity).
  split; [|split].
  - apply good_join; [apply H|apply (good_stream _ Comp), F|apply H|apply enters_comp, F].
  - apply enters_app; [apply H|apply enters_comp, F].
  - apply exits_app; [apply H|apply exits_comp, F].
Qed.

(** ** The whole program *)
Notation callsF := (callsF X D E fwd snap fwd2 comp via everyF sr).
Notation callsB := (callsB X D E decomp pre bwd post fin via everyB sr).
Notation program := (program X D E fwd snap fwd2 comp decomp pre bwd post fin via everyF everyB sr).
Definition total (ns : list nat) : nat := fold_right plus O ns.
Lemma exits_nil : exits mem []. Proof. intros a x b H. destruct a; discriminate. Qed.
Lemma enters_nil : enters mem []. Proof. intros a x b H. destruct a; discriminate. Qed.
Lemma callsF_ok : forall ns c s, (forall k, (k < length ns)%nat -> covered (s + Z.of_nat (total (firstn k ns))) (nth k ns O)) ->
  good (callsF c (s * sr) ns) /\ enters mem (callsF c (s * sr) ns) /\ exits mem (callsF c (s * sr) ns).
Proof.
  induction ns as [|n ns IH]; intros c s H; cbn [StreamModel.callsF]; [split; [apply good_nil|split; [apply enters_nil|apply exits_nil]]|].
  assert (H0 : covered s n). { specialize (H O ltac:(cbn; lia)). cbn in H. rewrite Z.add_0_r in H. exact H. }
  destruct (IH (S c) (s + Z.of_nat n)) as (G & N & Ex).
  { intros k Hk. specialize (H (S k) ltac:(cbn; lia)). cbn [firstn total fold_right nth] in H. fold (total (firstn k ns)) in H. rewrite Nat2Z.inj_add, Z.add_assoc in H. exact H. }
  replace (s * sr + Z.of_nat n * sr) with ((s + Z.of_nat n) * sr) by ring. split; [|split].
  - apply good_join; [apply callF_good|exact G|apply callF_exits, H0|exact N].
  - apply enters_app; [apply callF_enters|exact N].
  - apply exits_app; [apply callF_exits, H0|exact Ex].
Qed.
Lemma callsB_ok : forall ns c t1, good (callsB c t1 ns) /\ enters mem (callsB c t1 ns).
Proof.
  induction ns as [|n ns IH]; intros c t1; cbn [StreamModel.callsB]; [split; [apply good_nil|apply enters_nil]|].
  destruct (IH (S c) (t1 - Z.of_nat n * sr)) as [G N]. destruct (callB_ok c t1 (n * Z.to_nat sr)) as (G1 & N1 & E1). split; [apply good_join; assumption|apply enters_app; assumption].
Qed.
Lemma program_good mid ns nb : (forall k, (k < length ns)%nat -> covered (Z.of_nat (total (firstn k ns))) (nth k ns O)) -> good (program mid ns nb).
Proof.
  intros H. unfold StreamModel.program. destruct (callsF_ok ns O 0 H) as (G & N & Ex). change (0 * sr) with 0 in *. apply good_join; [exact G| |exact Ex|].
  - apply good_join; [apply (good_stream _ Comp); intros x [<-|[]]; reflexivity|apply callsB_ok|apply exits_comp; intros x [<-|[]]; reflexivity|apply callsB_ok].
  - apply enters_app; [apply enters_comp; intros x [<-|[]]; reflexivity|apply callsB_ok].
Qed.

(** ** What it computes *)
(** The state before step [k]. *)
Fixpoint traj (x0 : X) (k : nat) : X := match k with O => x0 | S j => fwd2 (Z.of_nat j) (fwd (Z.of_nat j) (traj x0 j)) end.
(** The calls of the backward propagation with snapshots at hand. *)
Definition plain_stepB (shot : Z -> D) (y : X) (t : Z) : X := post t (bwd t (pre t y) (if t mod sr =? 0 then Some (shot t) else None)).
Fixpoint plainB (shot : Z -> D) (t1 : Z) (ns : list nat) (y : X) : X :=
  match ns with
  | [] => y
  | n :: r => plainB shot (t1 - Z.of_nat n * sr) r (fin (fold_left (plain_stepB shot) (rev (zseq (t1 - Z.of_nat n * sr) (n * Z.to_nat sr))) y))
  end.
Notation seqc := (seqc mem).
Lemma seq_stepF c t M : mx (seqc (stepF c t) M) = fwd2 t (fwd t (mx M)) /\
  ms (seqc (stepF c t) M) = if store t then (fun j => if j =? t / sr then comp (snap t (mx M)) else ms M j) else ms M.
Proof.
  unfold StreamModel.stepF, StreamModel.kernF. destruct (store t) eqn:Hs.
  - rewrite orb_true_r. unfold saves. destruct via; cbn; rewrite ?Hs; destruct (odd_step t); cbn; auto.
  - destruct everyF; cbn; rewrite ?Hs; cbn; auto.
Qed.
Lemma seq_stepB c t M : mx (seqc (stepB c t) M) = post t (bwd t (pre t (mx M)) (if store t then Some (decomp (ms M (t / sr))) else None)) /\ ms (seqc (stepB c t) M) = ms M.
Proof.
  unfold StreamModel.stepB, StreamModel.kernB. destruct (store t) eqn:Hs.
  - rewrite orb_true_r. unfold loads. destruct via; cbn; rewrite ?Hs; destruct (odd_step t); cbn; auto.
  - destruct everyB; cbn; rewrite ?Hs; cbn; auto.
Qed.
Definition stored (x0 : X) (k : nat) (M : mem) : Prop :=
  mx M = traj x0 k /\ forall i, 0 <= i -> i * sr < Z.of_nat k -> ms M i = comp (snap (i * sr) (traj x0 (Z.to_nat (i * sr)))).
Lemma stepF_stored c x0 k M : stored x0 k M -> stored x0 (S k) (seqc (stepF c (Z.of_nat k)) M).
Proof.
  intros [H1 H2]. destruct (seq_stepF c (Z.of_nat k) M) as [E1 E2]. split; [rewrite E1, H1; reflexivity|]. intros i Hi Hk. rewrite E2.
  destruct (store (Z.of_nat k)) eqn:Hs; unfold StreamModel.store in Hs.
  - apply Z.eqb_eq in Hs. assert (Ek : Z.of_nat k = sr * (Z.of_nat k / sr)) by (pose proof (Z.div_mod (Z.of_nat k) sr ltac:(lia)); lia).
    destruct (Z.eqb_spec i (Z.of_nat k / sr)) as [->|Ne].
    + rewrite (Z.mul_comm (_ / _) sr), <- Ek, Nat2Z.id, H1. reflexivity.
    + apply H2; [exact Hi|]. assert (i * sr <> Z.of_nat k) by (rewrite Ek; nia). lia.
  - apply Z.eqb_neq in Hs. apply H2; [exact Hi|]. assert (i * sr <> Z.of_nat k) by (intros C; apply Hs; rewrite <- C; apply Z.mod_mul; lia). lia.
Qed.
Lemma callF_stored c x0 k n M : stored x0 k M -> stored x0 (k + n) (seqc (callF c (Z.of_nat k) n) M).
Proof.
  intros H. unfold StreamModel.callF. rewrite !seqc_app.
  assert (A : stored x0 (k + n) (seqc (flat_map (stepF c) (zseq (Z.of_nat k) n)) M)).
  { induction n as [|n IH]; [rewrite Nat.add_0_r; exact H|]. rewrite zseq_S, flat_map_app, seqc_app. cbn [flat_map]. rewrite app_nil_r, Nat.add_succ_r, <- Nat2Z.inj_add. apply stepF_stored, IH. }
  exact A.
Qed.
Lemma callsF_stored x0 : forall ns c k M, stored x0 k M -> stored x0 (k + total ns * Z.to_nat sr) (seqc (callsF c (Z.of_nat k) ns) M).
Proof.
  induction ns as [|n ns IH]; intros c k M H; cbn [StreamModel.callsF total fold_right]; [rewrite Nat.add_0_r; exact H|]. rewrite seqc_app. fold (total ns).
  replace (Z.of_nat k + Z.of_nat n * sr) with (Z.of_nat (k + n * Z.to_nat sr)) by (rewrite Nat2Z.inj_add, Nat2Z.inj_mul, Z2Nat.id by lia; reflexivity).
  replace (k + (n + total ns) * Z.to_nat sr)%nat with (k + n * Z.to_nat sr + total ns * Z.to_nat sr)%nat by (rewrite Nat.mul_add_distr_r; lia). apply IH, callF_stored, H.
Qed.
Lemma stepsB_plain c shot : forall ts M, (forall t, In t ts -> store t = true -> decomp (ms M (t / sr)) = shot t) ->
  mx (seqc (flat_map (stepB c) ts) M) = fold_left (plain_stepB shot) ts (mx M) /\ ms (seqc (flat_map (stepB c) ts) M) = ms M.
Proof.
  induction ts as [|t ts IH]; intros M H; cbn [flat_map fold_left]; [split; reflexivity|]. rewrite seqc_app. destruct (seq_stepB c t M) as [E1 E2].
  destruct (IH (seqc (stepB c t) M)) as [F1 F2]; [intros t' Ht; rewrite E2; apply H; right; exact Ht|]. split; [|rewrite F2; exact E2]. rewrite F1, E1. f_equal. unfold plain_stepB. change (t mod sr =? 0) with (store t).
  destruct (store t) eqn:Hs; [|reflexivity]. rewrite (H t (or_introl eq_refl) Hs). reflexivity.
Qed.
Lemma callsB_plain shot : forall ns c t1 M, (forall t, t1 - Z.of_nat (total ns) * sr <= t < t1 -> store t = true -> decomp (ms M (t / sr)) = shot t) ->
  mx (seqc (callsB c t1 ns) M) = plainB shot t1 ns (mx M) /\ ms (seqc (callsB c t1 ns) M) = ms M.
Proof.
  induction ns as [|n ns IH]; intros c t1 M H; cbn [StreamModel.callsB plainB]; [split; reflexivity|]. rewrite seqc_app. cbn [total fold_right] in H. fold (total ns) in H.
  unfold StreamModel.callB. rewrite !seqc_app. cbn [StreamThm.seqc fold_left act] in *. rewrite Nat2Z.inj_mul, Z2Nat.id by lia. set (ts := rev _).
  assert (Ht : forall t, In t ts -> store t = true -> decomp (ms M (t / sr)) = shot t).
  { intros t Ht Hs. apply H; [|exact Hs]. unfold ts in Ht. apply in_rev in Ht. unfold zseq in Ht. apply in_map_iff in Ht. destruct Ht as (k & <- & Hk). apply in_seq in Hk.
    assert (Z.of_nat k < Z.of_nat n * sr) by (rewrite <- (Z2Nat.id sr) by lia; rewrite <- Nat2Z.inj_mul; lia). nia. }
  destruct (stepsB_plain c shot ts M Ht) as [F1 F2]. 
  destruct (IH (S c) (t1 - Z.of_nat n * sr) (set_x X D E (fin (mx (seqc (flat_map (stepB c) ts) M))) (seqc (flat_map (stepB c) ts) M))) as [G1 G2].
  { intros t Hb Hs. cbn [ms set_x]. rewrite F2. apply H; [|exact Hs]. nia. }
  unfold StreamThm.seqc in *. rewrite G1, G2. cbn [mx ms set_x]. rewrite F1, F2. split; reflexivity.
Qed.

(** Every execution: the result of the plain loops, with the compressed snapshot of the same step. *)
Theorem program_plain mid ns nb M M' : (everyF = true \/ sr = 1 \/ forall k, (0 < k <= length ns)%nat -> Nat.Odd (total (firstn k ns))) ->
  (total nb <= total ns)%nat -> exec (program mid ns nb) M M' ->
  mx M' = plainB (fun t => decomp (comp (snap t (traj (mx M) (Z.to_nat t))))) (Z.of_nat (total ns) * sr) nb (mid (traj (mx M) (total ns * Z.to_nat sr))) /\
  forall i, 0 <= i < Z.of_nat (total ns) -> ms M' i = comp (snap (i * sr) (traj (mx M) (Z.to_nat (i * sr)))).
Proof.
  intros Hc Hb Hx. apply exec_good in Hx.
  2:{ apply program_good. intros k Hk. destruct Hc as [Hc|[Hc|Hc]]; [left; exact Hc|right; left; exact Hc|]. right. right. right.
      specialize (Hc (S k) ltac:(lia)). assert (Es : total (firstn (S k) ns) = (total (firstn k ns) + nth k ns O)%nat).
      { clear -Hk. revert k Hk. induction ns as [|n ns IH]; intros k Hk; [cbn in Hk; lia|]. destruct k as [|k]; [cbn; lia|]. cbn [firstn total fold_right nth]. fold (total (firstn k ns)). specialize (IH k ltac:(cbn in Hk; lia)).
        cbn [firstn total fold_right] in IH |- *. destruct ns; [cbn in Hk; lia|]. unfold total in *. cbn [firstn fold_right] in *. lia. }
      rewrite Es in Hc. destruct Hc as [m Hm]. rewrite <- Nat2Z.inj_add, Hm. rewrite Nat2Z.inj_add, Nat2Z.inj_mul. change (Z.of_nat 2) with 2. change (Z.of_nat 1) with 1.
      rewrite Z.mul_comm, Z.add_comm, Z.mod_add by lia. reflexivity. }
  subst M'. unfold StreamModel.program. rewrite !seqc_app. fold (total ns).
  assert (S0 : stored (mx M) 0 M) by (split; [reflexivity|]; intros i Hi Hk; cbn in Hk; nia).
  destruct (callsF_stored (mx M) ns 0 0 M S0) as [E1 E2]. change (Z.of_nat 0) with 0 in *. rewrite Nat.add_0_l in *.
  set (M1 := seqc (callsF 0 0 ns) M) in *. rewrite Nat2Z.inj_mul, Z2Nat.id in E2 by lia.
  destruct (callsB_plain (fun t => decomp (comp (snap t (traj (mx M) (Z.to_nat t))))) nb (length ns) (Z.of_nat (total ns) * sr) (set_x X D E (mid (mx M1)) M1)) as [F1 F2].
  { intros t Ht Hs. cbn [ms set_x]. unfold StreamModel.store in Hs. apply Z.eqb_eq in Hs. assert (Et : t = t / sr * sr) by (pose proof (Z.div_mod t sr ltac:(lia)); lia).
    assert (0 <= t) by nia. rewrite E2; [rewrite <- Et; reflexivity|apply Z.div_pos; lia|lia]. }
  match goal with |- mx ?z = _ /\ _ => change z with (seqc (callsB (length ns) (Z.of_nat (total ns) * sr) nb) (set_x X D E (mid (mx M1)) M1)) end. split.
  - rewrite F1. cbn [mx set_x]. rewrite E1. reflexivity.
  - intros i Hi. rewrite F2. cbn [ms set_x]. apply E2; nia.
Qed.

(** One forward call, whatever the number of steps. *)
Theorem forward_plain n M M' : exec (callF 0 0 n) M M' ->
  mx M' = traj (mx M) n /\ forall i, 0 <= i -> i * sr < Z.of_nat n -> ms M' i = comp (snap (i * sr) (traj (mx M) (Z.to_nat (i * sr)))).
Proof.
  intros H. apply exec_good in H; [|apply callF_good]. subst M'. assert (S0 : stored (mx M) 0 M) by (split; [reflexivity|]; intros i Hi Hk; cbn in Hk; nia).
  exact (callF_stored 0 (mx M) 0 n M S0).
Qed.
End Prog.
