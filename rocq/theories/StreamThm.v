(** * Every execution of the commands gives the result of running them in order. *)
From Coq Require Import List ZArith Lia Bool.
From Verif Require Import StreamModel.
Import ListNotations.
Local Open Scope Z_scope.

(** ** Commands in general *)
Section Gen.
Variable mem : Type.
Notation cmd := (cmd mem).
Definition seqc (L : list cmd) (M : mem) : mem := fold_left (fun M c => act c M) L M.
Lemma seqc_app L1 L2 M : seqc (L1 ++ L2) M = seqc L2 (seqc L1 M).
Proof. apply fold_left_app. Qed.
Lemma exec_seq L : forall M, exec L M (seqc L M).
Proof. induction L as [|c L IH]; intros M; [constructor|]. apply (ex_cmd _ [] c L); [intros x []|]. cbn. apply IH. Qed.

Definition comm (x c : cmd) : Prop := forall M, act x (act c M) = act c (act x M).
(** [c] waits for [x] directly or through commands in [l]. *)
Inductive reach : cmd -> list cmd -> cmd -> Prop :=
| r_link x l c : link x c -> reach x l c
| r_skip x y l c : reach x l c -> reach x (y :: l) c
| r_via x y l c : link x y -> reach y l c -> reach x (y :: l) c.
Lemma reach_pre x l1 l2 c : reach x l2 c -> reach x (l1 ++ l2) c.
Proof. induction l1; [tauto|]. intros H. apply r_skip. auto. Qed.
Lemma reach_in x l1 y l2 c : link x y -> reach y l2 c -> reach x (l1 ++ y :: l2) c.
Proof. intros H1 H2. apply reach_pre, r_via; assumption. Qed.
Lemma reach_post x l c : reach x l c -> forall l2, reach x (l ++ l2) c.
Proof. induction 1; intros l2; [apply r_link; assumption|apply r_skip; auto|apply r_via; auto]. Qed.
Lemma reach_trans x a y b c : reach x a y -> reach y b c -> reach x (a ++ y :: b) c.
Proof. induction 1 as [x l y H|x z l y H IH|x z l y H H' IH]; intros R; cbn; [apply reach_in; assumption|apply r_skip; auto|apply r_via; auto]. Qed.
Lemma reach_remove e b c : forall a x, reach x (a ++ e :: b) c -> (exists y, In y (x :: a) /\ link y e) \/ reach x (a ++ b) c.
Proof.
  induction a as [|y a IH]; intros x H; cbn in *.
  - inversion H as [? ? ? L|? ? ? ? R|? ? ? ? L R]; subst; [right; apply r_link; exact L|right; exact R|left; exists x; auto].
  - inversion H as [? ? ? L|? ? ? ? R|? ? ? ? L R]; subst; [right; apply r_link; exact L| |].
    + destruct (IH _ R) as [(z & [->|Hz] & G)|G]; [left; exists z; auto..|right; apply r_skip, G].
    + destruct (IH _ R) as [(z & [->|Hz] & G)|G]; [left; exists z; auto..|right; apply r_via; assumption].
Qed.

Definition good (L : list cmd) : Prop := forall a x b c d, L = a ++ x :: b ++ c :: d -> comm x c \/ reach x b c.
Lemma good_remove pre c post : good (pre ++ c :: post) -> (forall x, In x pre -> ~ link x c) -> good (pre ++ post).
Proof.
  intros G N a x b y d H.
  assert (S : forall q, a ++ x :: b ++ y :: d = pre ++ post -> q = length pre -> comm x y \/ reach x b y).
  { intros q E Hq. symmetry in E. destruct (app_eq_app _ _ _ _ E) as (l & [[E1 E2]|[E1 E2]]).
    - destruct l as [|x' l]; [cbn in E2; rewrite app_nil_r in E1; subst a|].
      + apply (G (pre ++ [c]) x b y d). rewrite E2, <- app_assoc. reflexivity.
      + cbn in E2. injection E2 as <- E2. destruct (app_eq_app _ _ _ _ E2) as (m & [[E3 E4]|[E3 E4]]).
        * destruct (G a x (l ++ c :: m) y d) as [C|R]; [|left; exact C|]. { subst pre. repeat (rewrite <- app_assoc; cbn [app]). rewrite E4. reflexivity. }
          destruct (reach_remove c m y l x R) as [(z & Hz & L)|R']; [|right; rewrite E3; exact R'].
          exfalso. apply (N z); [|exact L]. subst pre. apply in_or_app. right. exact Hz.
        * destruct m as [|y' m].
          -- cbn in E4. rewrite app_nil_r in E3. subst l.
             destruct (G a x (b ++ [c]) y d) as [C|R]; [|left; exact C|]. { subst pre. repeat (rewrite <- app_assoc; cbn [app]). rewrite E4. reflexivity. }
             destruct (reach_remove c [] y b x R) as [(z & Hz & L)|R']; [|right; rewrite app_nil_r in R'; exact R'].
             exfalso. apply (N z); [|exact L]. subst pre. apply in_or_app. right. exact Hz.
          -- cbn in E4. injection E4 as <- E4. subst l. apply (G a x b y (m ++ c :: post)). subst pre. repeat (rewrite <- app_assoc; cbn [app]). reflexivity.
    - subst post. apply (G (pre ++ c :: l) x b y d). subst a. rewrite <- !app_assoc. reflexivity. }
  apply (S (length pre)); [symmetry; exact H|reflexivity].
Qed.
Lemma good_enabled pre c post : good (pre ++ c :: post) -> (forall x, In x pre -> ~ link x c) -> forall x, In x pre -> comm x c.
Proof.
  intros G N x Hx. apply in_split in Hx. destruct Hx as (a & b & ->).
  destruct (G a x b c post) as [C|R]; [rewrite <- app_assoc; reflexivity|exact C|]. exfalso.
  assert (W : forall x b, reach x b c -> exists y, In y (x :: b) /\ link y c).
  { clear. intros x b R. induction R as [x l c L|x y l c R IH|x y l c L R IH]; [exists x; cbn; auto| |].
    - destruct IH as (z & [->|Hz] & Lz); exists z; cbn; auto.
    - destruct IH as (z & Hz & Lz). exists z. split; [right; exact Hz|exact Lz]. }
  destruct (W x b R) as (y & Hy & L). apply (N y); [apply in_or_app; right; exact Hy|exact L].
Qed.
Lemma comm_seqc c : forall pre M, (forall x, In x pre -> comm x c) -> seqc pre (act c M) = act c (seqc pre M).
Proof.
  induction pre as [|x pre IH]; intros M H; [reflexivity|]. cbn. rewrite (H x (or_introl eq_refl) M). apply IH. intros y Hy. apply H. right. exact Hy.
Qed.
Theorem exec_good L M M' : exec L M M' -> good L -> M' = seqc L M.
Proof.
  induction 1 as [M|pre c post M M' N H IH]; intros G; [reflexivity|].
  rewrite (IH (good_remove _ _ _ G N)), !seqc_app. cbn. rewrite (comm_seqc c pre M (good_enabled _ _ _ G N)). reflexivity.
Qed.

Lemma good_nil : good [].
Proof. intros a x b c d H. destruct a; discriminate. Qed.
Lemma good_app L1 L2 : good L1 -> good L2 ->
  (forall a x b a2 c d, L1 = a ++ x :: b -> L2 = a2 ++ c :: d -> comm x c \/ reach x (b ++ a2) c) -> good (L1 ++ L2).
Proof.
  intros G1 G2 C a x b c d H. symmetry in H. destruct (app_eq_app _ _ _ _ H) as (l & [[E1 E2]|[E1 E2]]).
  - subst L2. apply (G2 l x b c d). reflexivity.
  - destruct l as [|x' l]; cbn in E2.
    + apply (G2 [] x b c d). symmetry. exact E2.
    + injection E2 as <- E2. destruct (app_eq_app _ _ _ _ E2) as (m & [[E3 E4]|[E3 E4]]).
      * apply (C a x l m c d E1) in E4. rewrite E3. exact E4.
      * destruct m as [|c' m]; cbn in E4.
        -- rewrite app_nil_r in E3. subst l. destruct (C a x b [] c d E1 (eq_sym E4)) as [Q|Q]; [left; exact Q|rewrite app_nil_r in Q; right; exact Q].
        -- injection E4 as <- E4. subst l. apply (G1 a x b c m). exact E1.
Qed.
Lemma comm_id_l x c : (forall M, act x M = M) -> comm x c.
Proof. intros H M. rewrite !H. reflexivity. Qed.
Lemma comm_id_r x c : (forall M, act c M = M) -> comm x c.
Proof. intros H M. rewrite !H. reflexivity. Qed.
Lemma stream_reach x l c : stream_of x = stream_of c -> reach x l c.
Proof. intros H. apply r_link. left. exact H. Qed.

(** Ends and begins in the compute stream. *)
Definition exits (L : list cmd) : Prop := forall a x b, L = a ++ x :: b -> stream_of x <> Comp ->
  (forall M, act x M = M) \/ exists b1 y b2, b = b1 ++ y :: b2 /\ stream_of y = Comp /\ reach x b1 y.
Definition enters (L : list cmd) : Prop := forall a c b, L = a ++ c :: b -> stream_of c <> Comp ->
  (forall M, act c M = M) \/ exists a1 y a2, a = a1 ++ y :: a2 /\ stream_of y = Comp /\ reach y a2 c.
Lemma comp_dec (s : stream) : s = Comp \/ s <> Comp.
Proof. destruct s; [left; reflexivity|right; discriminate]. Qed.
Lemma good_join L1 L2 : good L1 -> good L2 -> exits L1 -> enters L2 -> good (L1 ++ L2).
Proof.
  intros G1 G2 X N. apply good_app; [assumption..|]. intros a x b a2 c d E1 E2.
  assert (S1 : (forall M, act x M = M) \/ (exists b1 y b2, b = b1 ++ y :: b2 /\ stream_of y = Comp /\ reach x b1 y) \/ stream_of x = Comp).
  { destruct (comp_dec (stream_of x)) as [Hc|Hc]; [auto|]. destruct (X a x b E1 Hc) as [I|I]; auto. }
  assert (S2 : (forall M, act c M = M) \/ (exists b1 y b2, a2 = b1 ++ y :: b2 /\ stream_of y = Comp /\ reach y b2 c) \/ stream_of c = Comp).
  { destruct (comp_dec (stream_of c)) as [Hc|Hc]; [auto|]. destruct (N a2 c d E2 Hc) as [I|I]; auto. }
  destruct S1 as [I|S1]; [left; apply comm_id_l, I|]. destruct S2 as [I|S2]; [left; apply comm_id_r, I|]. right.
  destruct S1 as [(b1 & y & b2 & -> & Hy & R1)|Hx]; destruct S2 as [(c1 & z & c2 & -> & Hz & R2)|Hc].
  - replace ((b1 ++ y :: b2) ++ c1 ++ z :: c2) with (b1 ++ y :: (b2 ++ c1) ++ z :: c2) by (rewrite <- !app_assoc; reflexivity).
    apply (reach_trans x b1 y); [exact R1|]. apply reach_in; [left; congruence|exact R2].
  - rewrite <- app_assoc. cbn. apply (reach_trans x b1 y); [exact R1|]. apply stream_reach. congruence.
  - rewrite app_assoc. apply reach_in; [left; congruence|exact R2].
  - apply stream_reach. congruence.
Qed.
Lemma exits_app L1 L2 : exits L1 -> exits L2 -> exits (L1 ++ L2).
Proof.
  intros H1 H2 a x b E Hx. symmetry in E. destruct (app_eq_app _ _ _ _ E) as (l & [[E1 E2]|[E1 E2]]).
  - apply (H2 l x b E2 Hx).
  - destruct l as [|x' l]; cbn in E2; [apply (H2 [] x b (eq_sym E2) Hx)|]. injection E2 as <- E2. subst b.
    destruct (H1 a x l E1 Hx) as [I|(b1 & y & b2 & -> & Hy & R)]; [left; exact I|]. right. exists b1, y, (b2 ++ L2). rewrite <- app_assoc. auto.
Qed.
Lemma enters_app L1 L2 : enters L1 -> enters L2 -> enters (L1 ++ L2).
Proof.
  intros H1 H2 a x b E Hx. symmetry in E. destruct (app_eq_app _ _ _ _ E) as (l & [[E1 E2]|[E1 E2]]).
  - destruct (H2 l x b E2 Hx) as [I|(a1 & y & a2 & -> & Hy & R)]; [left; exact I|]. right. exists (L1 ++ a1), y, a2. rewrite E1, <- app_assoc. auto.
  - destruct l as [|x' l]; cbn in E2.
    + destruct (H2 [] x b (eq_sym E2) Hx) as [I|(a1 & y & a2 & C & _)]; [left; exact I|]. destruct a1; discriminate.
    + injection E2 as <- E2. apply (H1 a x l E1 Hx).
Qed.
Lemma exits_comp L : (forall x, In x L -> stream_of x = Comp) -> exits L.
Proof. intros H a x b -> Hx. exfalso. apply Hx, H, in_elt. Qed.
Lemma enters_comp L : (forall x, In x L -> stream_of x = Comp) -> enters L.
Proof. intros H a x b -> Hx. exfalso. apply Hx, H, in_elt. Qed.
Lemma good_stream s L : (forall x, In x L -> stream_of x = s) -> good L.
Proof. intros H a x b c d ->. right. apply stream_reach. rewrite (H x), (H c); [reflexivity| |apply in_elt]. apply in_or_app. right. right. apply in_elt. Qed.
End Gen.
