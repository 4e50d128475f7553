(** * Snapshot slots used by the double backward pass. *)
From Coq Require Import List ZArith QArith Lia Bool.
From Verif Require Import Ops Sums Grid Stencil ScalarModel ScalarFunc BornModel DoubleModel.
Import ListNotations.
Local Open Scope K_scope.

Section DStore.
Variable K : ops.
Variable P : par K.
Variable rsc : list Z.

Notation stb m := (m_store K (n_bg K m)).
Notation sts m := (m_store K (n_sc K m)).

Lemma n_dim_store reg p l acc :
  stb (snd (fold_left (n_fwd_dim K P reg p) l acc)) = stb (snd acc) /\
  sts (snd (fold_left (n_fwd_dim K P reg p) l acc)) = sts (snd acc).
Proof.
  revert acc. induction l as [|d l IH]; intros acc; cbn [fold_left]; [auto|].
  destruct (IH (n_fwd_dim K P reg p acc d)) as [-> ->]. destruct acc as [[x y] m]. unfold n_fwd_dim.
  destruct (_ =? _)%Z; auto.
Qed.

Lemma n_cell_store v sc a b si m rp s :
  (s = si -> a = false /\ b = false) ->
  stb (n_fwd_cell K P v sc a b si m rp) s = stb m s /\ sts (n_fwd_cell K P v sc a b si m rp) s = sts m s.
Proof.
  intros H. destruct rp as [reg p]. unfold n_fwd_cell.
  pose proof (n_dim_store reg p (dims K P) (0, 0, m)) as X.
  destruct (fold_left _ _ _) as [[x y] m1]. cbn [snd] in X. destruct X as [X1 X2]. cbn [n_bg n_sc m_store].
  rewrite X1, X2. unfold store_at. destruct (Z.eq_dec s si) as [e|e].
  - destruct (H e) as [-> ->]. auto.
  - apply Z.eqb_neq in e. destruct a, b; rewrite ?e; auto.
Qed.

Lemma n_cells_store v sc a b si l m s :
  (s = si -> a = false /\ b = false) ->
  stb (fold_left (n_fwd_cell K P v sc a b si) l m) s = stb m s /\ sts (fold_left (n_fwd_cell K P v sc a b si) l m) s = sts m s.
Proof.
  intros H. revert m. induction l as [|x l IH]; intros m; cbn [fold_left]; [auto|].
  destruct (IH (n_fwd_cell K P v sc a b si m x)) as [-> ->]. apply n_cell_store. exact H.
Qed.

Lemma n_body_store v sc vis vrg srg sr f fsc t m s :
  ((t mod sr = 0)%Z -> s <> (t / sr)%Z) ->
  stb (n_fwd_body K P rsc v sc vis vrg srg sr f fsc t m) s = stb m s /\
  sts (n_fwd_body K P rsc v sc vis vrg srg sr f fsc t m) s = sts m s.
Proof.
  intros H. unfold n_fwd_body. cbn [n_bg n_sc m_store]. apply n_cells_store. intros E.
  destruct (Z.eqb_spec (t mod sr) 0%Z) as [e|e]; [destruct (H e E)|]. rewrite !andb_false_r. auto.
Qed.

Lemma n_t_store v sc vis vrg srg sr f fsc st m t s :
  ((t mod sr = 0)%Z -> s <> (t / sr)%Z) ->
  stb (n_fwd_t K P rsc v sc vis vrg srg sr f fsc st m t) s = stb m s /\
  sts (n_fwd_t K P rsc v sc vis vrg srg sr f fsc st m t) s = sts m s.
Proof.
  intros H. unfold n_fwd_t. destruct (Z.odd _); [|apply n_body_store; exact H].
  cbn [n_swap n_bg n_sc c_swap m_store]. 
  destruct (n_body_store v sc vis vrg srg sr f fsc t (n_swap K m) s H) as [-> ->]. auto.
Qed.

Lemma n_forward_store v sc vis vrg srg sr f fsc nt st m s :
  (forall t, (st <= t < st + nt)%Z -> (t mod sr = 0)%Z -> s <> (t / sr)%Z) ->
  stb (n_forward K P rsc v sc vis vrg srg sr f fsc nt st m) s = stb m s /\
  sts (n_forward K P rsc v sc vis vrg srg sr f fsc nt st m) s = sts m s.
Proof.
  intros H. unfold n_forward.
  assert (H' : forall t, In t (zrange st (st + nt)) -> (t mod sr = 0)%Z -> s <> (t / sr)%Z)
    by (intros t Ht; apply In_zrange in Ht; apply H; lia).
  clear H. revert m H'. induction (zrange st (st + nt)) as [|t l IH]; intros m H; cbn [fold_left]; [auto|].
  destruct (IH (n_fwd_t K P rsc v sc vis vrg srg sr f fsc st m t)) as [-> ->]; [intros; apply H; [right|]; auto|].
  apply n_t_store. apply H. left. reflexivity.
Qed.

(** The backward kernel depends only on the slots of its own steps. *)
Section Read.
Variables w w' wsc wsc' : Z -> arr K.

Lemma h_cells_read v sc a b sr si l m :
  (a || b = true -> w si = w' si /\ wsc si = wsc' si) ->
  fold_left (h_bwd_cell K P v sc w wsc a b sr si) l m = fold_left (h_bwd_cell K P v sc w' wsc' a b sr si) l m.
Proof.
  intros H. revert m. induction l as [|[reg p] l IH]; intros m; cbn [fold_left]; [reflexivity|].
  rewrite IH. f_equal. unfold h_bwd_cell. destruct (fold_left _ _ _) as [[x y] m1].
  destruct a, b; cbn [orb] in H; try (destruct H as [H1 H2]; [reflexivity|]; rewrite H1, ?H2); reflexivity.
Qed.

Lemma h_backward_read v sc vis vrg srg sr gr grsc nt st m :
  (forall t, (st - nt <= t < st)%Z -> (t mod sr = 0)%Z -> w (t / sr)%Z = w' (t / sr)%Z /\ wsc (t / sr)%Z = wsc' (t / sr)%Z) ->
  h_backward K P rsc v sc vis w wsc vrg srg sr gr grsc nt st m
  = h_backward K P rsc v sc vis w' wsc' vrg srg sr gr grsc nt st m.
Proof.
  intros H. unfold h_backward.
  assert (H' : forall t, In t (rev (zrange (st - nt) st)) -> (t mod sr = 0)%Z -> w (t / sr)%Z = w' (t / sr)%Z /\ wsc (t / sr)%Z = wsc' (t / sr)%Z)
    by (intros t Ht; apply in_rev, In_zrange in Ht; apply H; lia).
  clear H. revert m H'. induction (rev (zrange (st - nt) st)) as [|t l IH]; intros m H; cbn [fold_left]; [reflexivity|].
  rewrite IH by (intros; apply H; [right|]; auto). f_equal.
  assert (E : forall m, h_bwd_body K P rsc v sc vis w wsc vrg srg sr gr grsc t m = h_bwd_body K P rsc v sc vis w' wsc' vrg srg sr gr grsc t m).
  { intros m0. unfold h_bwd_body. cbv zeta. rewrite (h_cells_read v sc); [reflexivity|].
    intros E. apply H; [left; reflexivity|]. destruct (Z.eqb_spec (t mod sr) 0); [assumption|].
    rewrite !andb_false_r in E. discriminate E. }
  unfold h_bwd_t. rewrite !E. reflexivity.
Qed.
End Read.

Lemma slots_inside nt sr t : (0 < sr)%Z -> (nt mod sr = 0)%Z -> (0 <= t < nt)%Z -> (0 <= t / sr < nt / sr)%Z.
Proof.
  intros Hs Hm Ht. split; [apply Z.div_pos; lia|]. apply Z.div_lt_upper_bound; [lia|].
  rewrite (Z.div_mod nt sr) in Ht by lia. lia.
Qed.

End DStore.

Section DRead.
Variable K : ops.
Variable P : par K.
Variable pw : nat -> Z * Z.

(** C38, writes. *)
Lemma double_writes_inside v ggv visF visB vrg sr f ggf nt w0 wsc0 u ggu gr g :
  (0 < sr)%Z -> (nt mod sr = 0)%Z ->
  let D := scalar_double_backward K P pw v ggv visF visB vrg sr f ggf nt w0 wsc0 u ggu gr g in
  forall s, ~ (0 <= s < nt / sr)%Z -> db_w K D s = w0 s /\ db_wsc K D s = wsc0 s.
Proof.
  intros Hs Hm D s H. subst D. unfold scalar_double_backward. cbn [db_w db_wsc]. unfold db_forward.
  set (m0 := n_fwd_init _ _ _ _ _ _ _ _).
  set (m1 := if (nt <=? 0)%Z then m0 else _).
  assert (X : m_store K (n_bg K m1) s = w0 s /\ m_store K (n_sc K m1) s = wsc0 s).
  { subst m1. destruct (nt <=? 0)%Z; [split; reflexivity|].
    edestruct n_forward_store as [-> ->]; [|split; reflexivity].
    intros t Ht _ E. pose proof (slots_inside nt sr t Hs Hm). lia. }
  destruct (nt mod 2 =? 0)%Z; exact X.
Qed.

(** C38, reads. *)
Lemma double_reads_inside v ggv vis vrg sr gr nt g (w w' wsc wsc' : Z -> arr K) :
  (0 < sr)%Z -> (nt mod sr = 0)%Z ->
  (forall s, (0 <= s < nt / sr)%Z -> w s = w' s /\ wsc s = wsc' s) ->
  db_backward K P pw v ggv vis w wsc vrg sr gr nt g = db_backward K P pw v ggv vis w' wsc' vrg sr gr nt g.
Proof.
  intros Hs Hm H. unfold db_backward. destruct (_ || _); [reflexivity|]. cbv zeta.
  rewrite (h_backward_read K (db_par K P) (p_rec P) w w' wsc wsc'); [reflexivity|].
  intros t Ht _. apply H. apply slots_inside; auto. lia.
Qed.
End DRead.
