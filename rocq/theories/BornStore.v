(** * Snapshot buffers the Born kernels use, depending on the gradients requested. *)
From Coq Require Import List ZArith QArith Lia Bool.
From Verif Require Import Ops Sums Grid Stencil ScalarModel ScalarFunc BornModel DoubleStore.
Import ListNotations.
Local Open Scope K_scope.

Lemma fold_keep {A B C} (F : A -> C) (f : A -> B -> A) l a :
  (forall a x, F (f a x) = F a) -> F (fold_left f l a) = F a.
Proof. intros H. revert a. induction l as [|x l IH]; intros a; cbn [fold_left]; [reflexivity|]. rewrite IH. apply H. Qed.

Lemma fold_same {A B} (f g : A -> B -> A) l a :
  (forall a x, f a x = g a x) -> fold_left f l a = fold_left g l a.
Proof. intros H. revert a. induction l as [|x l IH]; intros a; cbn [fold_left]; [reflexivity|]. rewrite H. apply IH. Qed.

Section BStore.
Variable K : ops.
Variable P : par K.
Variable recsc : list Z.
Variable pw : nat -> Z * Z.

Notation stb m := (m_store K (n_bg K m)).
Notation sts m := (m_store K (n_sc K m)).

Lemma cell_keep v sc a b si m rp :
  (b = false -> sts (n_fwd_cell K P v sc a b si m rp) = sts m) /\
  (a = false -> stb (n_fwd_cell K P v sc a b si m rp) = stb m).
Proof.
  destruct rp as [reg p]. unfold n_fwd_cell.
  pose proof (n_dim_store K P reg p (dims K P) (0, 0, m)) as X.
  destruct (fold_left _ _ _) as [[x y] m1]. cbn [snd] in X. destruct X as [X1 X2]. cbn [n_bg n_sc m_store].
  split; intros ->; assumption.
Qed.

Section Fwd.
Variables (v sc : arr K) (vis : list (list Z * pt)) (sr : Z) (f fsc : Z -> list K).

Lemma driver_keep_sc srg nt cb m m' :
  n_fwd_driver K P recsc v sc vis false srg sr f fsc nt cb m = Some m' -> sts m' = sts m.
Proof.
  unfold n_fwd_driver. destruct (_ <=? _)%Z; [intros [= <-]; reflexivity|]. cbv zeta.
  destruct (match cb with Some c => c | None => _ end =? 0)%Z; [discriminate|]. intros [= <-].
  apply (fold_keep (fun m => sts m)). clear. intros m s. unfold n_fwd_chunk. cbv zeta.
  assert (X : forall a b m, sts (n_forward K P recsc v sc vis false srg sr f fsc a b m) = sts m).
  { intros a b m0. unfold n_forward. apply (fold_keep (fun m => sts m)). clear. intros m t.
    assert (X : forall m, sts (n_fwd_body K P recsc v sc vis false srg sr f fsc t m) = sts m).
    { intros m0. unfold n_fwd_body. cbn [n_bg n_sc m_store]. apply (fold_keep (fun m => sts m)).
      intros m1 rp. apply cell_keep. reflexivity. }
    unfold n_fwd_t. destruct (Z.odd _); [|apply X]. cbn [n_swap n_sc c_swap m_store]. rewrite X. reflexivity. }
  destruct (_ =? _)%Z; [apply X|]. cbn [n_swap n_sc c_swap m_store]. apply X.
Qed.

Lemma driver_keep_bg nt cb m m' :
  n_fwd_driver K P recsc v sc vis false false sr f fsc nt cb m = Some m' -> stb m' = stb m.
Proof.
  unfold n_fwd_driver. destruct (_ <=? _)%Z; [intros [= <-]; reflexivity|]. cbv zeta.
  destruct (match cb with Some c => c | None => _ end =? 0)%Z; [discriminate|]. intros [= <-].
  apply (fold_keep (fun m => stb m)). clear. intros m s. unfold n_fwd_chunk. cbv zeta.
  assert (X : forall a b m, stb (n_forward K P recsc v sc vis false false sr f fsc a b m) = stb m).
  { intros a b m0. unfold n_forward. apply (fold_keep (fun m => stb m)). clear. intros m t.
    assert (X : forall m, stb (n_fwd_body K P recsc v sc vis false false sr f fsc t m) = stb m).
    { intros m0. unfold n_fwd_body. cbn [n_bg n_sc m_store]. apply (fold_keep (fun m => stb m)).
      intros m1 rp. apply cell_keep. reflexivity. }
    unfold n_fwd_t. destruct (Z.odd _); [|apply X]. cbn [n_swap n_bg c_swap m_store]. rewrite X. reflexivity. }
  destruct (_ =? _)%Z; [apply X|]. cbn [n_swap n_bg c_swap m_store]. apply X.
Qed.

Lemma born_writes srg nt cb w0 wsc0 u usc B :
  born_forward K P recsc pw v sc vis false srg sr f fsc nt cb w0 wsc0 u usc = Some B ->
  bo_wsc K B = wsc0 /\ (srg = false -> bo_w K B = w0).
Proof.
  unfold born_forward. destruct (n_fwd_driver _ _ _ _ _ _ _ _ _ _ _ _ _ _) as [m|] eqn:E; [|discriminate].
  intros [= <-]. split; [exact (driver_keep_sc _ _ _ _ _ E)|]. intros ->. exact (driver_keep_bg _ _ _ _ E).
Qed.
End Fwd.

Section Bwd.
Variables (v sc : arr K) (vis : list (list Z * pt)) (sr : Z) (gr grsc : Z -> list K).

Lemma h_driver_same w w' wsc wsc' srg nt cb m :
  (srg = true -> w = w') ->
  h_bwd_driver K P recsc v sc vis w wsc false srg sr gr grsc nt cb m
  = h_bwd_driver K P recsc v sc vis w' wsc' false srg sr gr grsc nt cb m.
Proof.
  intros H. unfold h_bwd_driver. destruct (_ <=? _)%Z; [reflexivity|]. cbv zeta.
  destruct (match cb with Some c => c | None => _ end =? 0)%Z; [reflexivity|]. do 2 f_equal.
  apply fold_same. intros m1 s. unfold h_bwd_chunk. cbv zeta.
  assert (X : forall a b m, h_backward K P recsc v sc vis w wsc false srg sr gr grsc a b m
                          = h_backward K P recsc v sc vis w' wsc' false srg sr gr grsc a b m).
  { intros a b m2. unfold h_backward. apply fold_same. intros m3 t.
    assert (X : forall m, h_bwd_body K P recsc v sc vis w wsc false srg sr gr grsc t m
                        = h_bwd_body K P recsc v sc vis w' wsc' false srg sr gr grsc t m).
    { intros m4. unfold h_bwd_body. cbv zeta.
      rewrite (fold_same (h_bwd_cell K P v sc w wsc (false && (t mod sr =? 0)%Z) (srg && (t mod sr =? 0)%Z) sr (t / sr)%Z)
                         (h_bwd_cell K P v sc w' wsc' (false && (t mod sr =? 0)%Z) (srg && (t mod sr =? 0)%Z) sr (t / sr)%Z));
        [reflexivity|].
      intros m5 [reg p]. unfold h_bwd_cell. destruct (fold_left _ _ _) as [[x y] m6]. cbn [andb].
      destruct srg; [rewrite (H eq_refl); reflexivity|reflexivity]. }
    unfold h_bwd_t. rewrite !X. reflexivity. }
  rewrite !X. reflexivity.
Qed.

Lemma born_reads w w' wsc wsc' srg nt cb g gsc :
  (srg = true -> w = w') ->
  born_backward K P recsc pw v sc vis w wsc false srg sr gr grsc nt cb g gsc
  = born_backward K P recsc pw v sc vis w' wsc' false srg sr gr grsc nt cb g gsc.
Proof. intros H. unfold born_backward. rewrite (h_driver_same w w' wsc wsc' srg nt cb _ H). reflexivity. Qed.
End Bwd.
End BStore.
