(** * The source, receiver and gradient-summing kernels of the staggered-grid propagators on the device. *)
From Coq Require Import List ZArith QArith Lia Bool Permutation.
From Verif Require Import Ops Sums Grid Stencil ScalarModel ScalarRefine ScalarForward Param ShotsModel Shots Stag StagAdj StagKernel StagCell StagRefine StagParam
  StagShotsModel StagShots StagShotsRun Threads GpuModel GpuLaunch GpuFwd GpuLocs StagGpuModel StagGpuCell StagGpuLaunch StagGpuFoot.
Import ListNotations.
Local Open Scope K_scope.

Section SGLocs.
Variable S : sys.
Variable N : kern S.
Variable K : ops.
Variable C_dec : forall a b : sC S, {a = b} + {a <> b}.
Variable P0 : spar S K.
Variable NS : Z.
Notation shape := (sp_shape P0).
Notation n := (prodZ shape).
Notation nd := (length shape).
Notation kvar := (svar (sX S) (sE S) (kQ N) (kM N)).
Notation kmem := (kmem S N K).
Notation leq := (sgloc_eq S N C_dec).
Notation mem := (mem (sgloc S N) K).
Notation run := (run leq).
Notation at_ := (at_ S N K P0).
Notation inwin := (inwin S K P0).
Hypothesis Sok : sys_ok S nd.
Hypothesis Hns : (0 <= NS < 2 ^ 31)%Z.
Variable cnt : sC S -> Z.
Notation ginv := (ginv S N K P0 NS cnt).
Notation inX := (in_dec (kX_dec N)).

(** Value of [k_add]. *)
Lemma k_add_val L amps (m : kmem) c v : k_add S N K L amps m c v =
  match v with VX x => if inX x (cinX S c) then add_to_wavefield K (m v) (L c) (amps c) else m v | _ => m v end.
Proof.
  unfold k_add.
  assert (G : forall l (m : kmem), NoDup l ->
    fold_left (fun m x => seta S N K m (VX x) (add_to_wavefield K (m (VX x)) (L c) (amps c))) l m v =
    match v with VX x => if inX x l then add_to_wavefield K (m v) (L c) (amps c) else m v | _ => m v end).
  { clear m. induction l as [|y l IH]; intros m Hn; cbn [fold_left]; [destruct v; reflexivity|]. inversion Hn; subst. rewrite IH by assumption.
    destruct v as [x| | | |]; try (rewrite seta_other by discriminate; reflexivity). destruct (kX_dec N y x) as [->|Ny].
    - rewrite seta_same. destruct (inX x l); [contradiction|]. destruct (inX x (x :: l)) as [_|i]; [reflexivity|exfalso; apply i; left; reflexivity].
    - rewrite seta_other by congruence. destruct (inX x l) as [j|j], (inX x (y :: l)) as [i|i]; auto.
      + exfalso. apply i. right. exact j.
      + destruct i; [congruence|contradiction]. }
  apply G. apply NoDup_filter, (ok_X S nd Sok).
Qed.

Section Add.
Variables (sw : bool) (c : sC S) (m : Z) (locs : Z -> Z) (f : arr K).
Hypothesis Hm : (m < 2 ^ 31)%Z.
Hypothesis Hlocs : forall j, (0 <= j < NS * m)%Z -> (locs j < n)%Z.
Hypothesis Hd : distinct NS m locs.
Notation xs := (cinX S c).
Notation pr := (g_add S N K P0 sw c m locs f).
Definition saown (kj : Z * Z) (l : sgloc S N) : Prop :=
  (0 <= locs (fst kj * m + snd kj))%Z /\ exists x, In x xs /\ l = at_ sw (fst kj) (VX x) (locs (fst kj * m + snd kj)%Z).
Lemma sadd_foot kj : foot (fun l => False \/ saown kj l) (saown kj) (pr kj).
Proof.
  destruct kj as [k j]. unfold g_add. cbv zeta. destruct (Z.leb_spec 0 (locs (k * m + j))) as [H|H]; [|constructor]. apply foot_seqp. apply Forall_forall. intros q Hq. apply in_map_iff in Hq. destruct Hq as (x & <- & Hx).
  assert (O : saown (k, j) (at_ sw k (VX x) (locs (k * m + j)%Z))) by (split; [exact H|exists x; split; [exact Hx|reflexivity]]).
  apply foot_load; [right; exact O|]. intros y. apply foot_store; [exact O|constructor].
Qed.
Lemma run_adds k l a ys : NoDup ys -> forall (M : mem) v i,
  run (seqp (map (fun x => Load (at_ sw k (VX x) l) (fun y => Store (at_ sw k (VX x) l) (y + a) Ret)) ys)) M (at_ sw k v i) =
  match v with VX x => if inX x ys then if (i =? l)%Z then M (at_ sw k v i) + a else M (at_ sw k v i) else M (at_ sw k v i) | _ => M (at_ sw k v i) end.
Proof.
  induction 1 as [|x ys Hx Hn IH]; intros M v i; [destruct v; reflexivity|]. cbn [map seqp fold_right]. rewrite run_bind. cbn [Threads.run]. unfold seqp in IH. rewrite IH.
  assert (X : forall w j, put leq M (at_ sw k (VX x) l) (M (at_ sw k (VX x) l) + a) (at_ sw k w j) = setm S N K (fun v i => M (at_ sw k v i)) (VX x) l (M (at_ sw k (VX x) l) + a) w j).
  { intros w j. apply (Vw_put S N K C_dec P0 sw k M (fun v i => M (at_ sw k v i)) (VX x) l). intros ? ?; reflexivity. }
  rewrite X. destruct v as [y| | | |]; try (rewrite setm_other by (left; discriminate); reflexivity).
  destruct (kX_dec N x y) as [<-|Ny].
  - destruct (inX x ys); [contradiction|]. destruct (inX x (x :: ys)) as [_|i']; [|exfalso; apply i'; left; reflexivity].
    destruct (Z.eqb_spec i l) as [->|Hi]; [apply setm_same|apply setm_other; right; exact Hi].
  - rewrite setm_other by (left; congruence). destruct (inX y ys) as [j|j], (inX y (x :: ys)) as [i'|i']; auto.
    + exfalso. apply i'. right. exact j.
    + destruct i'; [congruence|contradiction].
Qed.
Definition aact (k : Z) (mr : kmem * krec S K) (j : Z) : kmem * krec S K :=
  let q := (k * m + j)%Z in
  (fun v i => match v with VX x => if inX x xs then if (0 <=? locs q)%Z && (i =? locs q)%Z then fst mr v i + f q else fst mr v i else fst mr v i | _ => fst mr v i end, snd mr).
Lemma aact_fold k js : forall mr v i, fst (fold_left (aact k) js mr) v i =
  match v with VX x => if inX x xs then fold_left (fun wf j => if (0 <=? locs (k * m + j))%Z then upd wf (locs (k * m + j)%Z) (wf (locs (k * m + j)%Z) + f (k * m + j)%Z) else wf) js (fst mr v) i else fst mr v i | _ => fst mr v i end.
Proof.
  assert (E : forall js w w', (forall i, w i = w' i) -> forall i, fold_left (fun (wf : arr K) j => if (0 <=? locs (k * m + j))%Z then upd wf (locs (k * m + j)%Z) (wf (locs (k * m + j)%Z) + f (k * m + j)%Z) else wf) js w i
    = fold_left (fun wf j => if (0 <=? locs (k * m + j))%Z then upd wf (locs (k * m + j)%Z) (wf (locs (k * m + j)%Z) + f (k * m + j)%Z) else wf) js w' i).
  { clear js. induction js as [|j js IH]; intros w w' Hw i; [apply Hw|]. cbn [fold_left]. apply IH. intros i'. destruct (0 <=? _)%Z; [|apply Hw]. unfold upd. rewrite Hw. destruct (i' =? _)%Z; [reflexivity|apply Hw]. }
  induction js as [|j js IH]; intros mr v i; [destruct v; try reflexivity; destruct (inX x xs); reflexivity|]. cbn [fold_left]. rewrite IH. destruct v; try reflexivity. destruct (inX x xs) as [Hx|Hx].
  - apply E. intros i'. unfold aact. cbn [fst]. destruct (inX x xs); [|contradiction]. destruct (Z.leb_spec 0 (locs (k * m + j))); cbn [andb]; [|reflexivity]. unfold upd. destruct (Z.eqb_spec i' (locs (k * m + j))) as [->|]; reflexivity.
  - unfold aact. cbn [fst]. destruct (inX x xs); [contradiction|reflexivity].
Qed.
Lemma aact_snd k js : forall mr, snd (fold_left (aact k) js mr) = snd mr.
Proof. induction js as [|j js IH]; intros mr; [reflexivity|]. cbn [fold_left]. rewrite IH. reflexivity. Qed.
Lemma add_row k (w : arr K) : add_to_wavefield K w (row locs m k) (row f m k) =
  fold_left (fun wf j => if (0 <=? locs (k * m + j))%Z then upd wf (locs (k * m + j)%Z) (wf (locs (k * m + j)%Z) + f (k * m + j)%Z) else wf) (zrange 0 m) w.
Proof.
  unfold add_to_wavefield, row. revert w. generalize (zrange 0 m) as l. induction l as [|x l IH]; intros w; [reflexivity|]. cbn. apply IH.
Qed.

Lemma sadd_launch L amps lg M M' fam : (forall k, L k c = row locs m k) -> (forall k, amps k c = row f m k) ->
  launch_opt S N K C_dec NS m pr M M' -> ginv sw lg M fam ->
  ginv sw lg M' (fun k => (k_add S N K (L k) (amps k) (fst (fam k)) c, snd (fam k))).
Proof.
  intros HL HA. unfold launch_opt. destruct (Z.ltb_spec 0 m) as [H0|H0].
  2:{ intros ->. apply ginv_peq. intros k _. split; [|reflexivity]. intros v i _. cbn [fst]. rewrite k_add_val, HL. unfold row. rewrite zrange_nil by lia. cbn [map].
      destruct v; try reflexivity. destruct (inX x xs); reflexivity. }
  intros [_ He] HI. assert (Hm' : (0 <= m < 2 ^ 31)%Z) by lia.
  assert (E : forall l, M' l = fold_left (fun M it => run (pr it) M) (flat_map (fun k => map (pair k) (zrange 0 m)) (zrange 0 NS)) M l).
  { rewrite <- (locs_items m NS Hm' Hns). apply (kernel_seq leq (threads (launch_locs m NS)) (items_locs m NS) pr (fun _ => False) saown).
    - intros it _. apply sadd_foot.
    - intros it l _ _ [].
    - rewrite (locs_items m NS Hm' Hns). apply own_pairs; [apply NoDup_locs|]. intros [k j] [k' j'] Ha Hb Nn l [A1 (x & Hx & A2)] [B1 (x' & Hx' & B2)]. cbn [fst snd] in *. apply In_locs in Ha, Hb. rewrite A2 in B2. unfold StagGpuModel.at_ in B2. injection B2 as _ B2.
      destruct (sshot_idx S K P0 k k' (locs (k * m + j)%Z) (locs (k' * m + j')%Z)) as [<- E]; [split; [exact A1|apply Hlocs; nia]|split; [exact B1|apply Hlocs; nia]|exact B2|].
      apply Nn. f_equal. apply (Hd k); [apply Ha|apply Ha|apply Hb|exact A1|exact E].
    - exact He. }
  assert (X : ginv sw lg (fold_left (fun M it => run (pr it) M) (flat_map (fun k => map (pair k) (zrange 0 m)) (zrange 0 NS)) M)
     (fun k => fold_left (aact k) (map snd (filter (fun x => fst x =? k)%Z (flat_map (fun k => map (pair k) (zrange 0 m)) (zrange 0 NS)))) (fam k))).
  { apply (interleave_inv (fun M it => run (pr it) M) aact (ginv sw lg)).
    - intros g0 fam0 k j Hi [H1 H2]. pose proof (sadd_foot (k, j)) as Hf. apply In_locs in Hi. destruct Hi as [K1 J1]. split.
      + intros k2 Hk2. unfold fset. destruct (Z.eqb_spec k2 k) as [->|Hn].
        * destruct (H1 k Hk2) as [V R]. split.
          -- intros v i Hi. unfold aact, g_add. cbn [fst]. cbv zeta. rewrite <- (V v i Hi). destruct (Z.leb_spec 0 (locs (k * m + j))).
             ++ rewrite run_adds by (apply NoDup_filter, (ok_X S nd Sok)). reflexivity.
             ++ cbn [Threads.run andb]. destruct v; try reflexivity. destruct (inX x xs); reflexivity.
          -- intros t c0 Hc. cbn [aact snd]. rewrite <- R by exact Hc. apply map_ext. intros j0. apply (run_outside leq _ _ _ Hf). intros (_ & x & _ & E'). discriminate.
        * destruct (H1 k2 Hk2) as [V R]. split.
          -- intros v i Hi. rewrite <- V by exact Hi. apply (run_outside leq _ _ _ Hf). intros (L0 & x & _ & E'). cbn [fst snd] in *. unfold StagGpuModel.at_ in E'. injection E' as _ E2.
             destruct (sshot_idx S K P0 k2 k i (locs (k * m + j)%Z) Hi) as [Hc _]; [split; [exact L0|apply Hlocs; nia]|exact E2|contradiction].
          -- intros t c0 Hc. rewrite <- R by exact Hc. apply map_ext. intros j0. apply (run_outside leq _ _ _ Hf). intros (_ & x & _ & E'). discriminate.
      + intros q i. rewrite <- H2. apply (run_outside leq _ _ _ Hf). intros (_ & x & _ & E'). discriminate.
    - intros g0 fam0 fam1. apply ginv_ext.
    - exact HI. }
  destruct X as [X1 X2]. split.
  - intros k Hk0. destruct (X1 k Hk0) as [A1 A2]. rewrite filter_locs in A1, A2 by exact Hk0. split.
    + intros v i Hi. rewrite E, A1 by exact Hi. cbn [fst]. rewrite aact_fold, k_add_val, HL, HA, add_row. destruct v; try reflexivity. destruct (inX x xs); reflexivity.
    + intros t c0 Hc. rewrite aact_snd in A2. cbn [snd]. rewrite <- A2 by exact Hc. apply map_ext. intros j. apply E.
  - intros q i. rewrite E. apply X2.
Qed.
End Add.

(** Recording. *)
Section Rec.
Variables (sw : bool) (c : sC S) (locs : Z -> Z) (t : Z).
Hypothesis Hm : (cnt c < 2 ^ 31)%Z.
Hypothesis Hlocs : forall j, (0 <= j < NS * cnt c)%Z -> (locs j < n)%Z.
Notation xs := (cinX S c).
Notation m := (cnt c).
Notation pr := (g_rec S N K P0 sw c m locs t).
Definition srown (kj : Z * Z) (l : sgloc S N) : Prop := l = (LR t c, fst kj * m + snd kj)%Z.
Definition srshared (l : sgloc S N) : Prop := match fst l with LV _ => True | _ => False end.
Lemma srec_foot kj : foot (fun l => srshared l \/ srown kj l) (srown kj) (pr kj).
Proof.
  destruct kj as [k j]. unfold g_rec. cbv zeta. destruct (Z.leb_spec 0 (locs (k * m + j))) as [H|H]; [|constructor].
  apply foot_rd_cell; [intros; left; exact I|]. intros Y. apply foot_store; [reflexivity|constructor].
Qed.
Lemma srec_launch L lg M M' fam : (forall k, L k = row locs m k) ->
  launch_opt S N K C_dec NS m pr M M' -> ginv sw lg M fam ->
  ginv sw lg M' (fun k => (fst (fam k), kput S K (snd (fam k)) t (fun c' => if C_dec c' c then true else false) (fun c' old => k_rec S N K (fst (fam k)) (L k) old c))).
Proof.
  intros HL. unfold launch_opt. destruct (Z.ltb_spec 0 m) as [H0|H0].
  2:{ intros -> [I1 I2]. split; [|exact I2]. intros k Hk. destruct (I1 k Hk) as [V R]. split; [exact V|]. intros u c' Hc. rewrite R by exact Hc. cbn [snd]. unfold kput. destruct (Z.eqb_spec u t) as [->|]; cbn [andb]; [|reflexivity].
      destruct (C_dec c' c) as [->|]; [|reflexivity]. rewrite HL, <- (R t c Hc). unfold row. rewrite zrange_nil by lia. reflexivity. }
  intros [_ He] [I1 I2]. assert (Hm' : (0 <= m < 2 ^ 31)%Z) by lia.
  set (items := flat_map (fun k => map (pair k) (zrange 0 m)) (zrange 0 NS)).
  assert (H1 : forall it, In it items -> foot (fun l => srshared l \/ srown it l) (srown it) (pr it)) by (intros it _; apply srec_foot).
  assert (H2 : forall it l, In it items -> srown it l -> ~ srshared l) by (intros it l _ -> []).
  assert (H3 : ForallOrdPairs (fun x y => forall l, srown x l -> ~ srown y l) items).
  { apply own_pairs; [apply NoDup_locs|]. intros [k j] [k' j'] A B Nn l -> E. unfold srown in E. cbn in E. injection E as E. apply In_locs in A, B. apply Nn. assert (k = k') by nia. subst k'. f_equal. lia. }
  assert (E : forall l, M' l = fold_left (fun M it => run (pr it) M) items M l).
  { unfold items in *. rewrite <- (locs_items m NS Hm' Hns) in *. apply (kernel_seq leq (threads (launch_locs m NS)) (items_locs m NS) pr srshared srown); assumption. }
  assert (Keep : forall l, (forall j, l <> (LR t c, j)) -> M' l = M l).
  { intros l Hl. rewrite E. apply (items_keep leq pr srshared srown items H1). intros it _ ->. apply (Hl _ eq_refl). }
  split.
  - intros k Hk. destruct (I1 k Hk) as [V R]. split.
    + intros v i Hi. rewrite Keep by discriminate. apply V, Hi.
    + intros u c' Hc. cbn [snd]. unfold kput. destruct (Z.eqb_spec u t) as [->|Hu]; cbn [andb].
      2:{ rewrite <- R by exact Hc. apply map_ext. intros j. apply Keep. intros j' X. injection X as X _. congruence. }
      destruct (C_dec c' c) as [->|Hcc].
      2:{ rewrite <- R by exact Hc. apply map_ext. intros j. apply Keep. intros j' X. injection X as X _. congruence. }
      rewrite <- (R t c Hc), HL. unfold k_rec, record_from_wavefield. rewrite combine_row, map_map. unfold row. apply map_ext_in. intros j Hj. apply In_zrange in Hj. cbn [fst snd]. rewrite E.
      rewrite (items_item leq pr srshared srown items H1 H2 H3 M (k, j)); [|apply In_locs; lia|reflexivity].
      unfold g_rec. cbv zeta. destruct (Z.leb_spec 0 (locs (k * m + j))) as [Hp|Hp]; [|reflexivity].
      destruct (run_rd_cell S N K C_dec P0 sw k (locs (k * m + j)%Z) xs (fun Y => Store (LR t c, (k * m + j)%Z) (sumf xs Y) Ret) M (fun v i => M (at_ sw k v i)) (fun _ _ => eq_refl) (fun _ => 0)) as (Y' & -> & Y1 & _).
      cbn [Threads.run]. unfold put. destruct (leq _ _) as [_|X]; [|exfalso; apply X; reflexivity]. apply sumf_ext. intros x Hx. rewrite Y1 by exact Hx. apply V. split; [exact Hp|apply Hlocs; nia].
  - intros q i. rewrite Keep by discriminate. apply I2.
Qed.
End Rec.
End SGLocs.
