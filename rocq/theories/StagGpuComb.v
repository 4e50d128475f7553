(** * Launches one after the other; adding up the gradients of the shots on the device. *)
From Coq Require Import List ZArith QArith Lia Bool Permutation.
From Verif Require Import Ops Sums Grid Stencil ScalarModel ScalarRefine ScalarForward Param ShotsModel Shots ShotsRun Stag StagAdj StagKernel StagCell StagRefine StagParam
  StagShotsModel StagShots StagShotsRun Threads GpuModel GpuLaunch GpuFwd GpuLocs StagGpuModel StagGpuCell StagGpuLaunch StagGpuFoot StagGpuLocs.
Import ListNotations.
Local Open Scope K_scope.

Lemma comb_cells fd shape : flat_map (items_combine fd shape) (threads (launch_combine fd shape)) = map snd (flat_map (items_cells fd shape 1) (threads (launch_cells fd shape 1))).
Proof.
  assert (E : launch_combine fd shape = launch_cells fd shape 1) by (destruct shape as [|n1 [|n2 [|n3 [|n4 s]]]]; reflexivity).
  rewrite E. clear E.
  assert (X : forall l, (forall th, In th l -> snd th = 0%Z \/ length shape = 3%nat \/ length shape = 1%nat) -> (forall th, In th l -> snd (fst th) = 0%Z \/ length shape <> 1%nat) -> flat_map (items_combine fd shape) l = map snd (flat_map (items_cells fd shape 1) l)).
  { induction l as [|[[x y] z] l IH]; intros H H'; [reflexivity|]. cbn [flat_map]. rewrite map_app, <- IH by (intros; first [apply H|apply H']; right; assumption). f_equal.
    specialize (H _ (or_introl eq_refl)). specialize (H' _ (or_introl eq_refl)). cbn in H, H'. unfold items_combine, items_cells. destruct shape as [|n1 [|n2 [|n3 [|n4 s]]]]; try reflexivity.
    - destruct H' as [->|H']; [|cbn in H'; lia]. rewrite andb_true_r. destruct (_ <? _)%Z; reflexivity.
    - destruct H as [->|H]; [|cbn in H; lia]. rewrite andb_true_r. destruct (_ && _)%bool; reflexivity.
    - destruct (_ && _)%bool; reflexivity. }
  apply X; unfold threads, launch_cells; destruct shape as [|n1 [|n2 [|n3 [|n4 s]]]]; cbn [l_grid l_block length]; intros [[x y] z] Hth; auto; try (left; reflexivity); try (right; lia).
  - destruct Hth.
  - left. apply in_flat_map in Hth. destruct Hth as (z' & Hz & Hth). apply in_flat_map in Hth. destruct Hth as (y' & Hy & Hth). apply in_map_iff in Hth. destruct Hth as (x' & E & _). injection E as _ <- <-. change (axis (ceil_div 1 1) 1) with [0%Z] in Hz. cbn. destruct Hz as [<-|[]]. reflexivity.
  - destruct Hth.
  - left. apply in_flat_map in Hth. destruct Hth as (z' & Hz & Hth). apply in_flat_map in Hth. destruct Hth as (y' & Hy & Hth). apply in_map_iff in Hth. destruct Hth as (x' & E & _). injection E as _ <- <-. change (axis (ceil_div 1 1) 1) with [0%Z] in Hy. cbn. destruct Hy as [<-|[]]. reflexivity.
Qed.

Section SGComb.
Variable S : sys.
Variable N : kern S.
Variable K : ops.
Variable C_dec : forall a b : sC S, {a = b} + {a <> b}.
Variable P0 : spar S K.
Variable NS : Z.
Notation shape := (sp_shape P0).
Notation n := (prodZ shape).
Notation nd := (length shape).
Notation fd := (fd_pad (sp_acc P0)).
Notation kvar := (svar (sX S) (sE S) (kQ N) (kM N)).
Notation kmem := (kmem S N K).
Notation leq := (sgloc_eq S N C_dec).
Notation mem := (mem (sgloc S N) K).
Notation run := (run leq).
Notation at_ := (at_ S N K P0).
Notation inwin := (inwin S K P0).
Hypothesis Sok : sys_ok S nd.
Hypothesis Hsz : sizes_ok fd (map Z.succ shape) NS.
Hypothesis Hpos : Forall (fun x => (0 < x)%Z) shape.
Variable cnt : sC S -> Z.
Notation ginv := (ginv S N K P0 NS cnt).

Lemma in_turn_app (l1 l2 : list (mem -> mem -> Prop)) M M' : in_turn S N K (l1 ++ l2) M M' <-> exists M1, in_turn S N K l1 M M1 /\ in_turn S N K l2 M1 M'.
Proof.
  revert M. induction l1 as [|s l1 IH]; intros M; cbn [app in_turn].
  - split; [intros H; exists M; split; [reflexivity|exact H]|intros (M1 & -> & H); exact H].
  - split.
    + intros (M1 & H1 & H2). apply IH in H2. destruct H2 as (M2 & H2 & H3). exists M2. split; [exists M1; auto|exact H3].
    + intros (M2 & (M1 & H1 & H2) & H3). exists M1. split; [exact H1|]. apply IH. exists M2. auto.
Qed.
Lemma in_turn_one (s : mem -> mem -> Prop) M M' : in_turn S N K [s] M M' <-> s M M'.
Proof. cbn. split; [intros (M1 & H & ->); exact H|intros H; exists M'; auto]. Qed.

Lemma sizes_0 : sizes_ok 0 shape 1.
Proof.
  destruct Hsz as (A & B & _). rewrite map_length in A. split; [exact A|]. split; [|lia].
  rewrite Forall_forall in *. intros x Hx. specialize (B (Z.succ x) (in_map _ _ _ Hx)). specialize (Hpos x Hx). lia.
Qed.
Notation citems := (flat_map (items_combine 0 shape) (threads (launch_combine 0 shape))).
Lemma ibox_0 p : inb (ibox 0 shape) p = true <-> inb (abox shape) p = true.
Proof.
  rewrite inb_ibox, inb_abox. split; intros [H1 H2]; (split; [exact H1|]); intros d Hd; specialize (H2 d Hd); lia.
Qed.
Lemma In_citems p : In p citems <-> inb (abox shape) p = true.
Proof.
  rewrite comb_cells, in_map_iff, <- ibox_0. split.
  - intros ([k q] & <- & H). apply (In_cells 0 shape 1 ltac:(lia) sizes_0) in H. apply H.
  - intros H. exists (0%Z, p). split; [reflexivity|]. apply (In_cells 0 shape 1 ltac:(lia) sizes_0). split; [lia|exact H].
Qed.
Lemma NoDup_citems : NoDup citems.
Proof.
  rewrite comb_cells. apply NoDup_map_inj; [|apply (NoDup_cells 0 shape 1 ltac:(lia) sizes_0)].
  intros [k p] [k' q] H H' E. apply (In_cells 0 shape 1 ltac:(lia) sizes_0) in H, H'. cbn in E. f_equal; [lia|exact E].
Qed.

Section Comb.
Variable q : kM N.
Definition scown (p : pt) (l : sgloc S N) : Prop := l = (LG q, idx shape p).
Definition scshared (l : sgloc S N) : Prop := match fst l with LV _ => True | _ => False end.
Lemma comb_foot p ks : foot (fun l => scshared l \/ scown p l) (scown p) (g_comb S N K P0 q ks (idx shape p)).
Proof.
  induction ks as [|k ks IH]; [constructor|]. cbn. apply foot_load; [right; reflexivity|]. intros g. apply foot_load; [left; exact I|]. intros x. apply foot_store; [reflexivity|exact IH].
Qed.
Lemma comb_run i ks : forall M : mem, run (g_comb S N K P0 q ks i) M (LG q, i) = fold_left (fun x k => x + M (LV (VG q), k * n + i)%Z) ks (M (LG q, i)).
Proof.
  induction ks as [|k ks IH]; intros M; [reflexivity|]. cbn [g_comb Threads.run fold_left]. rewrite IH. set (x := M (LG q, i) + _).
  assert (E : put leq M (LG q, i) x (LG q, i) = x) by (unfold put; destruct (leq _ _) as [_|X]; [reflexivity|exfalso; apply X; reflexivity]). rewrite E.
  clear IH E. clearbody x.
  assert (G : forall ks y, fold_left (fun a k0 => a + put leq M (LG q, i) x (LV (VG q), (k0 * n + i)%Z)) ks y = fold_left (fun a k0 => a + M (LV (VG q), (k0 * n + i)%Z)) ks y).
  { clear ks. induction ks as [|j ks IHk]; intros y; [reflexivity|]. cbn [fold_left].
    assert (E : put leq M (LG q, i) x (LV (VG q), (j * n + i)%Z) = M (LV (VG q), (j * n + i)%Z)) by (unfold put; destruct (leq _ _) as [X|X]; [discriminate|reflexivity]).
    rewrite E. apply IHk. }
  apply G.
Qed.
Lemma comb_launch sw lg M M' fam : launch_comb S N K C_dec P0 NS q M M' -> ginv sw lg M fam ->
  ginv sw (fun q' i => if kM_dec N q' q then if (0 <=? i)%Z && (i <? n)%Z then fold_left (fun x k => x + fst (fam k) (VG q) i) (zrange 0 NS) (lg q i) else lg q i else lg q' i) M' fam.
Proof.
  intros [_ He] [I1 I2]. set (pr := fun p => g_comb S N K P0 q (zrange 0 NS) (idx shape p)).
  assert (H1 : forall it, In it citems -> foot (fun l => scshared l \/ scown it l) (scown it) (pr it)) by (intros it _; apply comb_foot).
  assert (H2 : forall it l, In it citems -> scown it l -> ~ scshared l) by (intros it l _ -> []).
  assert (H3 : ForallOrdPairs (fun x y => forall l, scown x l -> ~ scown y l) citems).
  { apply own_pairs; [apply NoDup_citems|]. intros p r Hp Hq Nn l -> E. injection E as E. apply In_citems in Hp, Hq. apply Nn. apply (idx_inj shape); assumption. }
  assert (E : forall l, M' l = fold_left (fun M it => run (pr it) M) citems M l) by (apply (kernel_seq leq (threads (launch_combine 0 shape)) (items_combine 0 shape) pr scshared scown H1 H2 H3 M M' He)).
  assert (Keep : forall l, (forall p, inb (abox shape) p = true -> l <> (LG q, idx shape p)) -> M' l = M l).
  { intros l Hl. rewrite E. apply (items_keep leq pr scshared scown citems H1). intros p Hp Cc. apply In_citems in Hp. apply (Hl p Hp Cc). }
  split.
  - intros k Hk. destruct (I1 k Hk) as [V R]. split.
    + intros v i Hi. rewrite Keep by discriminate. apply V, Hi.
    + intros t c Hc. rewrite <- R by exact Hc. apply map_ext. intros j. apply Keep. discriminate.
  - intros q' i. destruct (kM_dec N q' q) as [->|Hq].
    + destruct (Z.leb_spec 0 i) as [A|A]; cbn [andb]; [destruct (Z.ltb_spec i n) as [B|B]|].
      * rewrite <- (idx_unidx shape i Hpos (conj A B)). set (p := unidx shape i). assert (Hp : inb (abox shape) p = true) by (apply unidx_in_array; auto).
        rewrite E. rewrite (items_item leq pr scshared scown citems H1 H2 H3 M p (LG q, idx shape p)); [|apply In_citems; exact Hp|reflexivity].
        unfold pr. rewrite comb_run, I2. assert (Hw : inwin (idx shape p)) by (unfold p; rewrite idx_unidx by auto; split; assumption). clearbody p.
        assert (G : forall ks y, (forall k, In k ks -> (0 <= k < NS)%Z) -> fold_left (fun x k => x + M (LV (VG q), (k * n + idx shape p)%Z)) ks y = fold_left (fun x k => x + fst (fam k) (VG q) (idx shape p)) ks y).
        { induction ks as [|k ks IH]; intros y Hks; [reflexivity|]. cbn [fold_left]. rewrite IH by (intros; apply Hks; right; assumption). f_equal. f_equal. apply (proj1 (I1 k (Hks k (or_introl eq_refl))) (VG q) _ Hw). }
        apply G. intros k Hk. apply In_zrange in Hk. exact Hk.
      * rewrite Keep; [apply I2|]. intros p Hp X. injection X as ->. apply idx_bound in Hp. lia.
      * rewrite Keep; [apply I2|]. intros p Hp X. injection X as ->. apply idx_bound in Hp. lia.
    + rewrite Keep; [apply I2|]. intros p Hp X. injection X as X _. congruence.
Qed.
End Comb.

(** All buffers. *)
Hypothesis Kr : is_ring K.
Lemma combs_turn sw fam qs : NoDup qs -> forall lg M M', in_turn S N K (map (launch_comb S N K C_dec P0 NS) qs) M M' -> ginv sw lg M fam ->
  ginv sw (fun q i => if in_dec (kM_dec N) q qs then if (0 <=? i)%Z && (i <? n)%Z then lg q i + sumf (zrange 0 NS) (fun k => fst (fam k) (VG q) i) else lg q i else lg q i) M' fam.
Proof.
  induction 1 as [|q qs Hq Hn IH]; intros lg M M'; cbn [map in_turn].
  - intros -> H. exact H.
  - intros (M1 & H1 & H2) HI. pose proof (IH _ _ _ H2 (comb_launch q sw lg M M1 fam H1 HI)) as [J1 J2]. split; [exact J1|]. intros q' i. rewrite J2.
    destruct (in_dec (kM_dec N) q' qs) as [a|a], (in_dec (kM_dec N) q' (q :: qs)) as [b|b].
    + destruct (kM_dec N q' q) as [->|]; [contradiction|reflexivity].
    + exfalso. apply b. right. exact a.
    + destruct (kM_dec N q' q) as [->|Nq]; [|destruct b; [congruence|contradiction]]. rewrite (ShotsRun.fold_sum K Kr). reflexivity.
    + destruct (kM_dec N q' q) as [->|]; [exfalso; apply b; left; reflexivity|reflexivity].
Qed.

(** Sources and receivers of several kinds. *)
Hypothesis Hns : (0 <= NS < 2 ^ 31)%Z.
Lemma recs_turn sw locs t (cs : list (sC S)) : (forall c, (cnt c < 2 ^ 31)%Z) -> (forall c j, (0 <= j < NS * cnt c)%Z -> (locs c j < n)%Z) ->
  NoDup cs -> forall lg M M' fam, in_turn S N K (map (fun c => launch_opt S N K C_dec NS (cnt c) (g_rec S N K P0 sw c (cnt c) (locs c) t)) cs) M M' -> ginv sw lg M fam ->
  ginv sw lg M' (fun k => (fst (fam k), kput S K (snd (fam k)) t (fun c => if in_dec C_dec c cs then true else false) (fun c old => k_rec S N K (fst (fam k)) (row (locs c) (cnt c) k) old c))).
Proof.
  intros Hc Hl. induction 1 as [|c cs Hq Hn IH]; intros lg M M' fam; cbn [map in_turn].
  - intros ->. apply ginv_peq. intros k _. split; [reflexivity|]. intros u c _. cbn [snd]. unfold kput. cbn [in_dec]. rewrite andb_false_r. reflexivity.
  - intros (M1 & H1 & H2) HI. pose proof (srec_launch S N K C_dec P0 NS Hns cnt sw c (locs c) t (Hc c) (Hl c) (fun k => row (locs c) (cnt c) k) lg M M1 fam (fun _ => eq_refl) H1 HI) as J.
    pose proof (IH _ _ _ _ H2 J) as J2. revert J2. apply ginv_peq. intros k _. split; [reflexivity|]. intros u c' _. cbn [fst snd]. unfold kput. destruct (u =? t)%Z; cbn [andb]; [|reflexivity].
    destruct (in_dec C_dec c' cs) as [a|a], (in_dec C_dec c' (c :: cs)) as [b|b].
    + destruct (C_dec c' c) as [->|]; [contradiction|reflexivity].
    + exfalso. apply b. right. exact a.
    + destruct (C_dec c' c) as [->|Nq]; [reflexivity|destruct b; [congruence|contradiction]].
    + destruct (C_dec c' c) as [->|]; [exfalso; apply b; left; reflexivity|reflexivity].
Qed.
Lemma adds_turn sw (m : sC S -> Z) locs (f : sC S -> arr K) L amps : (forall c, (m c < 2 ^ 31)%Z) -> (forall c j, (0 <= j < NS * m c)%Z -> (locs c j < n)%Z) ->
  (forall c, In c (allC S) -> distinct NS (m c) (locs c)) -> (forall k c, L k c = row (locs c) (m c) k) -> (forall k c, amps k c = row (f c) (m c) k) ->
  forall cs, incl cs (allC S) -> forall lg M M' fam, in_turn S N K (map (fun c => launch_opt S N K C_dec NS (m c) (g_add S N K P0 sw c (m c) (locs c) (f c))) cs) M M' -> ginv sw lg M fam ->
  ginv sw lg M' (fun k => (fold_left (k_add S N K (L k) (amps k)) cs (fst (fam k)), snd (fam k))).
Proof.
  intros Hc Hl Hd HL HA. induction cs as [|c cs IH]; intros Hi lg M M' fam; cbn [map in_turn].
  - intros ->. apply ginv_ext. intros k. apply surjective_pairing.
  - intros (M1 & H1 & H2) HI.
    pose proof (sadd_launch S N K C_dec P0 NS Sok Hns cnt sw c (m c) (locs c) (f c) (Hc c) (Hl c) (Hd c (Hi c (or_introl eq_refl))) L amps lg M M1 fam (fun k => HL k c) (fun k => HA k c) H1 HI) as J.
    exact (IH (fun x h => Hi x (or_intror h)) _ _ _ _ H2 J).
Qed.
End SGComb.
