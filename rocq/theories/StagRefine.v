(** * The kernels and drivers of the staggered propagators compute the central model (proofs). *)
From Coq Require Import List ZArith QArith Ring Ring_theory Lia Bool Permutation.
From Verif Require Import Ops Sums Grid Stencil DualNum ScalarModel ScalarRefine ScalarForward ScalarAdjoint Loop Stag StagAdj StagKernel StagCell.
Import ListNotations.
Local Open Scope K_scope.

Local Arguments der : simpl never.
Local Arguments der' : simpl never.
Local Arguments dmask : simpl never.
Local Arguments srcf : simpl never.
Local Arguments gat : simpl never.
Local Arguments term : simpl never.
Local Arguments nmem : simpl never.
Local Arguments tbar : simpl never.
Local Arguments zf : simpl never.
Local Arguments injs : simpl never.

(** Geometry: non-negative PML widths, at least one cell besides them and the padding, PML profiles zero
    away from the PML regions. *)
Record sgeom (S : sys) (K : ops) (P : spar S K) (pw : nat -> Z * Z) : Prop := {
  sg_dims : forall d, (d < length (sp_shape P))%nat ->
    (0 <= fst (pw d) /\ 0 <= snd (pw d) /\
     2 * fd_pad (sp_acc P) - 1 + fst (pw d) + snd (pw d) < nth d (sp_shape P) 0)%Z;
  sg_prof : forall h d y, (d < length (sp_shape P))%nat ->
    (fd_pad (sp_acc P) + fst (pw d) <= y
     < nth d (sp_shape P) 0 - snd (pw d) - fd_pad (sp_acc P) + (if h : bool then 0 else 1))%Z ->
    sp_a P h d y = 0 /\ sp_b P h d y = 0
}.
(** Needed by the backward kernel: the half positions not treated as PML on the left end inside the array. *)
Definition sroom (S : sys) (K : ops) (P : spar S K) (pw : nat -> Z * Z) : Prop :=
  forall d, (d < length (sp_shape P))%nat ->
    (fst (pw d) + 3 * fd_pad (sp_acc P) <= nth d (sp_shape P) 0)%Z.

Section Refine.
Variable S : sys.
Variable N : kern S.
Variable K : ops.
Hypothesis Kr : is_ring K.
Add Ring KRing : Kr.
Variable P : spar S K.
Variable U : knum S N K.
Variable kc : sX S -> sE S -> arr K.
Variable pw : nat -> Z * Z.
Notation shape := (sp_shape P).
Notation fd := (fd_pad (sp_acc P)).
Notation nd := (length shape).
Notation n_ d := (nth d shape 0%Z).
Notation kvar := (svar (sX S) (sE S) (kQ N) (kM N)).
Notation kgp := (grp S (kQ N) (kM N)).
Notation kmem := (kmem S N K).
Notation inarr p := (inb (abox shape) p = true).
Hypothesis Sok : sys_ok S nd.
Hypothesis Hk : kern_ok S N nd.
Hypothesis Hu : num_ok S N K U kc.
Hypothesis Hsrc : locs_ok S K P (sp_src P).
Hypothesis Hrec : locs_ok S K P (sp_rec P).
Hypothesis Hgeo : sgeom S K P pw.

Definition ccoe : coe S K := fun x e p => kc x e (idx shape p).

Lemma fbounds d : (d < nd)%nat ->
  (fd <= fpml_b S K P pw d <= fpml_e S K P pw d /\ fpml_e S K P pw d <= n_ d - fd + 1 /\ fpml_b S K P pw d <= n_ d - fd)%Z.
Proof.
  intros Hd. pose proof (sg_dims S K P pw Hgeo d Hd). pose proof (fd_pad_pos (sp_acc P)).
  unfold fpml_e, fpml_b. lia.
Qed.
Lemma bbounds d : sroom S K P pw -> (d < nd)%nat ->
  (fd <= bpml_b S K P pw d <= bpml_e S K P pw d /\ bpml_e S K P pw d <= n_ d - fd + 1 /\ bpml_b S K P pw d <= n_ d - fd)%Z.
Proof.
  intros Hr Hd. pose proof (sg_dims S K P pw Hgeo d Hd). specialize (Hr d Hd). pose proof (fd_pad_pos (sp_acc P)).
  unfold bpml_e, bpml_b. lia.
Qed.

(** ** Loops over all cells of a phase *)
Section SLoop.
Variable A : bool.
Variable cell : kmem -> kgp * (list Z * pt) -> kmem.
Variable own : kgp -> kvar -> Prop.
Variable W : kvar -> Prop.
Variables b e : nat -> Z.
Hypothesis Hbe : forall d, (d < nd)%nat -> (fd <= b d <= e d /\ e d <= n_ d - fd + 1 /\ b d <= n_ d - fd)%Z.
Hypothesis Hframe : forall m g r p w j, In g (kgrp N A) -> j <> idx shape p \/ ~ own g w -> cell m (g, (r, p)) w j = m w j.
Hypothesis HW : forall g w, In g (kgrp N A) -> own g w -> W w.
Hypothesis Hloc : forall m m' g r p w, In g (kgrp N A) -> own g w ->
  (forall y i, ~ W y -> m y i = m' y i) -> (forall y, own g y -> m y (idx shape p) = m' y (idx shape p)) ->
  cell m (g, (r, p)) w (idx shape p) = cell m' (g, (r, p)) w (idx shape p).
Hypothesis Huniq : forall g g' w, In g (kgrp N A) -> In g' (kgrp N A) -> own g w -> own g' w -> g = g'.
Variable vis : list (kgp * (list Z * pt)).
Hypothesis Hvis : Permutation (svisits S N K P b e A) vis.

Let own2 (c : kgp * (list Z * pt)) (w : kvar) (j : Z) : Prop := own (fst c) w /\ j = idx shape (snd (snd c)).
Let okc (c : kgp * (list Z * pt)) : Prop := In c (svisits S N K P b e A).

Lemma okc_grp c : okc c -> In (fst c) (kgrp N A).
Proof. destruct c as (g & r & p). unfold okc. rewrite In_svisits. tauto. Qed.
Lemma vis_ok c : In c vis -> okc c.
Proof. apply Permutation_in, Permutation_sym, Hvis. Qed.
Lemma h1 m c w j : okc c -> ~ own2 c w j -> cell m c w j = m w j.
Proof.
  intros Hc Ho. pose proof (okc_grp c Hc) as Hg. destruct c as (g & r & p). apply Hframe; [exact Hg|].
  destruct (Z.eq_dec j (idx shape p)) as [->|]; [right|left; assumption]. intros Hw. apply Ho. split; auto.
Qed.
Lemma h2 c w j : okc c -> own2 c w j -> W w.
Proof. intros Hc [Ho _]. apply (HW (fst c)); [apply okc_grp, Hc|exact Ho]. Qed.
Lemma h3 m m' c w j : okc c -> own2 c w j -> (forall y i, ~ W y -> m y i = m' y i) ->
  (forall y i, own2 c y i -> m y i = m' y i) -> cell m c w j = cell m' c w j.
Proof.
  intros Hc [Ho ->] Hm1 Hm2. pose proof (okc_grp c Hc) as Hg. destruct c as (g & r & p). apply Hloc; auto.
  intros y Hy. apply Hm2. split; [exact Hy|reflexivity].
Qed.
Lemma h4 c1 c2 w j : okc c1 -> okc c2 -> own2 c1 w j -> own2 c2 w j -> c1 = c2.
Proof.
  intros H1 H2 [O1 E1] [O2 E2]. destruct c1 as (g1 & r1 & p1), c2 as (g2 & r2 & p2). unfold okc in *.
  rewrite In_svisits in H1, H2. cbn [fst snd] in *. destruct H1 as (G1 & R1 & B1), H2 as (G2 & R2 & B2).
  assert (g1 = g2) by (apply (Huniq g1 g2 w); assumption). subst g2.
  assert (p1 = p2).
  { apply (idx_inj shape); [| |congruence]; apply (dom_array S K P (g_h g1)).
    - apply (reg_dom S K P b e Hbe (g_h g1) r1); assumption.
    - apply (reg_dom S K P b e Hbe (g_h g1) r2); assumption. }
  subst p2. f_equal. f_equal. apply (reg_unique S K P b e Hbe (g_h g1) r1 r2 p1); assumption.
Qed.

Lemma loop_own g p m : In g (kgrp N A) -> dom S K P (g_h g) p = true ->
  exists r, In r (sregions S K P) /\ inb (sreg_box S K P (g_h g) b e r) p = true /\
    forall w, own g w -> fold_left cell vis m w (idx shape p) = cell m (g, (r, p)) w (idx shape p).
Proof.
  intros Hg Hp. destruct (reg_cover S K P b e Hbe (g_h g) p Hp) as (r & Hr & Hb). exists r. repeat split; auto.
  intros w Hw. apply (cells_own kvar K _ cell own2 W okc h1 h2 h3).
  - apply vis_ok.
  - apply (Permutation_NoDup Hvis), NoDup_svisits; [exact Hk|apply (ok_X S nd Sok)].
  - intros c1 c2 y i I1 I2 Hn O1 O2. apply Hn. apply (h4 c1 c2 y i); auto using vis_ok.
  - apply (Permutation_in _ Hvis), In_svisits. auto.
  - split; [exact Hw|reflexivity].
Qed.
Lemma loop_frame w p m : inarr p -> (forall g, In g (kgrp N A) -> own g w -> dom S K P (g_h g) p = false) ->
  fold_left cell vis m w (idx shape p) = m w (idx shape p).
Proof.
  intros Hp Ho. apply (cells_frame kvar K _ cell own2 okc h1).
  - apply vis_ok.
  - intros c Hc [O1 E1]. apply vis_ok in Hc. destruct c as (g & r & q). unfold okc in Hc. rewrite In_svisits in Hc.
    destruct Hc as (Hg & Hr & Hb). cbn [fst snd] in *. pose proof (reg_dom S K P b e Hbe (g_h g) r q Hr Hb) as D.
    assert (p = q) by (apply (idx_inj shape); [exact Hp|eapply dom_array, D|exact E1]). subst q.
    rewrite Ho in D by assumption. discriminate.
Qed.
Lemma loop_frame_var w j m : (forall g, In g (kgrp N A) -> ~ own g w) -> fold_left cell vis m w j = m w j.
Proof.
  intros Ho. apply (cells_frame kvar K _ cell own2 okc h1).
  - apply vis_ok.
  - intros c Hc [O1 E1]. apply (Ho (fst c)); [|exact O1]. apply okc_grp, vis_ok, Hc.
Qed.
End SLoop.

(** ** Memory and states *)
Definition rep (m : kmem) (s : sst S K) : Prop :=
  (forall x p, In x (allX S) -> inarr p -> m (VX x) (idx shape p) = mn s x p) /\
  (forall e p, In e (allE S) -> inarr p -> m (VM e) (idx shape p) = me s e p).
Definition szone (s : sst S K) : Prop :=
  forall e p, In e (allE S) -> ezone S K P pw e p = true -> me s e p = 0.

Lemma ezone_spec e p : ezone S K P pw e p = true <->
  (fd + fst (pw (edim S e)) <= coord (edim S e) p
   < n_ (edim S e) - snd (pw (edim S e)) - fd + (if eh S e (edim S e) then 0 else 1))%Z.
Proof.
  unfold ezone. rewrite andb_true_iff, Z.leb_le, Z.ltb_lt. destruct (eh S e (edim S e)); lia.
Qed.
Lemma ezone_prof e p : In e (allE S) -> ezone S K P pw e p = true -> ea S K P e p = 0 /\ eb S K P e p = 0.
Proof.
  intros He. rewrite ezone_spec. intros H. apply (sg_prof S K P pw Hgeo); [apply (ok_dim S nd Sok), He|exact H].
Qed.
Lemma nmem_zone s e p : In e (allE S) -> ezone S K P pw e p = true -> nmem S K P s e p = 0.
Proof.
  intros He H. destruct (ezone_prof e p He H) as [E1 E2]. unfold nmem, dmask. destruct (dom S K P (eh S e) p); [|reflexivity].
  rewrite E1, E2. ring.
Qed.
Lemma szone_hstep A c f s : szone s -> szone (hstep S K P A c f s).
Proof.
  intros H e p He Hz. cbn. destruct (Bool.eqb (eA S e) A); [apply nmem_zone; assumption|apply H; assumption].
Qed.

(** Reads of a difference stay in the array. *)
Lemma dom_shift h d k p : dom S K P h p = true -> (d < nd)%nat ->
  (if h d then (1 - fd <= k <= fd)%Z else (- fd <= k <= fd - 1)%Z) -> inarr (shift d k p).
Proof.
  rewrite dom_spec, inb_abox. intros [L D] Hd Hkk. split; [rewrite shift_length; exact L|]. intros d' Hd'.
  pose proof (fd_pad_pos (sp_acc P)). specialize (D d' Hd').
  destruct (Nat.eq_dec d' d) as [->|Ne].
  - rewrite coord_shift_same by lia. destruct (h d); lia.
  - rewrite coord_shift_other by auto. destruct (h d'); lia.
Qed.
Lemma dom_len h p : dom S K P h p = true -> length p = nd.
Proof. rewrite dom_spec. tauto. Qed.

Lemma fder_rep m s e p : rep m s -> In e (allE S) -> dom S K P (eh S e) p = true ->
  fder S N K P m p e = der S K P e (mn s (esrc S e)) p.
Proof.
  intros [RX _] He Hp. pose proof (ok_dim S nd Sok e He) as Hd. pose proof (ok_srcin S nd Sok e He) as Hx.
  pose proof (fun k => dom_shift (eh S e) (edim S e) k p Hp Hd) as Hs.
  unfold fder, der, kdiff, SDH1, SD1. destruct (eh S e (edim S e)) eqn:Eh;
    [apply SDIFFH1_ext|apply SDIFF1_ext]; intros j Hj; rewrite <- (idx_shift shape) by apply (dom_len _ _ Hp);
    apply RX; auto.
Qed.

(** ** Forward half step *)
Lemma fterm_rep A g m s r p e : rep m s -> szone s -> In g (kgrp N A) -> In e (g_E g) ->
  dom S K P (g_h g) p = true -> inb (sreg_box S K P (g_h g) (fpml_b S K P pw) (fpml_e S K P pw) r) p = true ->
  fterm S N K P m r p e = term S K P s e p /\ fmem S N K P m r p e = nmem S K P s e p.
Proof.
  intros R Hz Hg He Hp Hb. pose proof (grp_E S N K P Hk A g e Hg He) as He'. destruct (ko_Eg S N nd Hk A g e Hg He) as [_ Hh].
  assert (Hp' : dom S K P (eh S e) p = true) by (rewrite <- (dom_ext S K P _ _ p Hh); exact Hp).
  pose proof (ok_dim S nd Sok e He') as Hd.
  assert (EM : m (VM e) (idx shape p) = me s e p) by (apply R; [exact He'|apply (dom_array S K P _ _ Hp)]).
  assert (EN : fnm S N K P m p e = nmem S K P s e p).
  { unfold fnm, nmem, dmask. rewrite Hp', (fder_rep m s) by assumption. rewrite EM. reflexivity. }
  unfold fterm, fmem. destruct (Z.eqb_spec (reg_at r (edim S e)) 1) as [E1|E1].
  - assert (Ez : ezone S K P pw e p = true).
    { apply ezone_spec. pose proof (reg_one S K P _ _ (g_h g) r p (edim S e) Hb Hd E1) as B.
      rewrite (Hh _ Hd) in B. pose proof (sg_dims S K P pw Hgeo _ Hd).
      unfold fpml_e, fpml_b in B. destruct (eh S e (edim S e)); lia. }
    rewrite EM, (fder_rep m s) by assumption. unfold term. rewrite (nmem_zone s e p He' Ez), (Hz e p He' Ez).
    split; ring.
  - rewrite EN, (fder_rep m s) by assumption. split; reflexivity.
Qed.

Definition f_own (si : Z) (g : kgp) (w : kvar) : Prop :=
  match w with
  | VX x => In x (g_X g) | VM e => In e (g_E g) | VQ q s => In q (g_Q g) /\ s = si | _ => False
  end.
Definition f_W (A : bool) (w : kvar) : Prop :=
  match w with VX x => xA S x = A | VM e => eA S e = A | VQ _ _ => True | _ => False end.

Lemma grp_uniq_X A g g' x : In g (kgrp N A) -> In g' (kgrp N A) -> In x (g_X g) -> In x (g_X g') -> g = g'.
Proof.
  intros H H' Hx Hx'. apply (NoDup_flat_map_unique g_X (kgrp N true ++ kgrp N false) g g' x); auto.
  - apply (Permutation_NoDup (ko_X S N nd Hk)), (ok_X S nd Sok).
  - apply in_or_app. destruct A; auto.
  - apply in_or_app. destruct A; auto.
Qed.
Lemma grp_uniq_E A g g' x : In g (kgrp N A) -> In g' (kgrp N A) -> In x (g_E g) -> In x (g_E g') -> g = g'.
Proof.
  intros H H' Hx Hx'. apply (NoDup_flat_map_unique g_E (kgrp N true ++ kgrp N false) g g' x); auto.
  - apply (Permutation_NoDup (ko_E S N nd Hk)), (ko_NE S N nd Hk).
  - apply in_or_app. destruct A; auto.
  - apply in_or_app. destruct A; auto.
Qed.
Lemma grp_uniq_Q A A' g g' x : In g (kgrp N A) -> In g' (kgrp N A') -> In x (g_Q g) -> In x (g_Q g') -> g = g'.
Proof.
  intros H H' Hx Hx'. apply (NoDup_flat_map_unique g_Q (kgrp N true ++ kgrp N false) g g' x); auto.
  - apply (ko_Q S N nd Hk).
  - apply in_or_app. destruct A; auto.
  - apply in_or_app. destruct A'; auto.
Qed.
Lemma grp_uniq_M A A' g g' x : In g (kgrp N A) -> In g' (kgrp N A') -> In x (g_M g) -> In x (g_M g') -> g = g'.
Proof.
  intros H H' Hx Hx'. apply (NoDup_flat_map_unique g_M (kgrp N true ++ kgrp N false) g g' x); auto.
  - apply (ko_M S N nd Hk).
  - apply in_or_app. destruct A; auto.
  - apply in_or_app. destruct A'; auto.
Qed.

Section FLoop.
Variables (A : bool) (fq : kQ N -> bool) (si : Z) (vis : list (kgp * (list Z * pt))).
Hypothesis Hvis : Permutation (svisits S N K P (fpml_b S K P pw) (fpml_e S K P pw) A) vis.
Notation cell := (f_cell S N K P U fq si).

Lemma f_h1 (m : kmem) g r p w j : In g (kgrp N A) -> j <> idx shape p \/ ~ f_own si g w -> cell m (g, (r, p)) w j = m w j.
Proof.
  intros Hg H. apply (f_cell_spec S N K P U kc Sok Hk Hu A g fq si m r p Hg).
  destruct H as [H|H]; [left; exact H|right]. repeat split; intros y Hy ->; apply H; cbn; auto.
Qed.
Lemma f_h2 g w : In g (kgrp N A) -> f_own si g w -> f_W A w.
Proof.
  intros Hg. destruct w; cbn; auto; intros H; [apply (ko_Xg S N nd Hk A g x Hg H)|apply (ko_Eg S N nd Hk A g e Hg H)].
Qed.
Lemma fder_loc (m m' : kmem) p e : In e (allE S) -> eA S e = A -> (forall y i, ~ f_W A y -> m y i = m' y i) ->
  fder S N K P m p e = fder S N K P m' p e.
Proof.
  intros He Ee H. unfold fder, kdiff.
  destruct (eh S e (edim S e)); [apply SDIFFH1_ext|apply SDIFF1_ext]; intros; apply H; cbn;
    rewrite (ok_half S nd Sok e He), Ee; destruct A; discriminate.
Qed.
Lemma f_h3 (m m' : kmem) g r p w : In g (kgrp N A) -> f_own si g w ->
  (forall y i, ~ f_W A y -> m y i = m' y i) -> (forall y, f_own si g y -> m y (idx shape p) = m' y (idx shape p)) ->
  cell m (g, (r, p)) w (idx shape p) = cell m' (g, (r, p)) w (idx shape p).
Proof.
  intros Hg Ho H1 H2.
  destruct (f_cell_spec S N K P U kc Sok Hk Hu A g fq si m r p Hg) as (C1 & C2 & C3 & _).
  destruct (f_cell_spec S N K P U kc Sok Hk Hu A g fq si m' r p Hg) as (D1 & D2 & D3 & _).
  assert (EN : forall e, In e (g_E g) -> fnm S N K P m p e = fnm S N K P m' p e).
  { intros e He. unfold fnm.
    rewrite (fder_loc m m' p e (grp_E S N K P Hk A g e Hg He) (proj1 (ko_Eg S N nd Hk A g e Hg He)) H1).
    rewrite (H2 (VM e)) by exact He. reflexivity. }
  assert (ET : forall e, In e (g_E g) -> fterm S N K P m r p e = fterm S N K P m' r p e).
  { intros e He. unfold fterm.
    rewrite (EN e He), (fder_loc m m' p e (grp_E S N K P Hk A g e Hg He) (proj1 (ko_Eg S N nd Hk A g e Hg He)) H1).
    reflexivity. }
  destruct w as [x|e|e|q s|k]; cbn in Ho; try contradiction.
  - rewrite C1, D1 by exact Ho. rewrite (H2 (VX x)) by exact Ho. f_equal. apply (sumf_ext K). intros e He.
    apply incE_spec in He. rewrite ET; [reflexivity|]. apply (ko_inc S N nd Hk A g x e); tauto.
  - rewrite C2, D2 by exact Ho. unfold fmem. rewrite (EN e Ho), (H2 (VM e)) by exact Ho. reflexivity.
  - destruct Ho as [Ho ->]. rewrite C3, D3 by exact Ho. rewrite (H2 (VQ q si)) by (split; auto).
    rewrite (no_sto S N K U kc Hu A g q _ (fterm S N K P m' r p) Hg Ho ET). reflexivity.
Qed.
Lemma f_h4 g g' w : In g (kgrp N A) -> In g' (kgrp N A) -> f_own si g w -> f_own si g' w -> g = g'.
Proof.
  intros Hg Hg'. destruct w; cbn; try contradiction; intros H H'.
  - apply (grp_uniq_X A g g' x); auto.
  - apply (grp_uniq_E A g g' e); auto.
  - apply (grp_uniq_Q A A g g' q); tauto.
Qed.

Notation fl_own := (loop_own A cell (f_own si) (f_W A) _ _ fbounds f_h1 f_h2 f_h3 f_h4 vis Hvis).
Notation fl_frame := (loop_frame A cell (f_own si) _ _ fbounds f_h1 vis Hvis).
Notation fl_framev := (loop_frame_var A cell (f_own si) _ _ f_h1 vis Hvis).

Lemma f_half m s : rep m s -> ssup S K P s -> szone s ->
  let m' := fold_left cell vis m in
  rep m' (hstep S K P A ccoe (fun _ => []) s) /\
  (forall g q p, In g (kgrp N A) -> In q (g_Q g) -> dom S K P (g_h g) p = true ->
     m' (VQ q si) (idx shape p) =
     if fq q then n_sto U q (fun e => term S K P s e p) else m (VQ q si) (idx shape p)) /\
  (forall q s' p, inarr p -> s' <> si \/ (forall g, In g (kgrp N A) -> In q (g_Q g) -> dom S K P (g_h g) p = false) ->
     m' (VQ q s') (idx shape p) = m (VQ q s') (idx shape p)) /\
  (forall w j, match w with VN _ | VG _ => True | _ => False end -> m' w j = m w j).
Proof.
  intros R [SX SE] Hz m'. subst m'. repeat split.
  - intros x p Hx Hp. cbn [mn hstep].
    assert (Ei : forall f : field K, injs S K P (fun _ => []) x f p = f p).
    { intros f. unfold injs. rewrite (sumf_zero K Kr); [ring|]. intros c _. unfold srcf.
      replace (combine (sp_src P c) []) with (@nil (Z * K)) by (destruct (sp_src P c); reflexivity). reflexivity. }
    destruct (Bool.eqb (xA S x) A) eqn:EA.
    + apply eqb_prop in EA. rewrite Ei. destruct (X_grp S N K P Hk x Hx) as (g & Hg & Hxg). rewrite EA in Hg.
      destruct (ko_Xg S N nd Hk A g x Hg Hxg) as [_ Hh].
      unfold dmask. rewrite <- (dom_ext S K P _ _ p Hh). destruct (dom S K P (g_h g) p) eqn:Hd.
      * destruct (fl_own g p m Hg Hd) as (r & Hr & Hb & E). rewrite (E (VX x) Hxg).
        destruct (f_cell_spec S N K P U kc Sok Hk Hu A g fq si m r p Hg) as (C1 & _). rewrite C1 by exact Hxg.
        rewrite (proj1 R x p Hx Hp). f_equal. apply (sumf_ext K). intros e He. apply incE_spec in He.
        rewrite (proj1 (fterm_rep A g m s r p e R Hz Hg (ko_inc S N nd Hk A g x e Hg Hxg (proj1 He) (proj2 He)) Hd Hb)).
        reflexivity.
      * rewrite (fl_frame (VX x) p m Hp).
        -- rewrite (proj1 R x p Hx Hp). apply SX; [exact Hx|]. rewrite <- (dom_ext S K P _ _ p Hh). exact Hd.
        -- intros g' Hg' Hx'. cbn in Hx'. rewrite (grp_uniq_X A g' g x) by assumption. exact Hd.
    + rewrite (fl_framev (VX x)); [apply R; assumption|]. intros g Hg Hx'. cbn in Hx'.
      rewrite (proj1 (ko_Xg S N nd Hk A g x Hg Hx')), eqb_reflx in EA. discriminate.
  - intros e p He Hp. cbn [me hstep]. destruct (Bool.eqb (eA S e) A) eqn:EA.
    + apply eqb_prop in EA. destruct (E_grp S N K P Hk e He) as (g & Hg & Heg). rewrite EA in Hg.
      destruct (ko_Eg S N nd Hk A g e Hg Heg) as [_ Hh]. destruct (dom S K P (g_h g) p) eqn:Hd.
      * destruct (fl_own g p m Hg Hd) as (r & Hr & Hb & E). rewrite (E (VM e) Heg).
        destruct (f_cell_spec S N K P U kc Sok Hk Hu A g fq si m r p Hg) as (_ & C2 & _). rewrite C2 by exact Heg.
        apply (fterm_rep A g); assumption.
      * rewrite (fl_frame (VM e) p m Hp).
        -- rewrite (proj2 R e p He Hp). unfold nmem, dmask. rewrite <- (dom_ext S K P _ _ p Hh), Hd.
           apply SE; [exact He|]. rewrite <- (dom_ext S K P _ _ p Hh). exact Hd.
        -- intros g' Hg' He'. cbn in He'. rewrite (grp_uniq_E A g' g e) by assumption. exact Hd.
    + rewrite (fl_framev (VM e)); [apply R; assumption|]. intros g Hg He'. cbn in He'.
      rewrite (proj1 (ko_Eg S N nd Hk A g e Hg He')), eqb_reflx in EA. discriminate.
  - intros g q p Hg Hq Hd. destruct (fl_own g p m Hg Hd) as (r & Hr & Hb & E).
    rewrite (E (VQ q si)) by (split; auto).
    destruct (f_cell_spec S N K P U kc Sok Hk Hu A g fq si m r p Hg) as (_ & _ & C3 & _). rewrite C3 by exact Hq.
    destruct (fq q); [|reflexivity]. apply (no_sto S N K U kc Hu A g q); auto.
    intros e He. apply (fterm_rep A g); assumption.
  - intros q s' p Hp H. apply fl_frame; [exact Hp|]. intros g Hg [Hq E]. destruct H as [H|H]; [contradiction|auto].
  - intros w j Hw. apply fl_framev. intros g Hg. destruct w; cbn; try contradiction; auto.
Qed.
End FLoop.

(** ** Sources and receivers *)
Lemma add_srcf c locs amps (a : arr K) p : Forall (sloc_ok S K P c) locs -> inarr p ->
  add_to_wavefield K a locs amps (idx shape p) = a (idx shape p) + srcf S K P locs amps p.
Proof.
  intros Hl Hp. unfold add_to_wavefield, srcf.
  assert (G : Forall (fun la : Z * K => sloc_ok S K P c (fst la)) (combine locs amps)).
  { apply Forall_forall. intros [l y] Hin. apply in_combine_l in Hin. rewrite Forall_forall in Hl. apply Hl. exact Hin. }
  revert a G. generalize (combine locs amps). clear Hl. intros l. induction l as [|[l y] ls IH]; intros a Hl; cbn [fold_left sumf fst snd].
  - ring.
  - inversion Hl as [|? ? Hl1 Hl2]; subst. rewrite IH by assumption. clear IH Hl2. cbn [fst] in Hl1.
    destruct (Z.leb_spec 0 l) as [H0|H0]; cbn [andb]; [|ring].
    destruct Hl1 as [Hl1|(q & -> & Hq & _)]; [lia|]. rewrite unidx_idx by exact Hq.
    unfold upd. destruct (Z.eqb_spec (idx shape p) (idx shape q)) as [E|E].
    + apply idx_inj in E; auto. subst q. destruct (pt_eq_dec p p); [ring|congruence].
    + destruct (pt_eq_dec q p) as [->|]; [congruence|ring].
Qed.

Lemma k_add_one L amps (m : kmem) c x p : locs_ok S K P L -> In c (allC S) -> In x (allX S) -> inarr p ->
  k_add S N K L amps m c (VX x) (idx shape p) =
  m (VX x) (idx shape p) + (if cin S c x then srcf S K P (L c) (amps c) p else 0).
Proof.
  intros HL Hc Hx Hp. unfold k_add.
  assert (G : forall l (m : kmem), NoDup l ->
    fold_left (fun m x => seta S N K m (VX x) (add_to_wavefield K (m (VX x)) (L c) (amps c))) l m (VX x) (idx shape p)
    = m (VX x) (idx shape p) + (if in_dec (kX_dec N) x l then srcf S K P (L c) (amps c) p else 0)).
  { clear m. induction l as [|y l IH]; intros m Hn; cbn [fold_left]; [cbn; ring|]. inversion Hn; subst.
    rewrite IH by assumption. destruct (kX_dec N y x) as [->|Ny].
    - rewrite seta_same. rewrite (add_srcf c) by (auto; apply HL, Hc).
      destruct (in_dec (kX_dec N) x l) as [j|j]; [contradiction|]. destruct (in_dec (kX_dec N) x (x :: l)) as [_|i]; [ring|].
      exfalso. apply i. left. reflexivity.
    - rewrite seta_other by congruence. f_equal.
      destruct (in_dec (kX_dec N) x l) as [j|j], (in_dec (kX_dec N) x (y :: l)) as [i|i]; auto.
      + exfalso. apply i. right. assumption.
      + destruct i; [congruence|contradiction]. }
  rewrite G by (apply NoDup_filter, (ok_X S nd Sok)). f_equal.
  destruct (in_dec (kX_dec N) x (cinX S c)) as [i|i]; unfold cinX in i; rewrite filter_In in i.
  - rewrite (proj2 i). reflexivity.
  - destruct (cin S c x); [exfalso; auto|reflexivity].
Qed.
Lemma k_add_other L amps (m : kmem) c w : (forall x, w <> VX x) -> k_add S N K L amps m c w = m w.
Proof.
  intros Hw. unfold k_add. revert m. induction (cinX S c) as [|x l IH]; intros m; [reflexivity|]. cbn [fold_left].
  rewrite IH. apply seta_other, Hw.
Qed.
Lemma k_adds L amps (m : kmem) cs x p : locs_ok S K P L -> incl cs (allC S) -> In x (allX S) -> inarr p ->
  fold_left (k_add S N K L amps) cs m (VX x) (idx shape p) =
  m (VX x) (idx shape p) + sumf cs (fun c => if cin S c x then srcf S K P (L c) (amps c) p else 0).
Proof.
  intros HL Hc Hx Hp. revert m. induction cs as [|c cs IH]; intros m; cbn [fold_left sumf]; [ring|].
  rewrite IH by (intros y Hy; apply Hc; right; exact Hy). rewrite k_add_one by (auto; apply Hc; left; reflexivity). ring.
Qed.
Lemma k_adds_other L amps (m : kmem) cs w : (forall x, w <> VX x) -> fold_left (k_add S N K L amps) cs m w = m w.
Proof.
  intros Hw. revert m. induction cs as [|c cs IH]; intros m; [reflexivity|]. cbn [fold_left]. rewrite IH.
  apply k_add_other, Hw.
Qed.

Lemma rep_add A f m c0 s : rep m (hstep S K P A c0 (fun _ => []) s) ->
  rep (fold_left (k_add S N K (sp_src P) f) (halfC S A) m) (hstep S K P A c0 f s).
Proof.
  intros [RX RE]. split.
  - intros x p Hx Hp. rewrite k_adds by (auto; intros c Hc; apply filter_In in Hc; tauto). rewrite RX by assumption.
    unfold halfC. rewrite (sumf_filter_if K Kr). cbn [mn hstep]. destruct (Bool.eqb (xA S x) A) eqn:EA.
    + apply eqb_prop in EA. unfold injs.
      assert (E0 : sumf (cinC S x) (fun c => srcf S K P (sp_src P c) [] p) = 0).
      { apply (sumf_zero K Kr). intros c _. unfold srcf.
        replace (combine (sp_src P c) []) with (@nil (Z * K)) by (destruct (sp_src P c); reflexivity). reflexivity. }
      rewrite E0. unfold cinC at 1. rewrite (sumf_filter_if K Kr).
      match goal with |- ?a + 0 + ?b = ?a + ?c => assert (E : b = c); [|rewrite E; ring] end.
      apply (sumf_ext K). intros c Hc. destruct (cin S c x) eqn:Ec.
      * rewrite <- (ok_cin S nd Sok c x Hc Hx Ec), EA, eqb_reflx. reflexivity.
      * destruct (Bool.eqb (cA S c) A); reflexivity.
    + rewrite (sumf_zero K Kr); [ring|]. intros c Hc. destruct (cin S c x) eqn:Ec; [|destruct (Bool.eqb (cA S c) A); reflexivity].
      rewrite <- (ok_cin S nd Sok c x Hc Hx Ec), EA. reflexivity.
  - intros e p He Hp. rewrite k_adds_other by discriminate. rewrite RE by assumption. reflexivity.
Qed.

Lemma k_rec_gat L (m : kmem) s c : locs_ok S K P L -> rep m s -> In c (allC S) ->
  k_rec S N K m (L c) (map (fun _ => 0) (L c)) c = gat S K P (L c) (chsum S K c s).
Proof.
  intros HL [RX _] Hc. specialize (HL c Hc). unfold k_rec, record_from_wavefield, gat.
  induction HL as [|l ls Hl1 Hl2 IH]; cbn; [reflexivity|]. rewrite IH. f_equal.
  destruct (Z.leb_spec 0 l) as [H0|H0]; [|reflexivity].
  destruct Hl1 as [Hl1|(q & -> & Hq & _)]; [lia|]. rewrite unidx_idx by exact Hq. unfold chsum.
  apply (sumf_ext K). intros x Hx. unfold cinX in Hx. apply filter_In in Hx. apply RX; tauto.
Qed.

(** ** Forward run *)
Notation cc := (fun _ : Z => ccoe).
Definition finv (m : kmem) (s : sst S K) : Prop := rep m s /\ ssup S K P s /\ szone s.

(** Snapshot [q] of a step from state [s]. *)
Definition snap (f : sC S -> list K) (s : sst S K) (A : bool) (q : kQ N) (p : pt) : K :=
  n_sto U q (fun e => term S K P (if A then s else hstep S K P true ccoe f s) e p).

Lemma f_body_inv visA visB fq sr f (m : kmem) r t s :
  Permutation (svisits S N K P (fpml_b S K P pw) (fpml_e S K P pw) true) visA ->
  Permutation (svisits S N K P (fpml_b S K P pw) (fpml_e S K P pw) false) visB ->
  finv m s ->
  let mr := f_body S N K P U visA visB fq sr f (m, r) t in
  finv (fst mr) (sstep S K P ccoe (f t) s) /\
  (forall u c, In c (allC S) -> r u c = map (fun _ => 0) (sp_rec P c) ->
     snd mr u c = if (u =? t)%Z then srec S K P c s else r u c) /\
  (forall A g q si p, In g (kgrp N A) -> In q (g_Q g) -> dom S K P (g_h g) p = true ->
     fst mr (VQ q si) (idx shape p) =
     if fq q && (t mod sr =? 0)%Z && (si =? t / sr)%Z then snap (f t) s A q p else m (VQ q si) (idx shape p)).
Proof.
  intros HA HB (R & Ss & Sz) mr. unfold mr, f_body. cbn [fst snd].
  set (sto := fun q => fq q && (t mod sr =? 0)%Z).
  destruct (f_half true sto (t / sr)%Z visA HA m s R Ss Sz) as (R1 & Q1 & Q1' & _).
  set (m1 := fold_left (f_cell S N K P U sto (t / sr)%Z) visA m) in *.
  pose proof (rep_add true (f t) m1 ccoe s R1) as R2.
  set (s1 := hstep S K P true ccoe (f t) s) in *.
  set (m2 := fold_left (k_add S N K (sp_src P) (f t)) (halfC S true) m1) in *.
  assert (Ss1 : ssup S K P s1) by (apply (ssup_hstep S K Kr P Hsrc), Ss).
  assert (Sz1 : szone s1) by (apply szone_hstep, Sz).
  destruct (f_half false sto (t / sr)%Z visB HB m2 s1 R2 Ss1 Sz1) as (R3 & Q3 & Q3' & _).
  set (m3 := fold_left (f_cell S N K P U sto (t / sr)%Z) visB m2) in *.
  pose proof (rep_add false (f t) m3 ccoe s1 R3) as R4.
  set (m4 := fold_left (k_add S N K (sp_src P) (f t)) (halfC S false) m3) in *.
  assert (E2 : forall q si j, m2 (VQ q si) j = m1 (VQ q si) j)
    by (intros; unfold m2; rewrite k_adds_other by discriminate; reflexivity).
  assert (E4 : forall q si j, m4 (VQ q si) j = m3 (VQ q si) j)
    by (intros; unfold m4; rewrite k_adds_other by discriminate; reflexivity).
  split; [split; [exact R4|split]|split].
  - apply (ssup_hstep S K Kr P Hsrc), Ss1.
  - apply szone_hstep, Sz1.
  - intros u c Hc Hr. unfold kput. destruct (Z.eqb_spec u t) as [->|]; [|reflexivity]. cbn [andb].
    rewrite Hr. apply (k_rec_gat (sp_rec P)); assumption.
  - intros A g q si p Hg Hq Hd. rewrite E4.
    pose proof (dom_array S K P _ _ Hd) as Hp.
    assert (Esto : fq q && (t mod sr =? 0)%Z = sto q) by reflexivity. rewrite Esto.
    destruct (Z.eqb_spec si (t / sr)) as [->|Hsi].
    + rewrite andb_true_r. unfold snap. destruct A.
      * rewrite Q3'; [|exact Hp|right]. 2:{ intros g' Hg' Hq'. assert (E : g = g') by (apply (grp_uniq_Q true false g g' q); assumption).
          subst g'. exfalso. destruct (g_X g) as [|x l] eqn:EX; [apply (ko_ne S N nd Hk true g Hg EX)|].
          assert (Hx : In x (g_X g)) by (rewrite EX; left; reflexivity).
          pose proof (proj1 (ko_Xg S N nd Hk _ g x Hg Hx)). pose proof (proj1 (ko_Xg S N nd Hk _ g x Hg' Hx)). congruence. }
        rewrite E2, (Q1 g) by assumption. reflexivity.
      * rewrite (Q3 g) by assumption. destruct (sto q); [reflexivity|]. rewrite E2.
        apply Q1'; [exact Hp|right]. intros g' Hg' Hq'. assert (E : g = g') by (apply (grp_uniq_Q false true g g' q); assumption).
        subst g'. exfalso. destruct (g_X g) as [|x l] eqn:EX; [apply (ko_ne S N nd Hk true g Hg' EX)|].
        assert (Hx : In x (g_X g)) by (rewrite EX; left; reflexivity).
        pose proof (proj1 (ko_Xg S N nd Hk _ g x Hg Hx)). pose proof (proj1 (ko_Xg S N nd Hk _ g x Hg' Hx)). congruence.
    + rewrite andb_false_r. rewrite Q3' by (auto). rewrite E2. apply Q1'; auto.
Qed.

Lemma sstate_last c f n t s :
  sstate S K P c f (Datatypes.S n) t s = sstep S K P (c (t + Z.of_nat n)%Z) (f (t + Z.of_nat n)%Z) (sstate S K P c f n t s).
Proof.
  revert t s. induction n as [|n IH]; intros t s.
  - cbn [sstate]. rewrite Z.add_0_r. reflexivity.
  - change (sstate S K P c f (Datatypes.S (Datatypes.S n)) t s)
      with (sstate S K P c f (Datatypes.S n) (t + 1)%Z (sstep S K P (c t) (f t) s)).
    rewrite IH. replace (t + 1 + Z.of_nat n)%Z with (t + Z.of_nat (Datatypes.S n))%Z by lia. reflexivity.
Qed.

(** State before step [t]. *)
Definition Fst (f : krec S K) (s0 : sst S K) (t : Z) : sst S K := sstate S K P cc f (Z.to_nat t) 0 s0.
Lemma Fst_S f s0 t : (0 <= t)%Z -> Fst f s0 (t + 1) = sstep S K P ccoe (f t) (Fst f s0 t).
Proof.
  intros Ht. unfold Fst. replace (Z.to_nat (t + 1)) with (Datatypes.S (Z.to_nat t)) by lia.
  rewrite sstate_last. replace (0 + Z.of_nat (Z.to_nat t))%Z with t by lia. reflexivity.
Qed.

Definition frun_inv (fq : kQ N -> bool) sr f s0 (t : Z) (mr : kmem * krec S K) : Prop :=
  finv (fst mr) (Fst f s0 t) /\
  (forall u c, In c (allC S) ->
     snd mr u c = if (0 <=? u)%Z && (u <? t)%Z then srec S K P c (Fst f s0 u) else map (fun _ => 0) (sp_rec P c)) /\
  (forall A g q u p, In g (kgrp N A) -> In q (g_Q g) -> dom S K P (g_h g) p = true -> fq q = true ->
     (0 <= u < t)%Z -> (u mod sr = 0)%Z ->
     fst mr (VQ q (u / sr)%Z) (idx shape p) = snap (f u) (Fst f s0 u) A q p).

Lemma frun_step visA visB fq sr f s0 t mr :
  Permutation (svisits S N K P (fpml_b S K P pw) (fpml_e S K P pw) true) visA ->
  Permutation (svisits S N K P (fpml_b S K P pw) (fpml_e S K P pw) false) visB ->
  (0 < sr)%Z -> (0 <= t)%Z -> frun_inv fq sr f s0 t mr ->
  frun_inv fq sr f s0 (t + 1) (f_body S N K P U visA visB fq sr f mr t).
Proof.
  intros HA HB Hsr Ht (I1 & I2 & I3). destruct mr as [m r]. cbn [fst snd] in I1, I2, I3.
  destruct (f_body_inv visA visB fq sr f m r t (Fst f s0 t) HA HB I1) as (J1 & J2 & J3).
  split; [rewrite Fst_S by exact Ht; exact J1|split].
  - intros u c Hc. destruct (Z.eq_dec u t) as [->|Nu].
    + rewrite J2; [rewrite Z.eqb_refl|exact Hc|].
      * replace ((0 <=? t) && (t <? t + 1))%Z with true by (symmetry; rewrite andb_true_iff, Z.leb_le, Z.ltb_lt; lia). reflexivity.
      * rewrite I2 by exact Hc. replace ((0 <=? t) && (t <? t))%Z with false; [reflexivity|].
        rewrite Z.ltb_irrefl, andb_false_r. reflexivity.
    + assert (E : snd (f_body S N K P U visA visB fq sr f (m, r) t) u c = r u c).
      { unfold f_body, kput. cbn [snd]. destruct (Z.eqb_spec u t); [contradiction|reflexivity]. }
      rewrite E, I2 by exact Hc.
      replace (u <? t + 1)%Z with (u <? t)%Z; [reflexivity|]. apply eq_true_iff_eq. rewrite !Z.ltb_lt. lia.
  - intros A g q u p Hg Hq Hd Hf Hut Hu0. rewrite (J3 A g) by assumption. rewrite Hf. cbn [andb].
    destruct (Z.eq_dec u t) as [->|Nu].
    + rewrite Hu0, !Z.eqb_refl. reflexivity.
    + replace ((t mod sr =? 0) && (u / sr =? t / sr))%Z with false.
      * apply (I3 A g); auto. lia.
      * symmetry. apply not_true_iff_false. rewrite andb_true_iff, !Z.eqb_eq. intros [E1 E2].
        pose proof (Z.div_mod u sr). pose proof (Z.div_mod t sr). lia.
Qed.

Lemma frun_loop visA visB fq sr f s0 n mr :
  Permutation (svisits S N K P (fpml_b S K P pw) (fpml_e S K P pw) true) visA ->
  Permutation (svisits S N K P (fpml_b S K P pw) (fpml_e S K P pw) false) visB ->
  (0 < sr)%Z -> frun_inv fq sr f s0 0 mr ->
  frun_inv fq sr f s0 (Z.of_nat n) (fold_left (f_body S N K P U visA visB fq sr f) (zrange 0 (Z.of_nat n)) mr).
Proof.
  intros HA HB Hsr H0. induction n as [|n IH]; [exact H0|].
  replace (Z.of_nat (Datatypes.S n)) with (Z.of_nat n + 1)%Z by lia.
  rewrite (zrange_app 0 (Z.of_nat n)) by lia. rewrite (zrange_cons (Z.of_nat n)), (zrange_nil (Z.of_nat n + 1)) by lia.
  rewrite fold_left_app. cbn [fold_left]. apply frun_step; auto. lia.
Qed.

(** Start: parts of the given state outside the domains (and inside the interiors, for memory variables) are dropped. *)
Definition sinit (u : sst S K) : sst S K :=
  mksst (fun x p => if dom S K P (xh S x) p then mn u x p else 0)
        (fun e p => if dom S K P (eh S e) p && negb (ezone S K P pw e p) then me u e p else 0).

Lemma crop_edge h p : dom S K P h p = crop S K P p && negb (edge S K P h p).
Proof.
  apply eq_true_iff_eq. rewrite andb_true_iff, negb_true_iff. unfold crop. rewrite !dom_spec. unfold edge.
  rewrite <- not_true_iff_false, existsb_exists. split.
  - intros [L D]. split; [split; [exact L|]|].
    + intros d Hd. specialize (D d Hd). destruct (h d); lia.
    + intros (d & Hd & E). apply in_seq in Hd. rewrite andb_true_iff, Z.eqb_eq in E. destruct E as [E1 E2].
      specialize (D d ltac:(lia)). rewrite E1 in D. lia.
  - intros [[L D] E]. split; [exact L|]. intros d Hd. specialize (D d Hd). destruct (h d) eqn:Eh; [|exact D].
    assert (coord d p <> n_ d - fd)%Z; [|lia]. intros Ec. apply E. exists d. split; [apply in_seq; lia|].
    rewrite Eh, Ec, Z.eqb_refl. reflexivity.
Qed.

Lemma rep_init store u : rep (k_init S N K P pw store u) (sinit u).
Proof.
  split; intros x p Hx Hp; cbn [k_init]; rewrite unidx_idx by exact Hp; cbn [mn me sinit]; rewrite crop_edge;
    destruct (crop S K P p); cbn [andb negb]; auto; destruct (edge S K P _ p); cbn [andb orb negb]; auto.
  destruct (ezone S K P pw x p); reflexivity.
Qed.
Lemma ssup_sinit u : ssup S K P (sinit u).
Proof. split; intros x Hx p Hp; cbn; rewrite Hp; reflexivity. Qed.
Lemma szone_sinit u : szone (sinit u).
Proof. intros e p He Hp. cbn. rewrite Hp, andb_false_r. reflexivity. Qed.

Lemma dom_crop h p : dom S K P h p = true -> crop S K P p = true.
Proof. rewrite crop_edge, andb_true_iff. tauto. Qed.

Lemma k_out_rep m s : rep m s -> ssup S K P s -> sseq S K (k_out S N K P m) s.
Proof.
  intros [RX RE] [SX SE]. split; intros x p Hx; cbn [k_out mn me].
  - destruct (crop S K P p) eqn:Hc; [apply RX; [exact Hx|exact (dom_array S K P _ _ Hc)]|].
    symmetry. apply SX; [exact Hx|]. destruct (dom S K P (xh S x) p) eqn:Hd; [|reflexivity].
    apply dom_crop in Hd. congruence.
  - destruct (crop S K P p) eqn:Hc; [apply RE; [exact Hx|exact (dom_array S K P _ _ Hc)]|].
    symmetry. apply SE; [exact Hx|]. destruct (dom S K P (eh S x) p) eqn:Hd; [|reflexivity].
    apply dom_crop in Hd. congruence.
Qed.

(** A run with valid arguments. *)
Definition nt_ok (nt sr : Z) (callback : option Z) : Prop :=
  (0 < sr /\ 0 <= nt /\ match callback with Some c => 0 < c | None => nt = 0 \/ sr <= nt end)%Z.
(** Steps taken. *)
Definition nsteps (nt sr : Z) : Z := (nt / sr * sr)%Z.

Lemma k_cf_pos nt sr cb : nt_ok nt sr cb -> (0 < nt)%Z -> (0 < k_cf nt sr cb)%Z.
Proof.
  intros (Hs & Hn & Hc) H. unfold k_cf. destruct cb as [c|]; [exact Hc|].
  apply Z.div_str_pos. lia.
Qed.
Lemma nsteps_nonneg nt sr cb : nt_ok nt sr cb -> (0 <= nsteps nt sr)%Z.
Proof. intros (Hs & Hn & _). unfold nsteps. pose proof (Z.div_pos nt sr Hn Hs). nia. Qed.
Lemma nsteps_le nt sr cb : nt_ok nt sr cb -> (nsteps nt sr <= nt)%Z.
Proof. intros (Hs & Hn & _). unfold nsteps. pose proof (Z.div_mod nt sr). pose proof (Z.mod_pos_bound nt sr Hs). lia. Qed.

Lemma k_fwd_spec visA visB fq sr f nt cb store u :
  Permutation (svisits S N K P (fpml_b S K P pw) (fpml_e S K P pw) true) visA ->
  Permutation (svisits S N K P (fpml_b S K P pw) (fpml_e S K P pw) false) visB ->
  nt_ok nt sr cb ->
  exists u' r' st', k_fwd S N K P U pw visA visB fq sr f nt cb store u = Some (u', r', st') /\
    sseq S K u' (Fst f (sinit u) (nsteps nt sr)) /\
    (forall t c, In c (allC S) ->
       r' t c = if (0 <=? t)%Z && (t <? nsteps nt sr)%Z then srec S K P c (Fst f (sinit u) t) else map (fun _ => 0) (sp_rec P c)) /\
    (forall A g q t p, In g (kgrp N A) -> In q (g_Q g) -> dom S K P (g_h g) p = true -> fq q = true ->
       (0 <= t < nsteps nt sr)%Z -> (t mod sr = 0)%Z ->
       st' q (t / sr)%Z (idx shape p) = snap (f t) (Fst f (sinit u) t) A q p).
Proof.
  intros HA HB Hnt. pose proof Hnt as (Hs & Hn & Hc).
  set (mr0 := (k_init S N K P pw store u, k_rec0 S K (sp_rec P))).
  assert (I0 : frun_inv fq sr f (sinit u) 0 mr0).
  { split; [split; [apply rep_init|split; [apply ssup_sinit|apply szone_sinit]]|split].
    - intros t c Hcc. cbn [snd mr0]. replace ((0 <=? t) && (t <? 0))%Z with false; [reflexivity|].
      symmetry. apply not_true_iff_false. rewrite andb_true_iff, Z.leb_le, Z.ltb_lt. lia.
    - intros. lia. }
  pose proof (frun_loop visA visB fq sr f (sinit u) (Z.to_nat (nsteps nt sr)) mr0 HA HB Hs I0) as I.
  rewrite Z2Nat.id in I by apply (nsteps_nonneg nt sr cb Hnt).
  set (mr := fold_left (f_body S N K P U visA visB fq sr f) (zrange 0 (nsteps nt sr)) mr0) in *.
  assert (E : k_fwd S N K P U pw visA visB fq sr f nt cb store u
              = Some (k_out S N K P (fst mr), snd mr, fun q si => fst mr (VQ q si))).
  { unfold k_fwd. fold mr0. destruct (Z.leb_spec nt 0) as [Hle|Hlt].
    - assert (nt = 0%Z) by lia. subst nt. unfold mr, nsteps. rewrite Z.div_0_l, zrange_nil by lia. reflexivity.
    - pose proof (k_cf_pos nt sr cb Hnt Hlt) as Hcf. destruct (Z.eqb_spec (k_cf nt sr cb) 0); [lia|].
      unfold k_forward. rewrite fold_left_flat_map, chunks_up by (try apply Z.div_pos; lia). reflexivity. }
  destruct I as ((R & Ss & Sz) & I2 & I3).
  exists (k_out S N K P (fst mr)), (snd mr), (fun q si => fst mr (VQ q si)). split; [exact E|]. split; [|split].
  - apply k_out_rep; assumption.
  - exact I2.
  - intros A g q t p Hg Hq Hd Hf Ht Hm0. apply (I3 A g); assumption.
Qed.

(** ** Backward half steps *)
Hypothesis Hroom : sroom S K P pw.

Definition repB (A : bool) (m : kmem) (g : sst S K) : Prop :=
  (forall x p, In x (allX S) -> xA S x = A -> inarr p -> m (VX x) (idx shape p) = mn g x p) /\
  (forall e p, In e (allE S) -> eA S e = A -> inarr p -> m (VM e) (idx shape p) = me g e p).

Lemma b_sum_rep A g m h r p x : repB (negb A) m h -> In g (kgrp N A) -> In x (g_X g) ->
  dom S K P (g_h g) p = true ->
  inb (sreg_box S K P (g_h g) (bpml_b S K P pw) (bpml_e S K P pw) r) p = true ->
  b_sum S N K P U m r p x = sumf (srcE S x) (fun e => - der' S K P e (zf S K P ccoe h e) p).
Proof.
  intros [RX RE] Hg Hx Hp Hb. destruct (ko_Xg S N nd Hk A g x Hg Hx) as [EA Hh].
  pose proof (grp_X S N K P Hk A g x Hg Hx) as Hx'.
  assert (Hp' : dom S K P (xh S x) p = true) by (rewrite <- (dom_ext S K P _ _ p Hh); exact Hp).
  unfold b_sum. apply (sumf_ext K). intros e He. apply (srcE_spec S K P Sok) in He. destruct He as (He & Ex & Ha).
  pose proof (ok_dim S nd Sok e He) as Hd. pose proof (ok_flip S nd Sok e He) as Hfl. rewrite Ex in Hfl.
  assert (Ee : eA S e = negb A) by (rewrite <- EA, Ha, negb_involutive; reflexivity).
  f_equal.
  assert (G : forall k, (if xh S x (edim S e) then (1 - fd <= k <= fd)%Z else (- fd <= k <= fd - 1)%Z) ->
    (if (reg_at r (edim S e) =? 1)%Z
     then n_tb U e (fun x' => m (VX x') (idx shape p + k * stride shape (edim S e))%Z) (idx shape p + k * stride shape (edim S e))%Z
     else n_tbp U e (sp_b P (eh S e (edim S e)) (edim S e) (coord (edim S e) p + k)%Z)
            (m (VM e) (idx shape p + k * stride shape (edim S e))%Z)
            (fun x' => m (VX x') (idx shape p + k * stride shape (edim S e))%Z) (idx shape p + k * stride shape (edim S e))%Z)
    = zf S K P ccoe h e (shift (edim S e) k p)).
  { intros k Hkk. pose proof (dom_shift (xh S x) (edim S e) k p Hp' Hd Hkk) as Hq.
    pose proof (dom_len _ _ Hp) as Lp.
    rewrite <- !(idx_shift shape) by exact Lp. set (q := shift (edim S e) k p) in *.
    assert (Ec : coord (edim S e) q = (coord (edim S e) p + k)%Z) by (apply coord_shift_same; rewrite Lp; exact Hd).
    assert (Et : n_tb U e (fun x' => m (VX x') (idx shape q)) (idx shape q) = tbar S K ccoe h e q).
    { rewrite (no_tb S N K U kc Hu) by exact He. unfold tbar, ccoe. apply (sumf_ext K). intros y Hy.
      apply incX_spec in Hy. rewrite RX; auto; [tauto|].
      rewrite <- Ee. apply (ok_inc S nd Sok); tauto. }
    unfold zf. destruct (Z.eqb_spec (reg_at r (edim S e)) 1) as [E1|E1].
    - assert (Ez : ezone S K P pw e q = true).
      { apply ezone_spec. rewrite Ec. pose proof (reg_one S K P _ _ (g_h g) r p (edim S e) Hb Hd E1) as B.
        rewrite (Hh _ Hd), Hfl in B. pose proof (sg_dims S K P pw Hgeo _ Hd). pose proof (Hroom _ Hd).
        rewrite Hfl in Hkk.
        unfold bpml_e, bpml_b in B. destruct (eh S e (edim S e)); cbn [negb] in *; lia. }
      rewrite (proj2 (ezone_prof e q He Ez)), Et. ring.
    - rewrite (no_tbp S N K U kc Hu) by exact He. rewrite Et, (RE e q He Ee Hq). unfold eb. rewrite Ec. reflexivity. }
  unfold kdiff, der', SDH1, SD1. rewrite Hfl in G. destruct (eh S e (edim S e)) eqn:Eh; cbn [negb] in G |- *.
  - apply SDIFF1_ext. intros j Hj. apply G. exact Hj.
  - apply SDIFFH1_ext. intros j Hj. apply G. exact Hj.
Qed.

Lemma b_reg1 A g r p e : In g (kgrp N A) -> In e (g_E g) ->
  inb (sreg_box S K P (g_h g) (bpml_b S K P pw) (bpml_e S K P pw) r) p = true -> reg_at r (edim S e) = 1%Z ->
  ezone S K P pw e p = true.
Proof.
  intros Hg He Hb E1. pose proof (grp_E S N K P Hk A g e Hg He) as He'. destruct (ko_Eg S N nd Hk A g e Hg He) as [_ Hh].
  pose proof (ok_dim S nd Sok e He') as Hd.
  apply ezone_spec. pose proof (reg_one S K P _ _ (g_h g) r p (edim S e) Hb Hd E1) as B.
  rewrite (Hh _ Hd) in B. pose proof (sg_dims S K P pw Hgeo _ Hd). pose proof (Hroom _ Hd). pose proof (fd_pad_pos (sp_acc P)).
  unfold bpml_e, bpml_b in B. destruct (eh S e (edim S e)); lia.
Qed.

Definition bA_own (g : kgp) (w : kvar) : Prop :=
  match w with VX x => In x (g_X g) | VN e => In e (g_E g) | VG k => In k (g_M g) | _ => False end.
Definition bA_W (w : kvar) : Prop :=
  match w with VX x => xA S x = true | VN _ | VG _ => True | _ => False end.
Definition bB_own (g : kgp) (w : kvar) : Prop :=
  match w with VX x => In x (g_X g) | VM e => In e (g_E g) | VG k => In k (g_M g) | _ => False end.
Definition bB_W (w : kvar) : Prop :=
  match w with VX x => xA S x = false | VM e => eA S e = false | VG _ => True | _ => False end.

Section BA.
Variables (fm : kM N -> bool) (sr si : Z) (vis : list (kgp * (list Z * pt))).
Hypothesis Hvis : Permutation (svisits S N K P (bpml_b S K P pw) (bpml_e S K P pw) true) vis.
Notation cell := (bA_cell S N K P U fm sr si).

Lemma bA_h1 (m : kmem) g r p w j : In g (kgrp N true) -> j <> idx shape p \/ ~ bA_own g w -> cell m (g, (r, p)) w j = m w j.
Proof.
  intros Hg H. apply (bA_cell_spec S N K P U kc Sok Hk Hu g fm sr si m r p Hg).
  destruct H as [H|H]; [left; exact H|right]. repeat split; intros y Hy ->; apply H; cbn; auto.
Qed.
Lemma bA_h2 g w : In g (kgrp N true) -> bA_own g w -> bA_W w.
Proof. intros Hg. destruct w; cbn; auto; intros H. apply (ko_Xg S N nd Hk true g x Hg H). Qed.
Lemma bA_h3 (m m' : kmem) g r p w : In g (kgrp N true) -> bA_own g w ->
  (forall y i, ~ bA_W y -> m y i = m' y i) -> (forall y, bA_own g y -> m y (idx shape p) = m' y (idx shape p)) ->
  cell m (g, (r, p)) w (idx shape p) = cell m' (g, (r, p)) w (idx shape p).
Proof.
  intros Hg Ho H1 H2.
  destruct (bA_cell_spec S N K P U kc Sok Hk Hu g fm sr si m r p Hg) as (C1 & C2 & C3 & _).
  destruct (bA_cell_spec S N K P U kc Sok Hk Hu g fm sr si m' r p Hg) as (D1 & D2 & D3 & _).
  assert (EX : forall x, In x (g_X g) -> cell m (g, (r, p)) (VX x) (idx shape p) = cell m' (g, (r, p)) (VX x) (idx shape p)).
  { intros x Hx. rewrite C1, D1 by exact Hx. rewrite (H2 (VX x)) by exact Hx. f_equal.
    apply (b_sum_ext_half S N K P U kc Sok Hu true).
    - apply (ko_Xg S N nd Hk true g x Hg Hx).
    - intros y j Hy Ey. apply H1. cbn. rewrite Ey. discriminate.
    - intros e j He Ee. apply H1. cbn. auto. }
  destruct w as [x|e|e|q s|k]; cbn in Ho; try contradiction.
  - apply EX, Ho.
  - rewrite C2, D2 by exact Ho. unfold bmem. rewrite (H2 (VN e)) by exact Ho. rewrite (H1 (VM e)) by (cbn; auto).
    destruct (kguard N e && (reg_at r (edim S e) =? 1)%Z); [reflexivity|]. f_equal. f_equal.
    apply (sumf_ext K). intros x Hx. apply incX_spec in Hx. rewrite EX; [reflexivity|].
    apply (ko_incX S N nd Hk true g x e); tauto.
  - rewrite C3, D3 by exact Ho. rewrite (H2 (VG k)) by exact Ho. destruct (fm k); [|reflexivity]. f_equal.
    apply (no_gm S N K U kc Hu true g k); auto; intros q _; apply H1; cbn; auto.
Qed.
Lemma bA_h4 g g' w : In g (kgrp N true) -> In g' (kgrp N true) -> bA_own g w -> bA_own g' w -> g = g'.
Proof.
  intros Hg Hg'. destruct w; cbn; try contradiction; intros H H'.
  - apply (grp_uniq_X true g g' x); auto.
  - apply (grp_uniq_E true g g' e); auto.
  - apply (grp_uniq_M true true g g' m); auto.
Qed.

Notation fl_own := (loop_own true cell bA_own bA_W _ _ (fun d => bbounds d Hroom) bA_h1 bA_h2 bA_h3 bA_h4 vis Hvis).
Notation fl_frame := (loop_frame true cell bA_own _ _ (fun d => bbounds d Hroom) bA_h1 vis Hvis).
Notation fl_framev := (loop_frame_var true cell bA_own _ _ bA_h1 vis Hvis).

(** Gradients [VN] outside the domains and in the interiors are zero. *)
Definition vnz (m : kmem) : Prop :=
  forall e p, In e (allE S) -> eA S e = true -> inarr p ->
    dom S K P (eh S e) p = false \/ ezone S K P pw e p = true -> m (VN e) (idx shape p) = 0.

Lemma bA_loop m g : rep m g -> ssup S K P g -> szone g -> vnz m ->
  let m' := fold_left cell vis m in
  let g1 := bhalf S K P false ccoe g in
  (forall x p, In x (allX S) -> inarr p -> m' (VX x) (idx shape p) = mn g1 x p) /\
  (forall e p, In e (allE S) -> inarr p -> m' (VM e) (idx shape p) = me g e p) /\
  (forall e p, In e (allE S) -> eA S e = true -> inarr p ->
     m' (VN e) (idx shape p) = me (bhalf S K P true ccoe g1) e p) /\
  (forall A h k p, In h (kgrp N A) -> In k (g_M h) -> dom S K P (g_h h) p = true ->
     m' (VG k) (idx shape p) = m (VG k) (idx shape p) +
       (if A && fm k then n_gm U k (fun x => mn g1 x p) (fun q => m (VQ q si) (idx shape p)) (ofZ K sr) else 0)) /\
  (forall k p, inarr p -> (forall A h, In h (kgrp N A) -> In k (g_M h) -> dom S K P (g_h h) p = false) ->
     m' (VG k) (idx shape p) = m (VG k) (idx shape p)) /\
  (forall q s j, m' (VQ q s) j = m (VQ q s) j).
Proof.
  intros R [SX SE] Hz Hn m' g1.
  assert (RB : repB false m g) by (split; intros; apply R; assumption).
  assert (VXm : forall x p, In x (allX S) -> inarr p -> m' (VX x) (idx shape p) = mn g1 x p).
  { intros x p Hx Hp. unfold g1. cbn [mn bhalf]. destruct (xA S x) eqn:EA; cbn [Bool.eqb].
    - destruct (X_grp S N K P Hk x Hx) as (h & Hg & Hxg). rewrite EA in Hg.
      destruct (ko_Xg S N nd Hk true h x Hg Hxg) as [_ Hh].
      unfold dmask. rewrite <- (dom_ext S K P _ _ p Hh). destruct (dom S K P (g_h h) p) eqn:Hd.
      * destruct (fl_own h p m Hg Hd) as (r & Hr & Hb & E). unfold m'. rewrite (E (VX x) Hxg).
        destruct (bA_cell_spec S N K P U kc Sok Hk Hu h fm sr si m r p Hg) as (C1 & _). rewrite C1 by exact Hxg.
        rewrite (proj1 R x p Hx Hp). f_equal. apply (b_sum_rep true h); assumption.
      * unfold m'. rewrite (fl_frame (VX x) p m Hp).
        -- rewrite (proj1 R x p Hx Hp). apply SX; [exact Hx|]. rewrite <- (dom_ext S K P _ _ p Hh). exact Hd.
        -- intros g' Hg' Hx'. cbn in Hx'. rewrite (grp_uniq_X true g' h x) by assumption. exact Hd.
    - unfold m'. rewrite (fl_framev (VX x)); [apply R; assumption|]. intros h Hg Hx'. cbn in Hx'.
      rewrite (proj1 (ko_Xg S N nd Hk true h x Hg Hx')) in EA. discriminate. }
  split; [exact VXm|]. split; [|split; [|split; [|split]]].
  - intros e p He Hp. unfold m'. rewrite (fl_framev (VM e)); [apply R; assumption|]. cbn. auto.
  - intros e p He EA Hp. cbn [me bhalf]. rewrite EA. cbn [Bool.eqb].
    assert (Eg1 : me g1 e p = me g e p) by (unfold g1; cbn [me bhalf]; rewrite EA; reflexivity).
    rewrite Eg1.
    destruct (E_grp S N K P Hk e He) as (h & Hg & Heg). rewrite EA in Hg.
    destruct (ko_Eg S N nd Hk true h e Hg Heg) as [_ Hh]. destruct (dom S K P (g_h h) p) eqn:Hd.
    + destruct (fl_own h p m Hg Hd) as (r & Hr & Hb & E). unfold m'. rewrite (E (VN e) Heg).
      destruct (bA_cell_spec S N K P U kc Sok Hk Hu h fm sr si m r p Hg) as (_ & C2 & _). rewrite C2 by exact Heg.
      unfold bmem. destruct (kguard N e && (reg_at r (edim S e) =? 1)%Z) eqn:Eq.
      * rewrite andb_true_iff, Z.eqb_eq in Eq. destruct Eq as [_ E1].
        pose proof (b_reg1 true h r p e Hg Heg Hb E1) as Ez. rewrite (Hn e p He EA Hp (or_intror Ez)).
        rewrite (proj1 (ezone_prof e p He Ez)). ring.
      * rewrite (proj2 R e p He Hp). f_equal. f_equal. unfold tbar, ccoe. apply (sumf_ext K). intros x Hx.
        apply incX_spec in Hx. rewrite <- (E (VX x)) by (apply (ko_incX S N nd Hk true h x e); tauto).
        fold m'. rewrite VXm by tauto. reflexivity.
    + assert (Hd' : dom S K P (eh S e) p = false) by (rewrite <- (dom_ext S K P _ _ p Hh); exact Hd).
      unfold m'. rewrite (fl_frame (VN e) p m Hp).
      * rewrite (Hn e p He EA Hp (or_introl Hd')). rewrite (SE e He p Hd').
        assert (S1 : ssup S K P g1) by (apply (ssup_bhalf S K Kr P Sok); split; assumption).
        rewrite (fsup_tbar S K Kr P Sok ccoe g1 e S1 He p Hd'). ring.
      * intros g' Hg' He'. cbn in He'. rewrite (grp_uniq_E true g' h e) by assumption. exact Hd.
  - intros A h k p Hg Hkk Hd. pose proof (dom_array S K P _ _ Hd) as Hp. destruct A; cbn [andb].
    + destruct (fl_own h p m Hg Hd) as (r & Hr & Hb & E). unfold m'. rewrite (E (VG k) Hkk).
      destruct (bA_cell_spec S N K P U kc Sok Hk Hu h fm sr si m r p Hg) as (_ & _ & C3 & _). rewrite C3 by exact Hkk.
      destruct (fm k); [|ring]. f_equal. apply (no_gm S N K U kc Hu true h k); auto.
      intros x Hx. rewrite <- (E (VX x) Hx). fold m'. apply VXm; [apply (grp_X S N K P Hk true h x Hg Hx)|exact Hp].
    + unfold m'. rewrite (fl_framev (VG k)); [ring|]. cbn. intros h' Hg' Hk'.
      assert (Eh : h = h') by (apply (grp_uniq_M false true h h' k); assumption). subst h'.
      destruct (g_X h) as [|x l] eqn:EX; [apply (ko_ne S N nd Hk true h Hg' EX)|].
      assert (Hx : In x (g_X h)) by (rewrite EX; left; reflexivity).
      pose proof (proj1 (ko_Xg S N nd Hk _ h x Hg Hx)). pose proof (proj1 (ko_Xg S N nd Hk _ h x Hg' Hx)). congruence.
  - intros k p Hp H. apply fl_frame; [exact Hp|]. intros h Hg Hkk. apply (H true); assumption.
  - intros q s j. apply fl_framev. cbn. auto.
Qed.
End BA.

Section BB.
Variables (fm : kM N -> bool) (sr si : Z) (vis : list (kgp * (list Z * pt))).
Hypothesis Hvis : Permutation (svisits S N K P (bpml_b S K P pw) (bpml_e S K P pw) false) vis.
Notation cell := (bB_cell S N K P U fm sr si).

Lemma bB_h1 (m : kmem) g r p w j : In g (kgrp N false) -> j <> idx shape p \/ ~ bB_own g w -> cell m (g, (r, p)) w j = m w j.
Proof.
  intros Hg H. apply (bB_cell_spec S N K P U kc Sok Hk Hu g fm sr si m r p Hg).
  destruct H as [H|H]; [left; exact H|right]. repeat split; intros y Hy ->; apply H; cbn; auto.
Qed.
Lemma bB_h2 g w : In g (kgrp N false) -> bB_own g w -> bB_W w.
Proof.
  intros Hg. destruct w; cbn; auto; intros H; [apply (ko_Xg S N nd Hk false g x Hg H)|apply (ko_Eg S N nd Hk false g e Hg H)].
Qed.
Lemma bB_h3 (m m' : kmem) g r p w : In g (kgrp N false) -> bB_own g w ->
  (forall y i, ~ bB_W y -> m y i = m' y i) -> (forall y, bB_own g y -> m y (idx shape p) = m' y (idx shape p)) ->
  cell m (g, (r, p)) w (idx shape p) = cell m' (g, (r, p)) w (idx shape p).
Proof.
  intros Hg Ho H1 H2.
  destruct (bB_cell_spec S N K P U kc Sok Hk Hu g fm sr si m r p Hg) as (C1 & C2 & C3 & _).
  destruct (bB_cell_spec S N K P U kc Sok Hk Hu g fm sr si m' r p Hg) as (D1 & D2 & D3 & _).
  destruct w as [x|e|e|q s|k]; cbn in Ho; try contradiction.
  - rewrite C1, D1 by exact Ho. rewrite (H2 (VX x)) by exact Ho. f_equal.
    apply (b_sum_ext_half S N K P U kc Sok Hu false).
    + apply (ko_Xg S N nd Hk false g x Hg Ho).
    + intros y j Hy Ey. apply H1. cbn. rewrite Ey. discriminate.
    + intros e j He Ee. apply H1. cbn. rewrite Ee. discriminate.
  - rewrite C2, D2 by exact Ho. unfold bmem. rewrite (H2 (VM e)) by exact Ho.
    destruct (kguard N e && (reg_at r (edim S e) =? 1)%Z); [reflexivity|]. f_equal. f_equal.
    apply (sumf_ext K). intros x Hx. apply incX_spec in Hx. rewrite (H2 (VX x)); [reflexivity|].
    apply (ko_incX S N nd Hk false g x e); tauto.
  - rewrite C3, D3 by exact Ho. rewrite (H2 (VG k)) by exact Ho. destruct (fm k); [|reflexivity]. f_equal.
    apply (no_gm S N K U kc Hu false g k); auto; intros q _; apply H1; cbn; auto.
Qed.
Lemma bB_h4 g g' w : In g (kgrp N false) -> In g' (kgrp N false) -> bB_own g w -> bB_own g' w -> g = g'.
Proof.
  intros Hg Hg'. destruct w; cbn; try contradiction; intros H H'.
  - apply (grp_uniq_X false g g' x); auto.
  - apply (grp_uniq_E false g g' e); auto.
  - apply (grp_uniq_M false false g g' m); auto.
Qed.

Notation fl_own := (loop_own false cell bB_own bB_W _ _ (fun d => bbounds d Hroom) bB_h1 bB_h2 bB_h3 bB_h4 vis Hvis).
Notation fl_frame := (loop_frame false cell bB_own _ _ (fun d => bbounds d Hroom) bB_h1 vis Hvis).
Notation fl_framev := (loop_frame_var false cell bB_own _ _ bB_h1 vis Hvis).

Lemma bB_loop m g : ssup S K P g -> szone g ->
  let m' := fold_left cell vis m in
  let g1 := bhalf S K P false ccoe g in
  let g2 := bhalf S K P true ccoe g1 in
  (forall x p, In x (allX S) -> inarr p -> m (VX x) (idx shape p) = mn g1 x p) ->
  (forall e p, In e (allE S) -> inarr p -> m (VM e) (idx shape p) = me g e p) ->
  (forall x p, In x (allX S) -> inarr p -> m' (VX x) (idx shape p) = mn g2 x p) /\
  (forall e p, In e (allE S) -> eA S e = false -> inarr p -> m' (VM e) (idx shape p) = me g2 e p) /\
  (forall e p, In e (allE S) -> eA S e = true -> inarr p -> m' (VM e) (idx shape p) = me g e p) /\
  (forall A h k p, In h (kgrp N A) -> In k (g_M h) -> dom S K P (g_h h) p = true ->
     m' (VG k) (idx shape p) = m (VG k) (idx shape p) +
       (if negb A && fm k then n_gm U k (fun x => mn g1 x p) (fun q => m (VQ q si) (idx shape p)) (ofZ K sr) else 0)) /\
  (forall k p, inarr p -> (forall A h, In h (kgrp N A) -> In k (g_M h) -> dom S K P (g_h h) p = false) ->
     m' (VG k) (idx shape p) = m (VG k) (idx shape p)) /\
  (forall q s j, m' (VQ q s) j = m (VQ q s) j) /\
  (forall e j, m' (VN e) j = m (VN e) j).
Proof.
  intros Ss Hz m' g1 g2 RX RE. pose proof Ss as [SX SE].
  assert (S1 : ssup S K P g1) by (apply (ssup_bhalf S K Kr P Sok), Ss).
  assert (RB : repB true m g1).
  { split; intros y p Hy EA Hp; [apply RX; assumption|]. rewrite RE by assumption. unfold g1. cbn [me bhalf].
    rewrite EA. reflexivity. }
  split; [|split; [|split; [|split; [|split; [|split]]]]].
  - intros x p Hx Hp. unfold g2. cbn [mn bhalf]. destruct (xA S x) eqn:EA; cbn [Bool.eqb].
    + unfold m'. rewrite (fl_framev (VX x)); [apply RX; assumption|]. intros h Hg Hx'. cbn in Hx'.
      rewrite (proj1 (ko_Xg S N nd Hk false h x Hg Hx')) in EA. discriminate.
    + destruct (X_grp S N K P Hk x Hx) as (h & Hg & Hxg). rewrite EA in Hg.
      destruct (ko_Xg S N nd Hk false h x Hg Hxg) as [_ Hh].
      unfold dmask. rewrite <- (dom_ext S K P _ _ p Hh). destruct (dom S K P (g_h h) p) eqn:Hd.
      * destruct (fl_own h p m Hg Hd) as (r & Hr & Hb & E). unfold m'. rewrite (E (VX x) Hxg).
        destruct (bB_cell_spec S N K P U kc Sok Hk Hu h fm sr si m r p Hg) as (C1 & _). rewrite C1 by exact Hxg.
        rewrite (RX x p Hx Hp). f_equal. apply (b_sum_rep false h); assumption.
      * unfold m'. rewrite (fl_frame (VX x) p m Hp).
        -- rewrite (RX x p Hx Hp). apply S1; [exact Hx|]. rewrite <- (dom_ext S K P _ _ p Hh). exact Hd.
        -- intros g' Hg' Hx'. cbn in Hx'. rewrite (grp_uniq_X false g' h x) by assumption. exact Hd.
  - intros e p He EA Hp.
    assert (Eg : me g2 e p = ea S K P e p * (me g e p + tbar S K ccoe g e p)).
    { unfold g2, g1. cbn [me bhalf]. rewrite EA. cbn [Bool.eqb]. reflexivity. }
    rewrite Eg. destruct (E_grp S N K P Hk e He) as (h & Hg & Heg). rewrite EA in Hg.
    destruct (ko_Eg S N nd Hk false h e Hg Heg) as [_ Hh]. destruct (dom S K P (g_h h) p) eqn:Hd.
    + destruct (fl_own h p m Hg Hd) as (r & Hr & Hb & E). unfold m'. rewrite (E (VM e) Heg).
      destruct (bB_cell_spec S N K P U kc Sok Hk Hu h fm sr si m r p Hg) as (_ & C2 & _). rewrite C2 by exact Heg.
      unfold bmem. rewrite (RE e p He Hp).
      destruct (kguard N e && (reg_at r (edim S e) =? 1)%Z) eqn:Eq.
      * rewrite andb_true_iff, Z.eqb_eq in Eq. destruct Eq as [_ E1].
        pose proof (b_reg1 false h r p e Hg Heg Hb E1) as Ez. rewrite (Hz e p He Ez).
        rewrite (proj1 (ezone_prof e p He Ez)). ring.
      * f_equal. f_equal. unfold tbar, ccoe. apply (sumf_ext K). intros x Hx. apply incX_spec in Hx.
        rewrite RX by tauto. unfold g1. cbn [mn bhalf].
        rewrite (proj1 (ok_inc S nd Sok x e (proj1 Hx) He (proj2 Hx))), EA. reflexivity.
    + assert (Hd' : dom S K P (eh S e) p = false) by (rewrite <- (dom_ext S K P _ _ p Hh); exact Hd).
      unfold m'. rewrite (fl_frame (VM e) p m Hp).
      * rewrite (RE e p He Hp), (SE e He p Hd').
        rewrite (fsup_tbar S K Kr P Sok ccoe g e Ss He p Hd'). ring.
      * intros g' Hg' He'. cbn in He'. rewrite (grp_uniq_E false g' h e) by assumption. exact Hd.
  - intros e p He EA Hp. unfold m'. rewrite (fl_framev (VM e)); [apply RE; assumption|]. intros h Hg He'. cbn in He'.
    rewrite (proj1 (ko_Eg S N nd Hk false h e Hg He')) in EA. discriminate.
  - intros A h k p Hg Hkk Hd. pose proof (dom_array S K P _ _ Hd) as Hp. destruct A; cbn [andb negb].
    + unfold m'. rewrite (fl_framev (VG k)); [ring|]. cbn. intros h' Hg' Hk'.
      assert (Eh : h = h') by (apply (grp_uniq_M true false h h' k); assumption). subst h'.
      destruct (g_X h) as [|x l] eqn:EX; [apply (ko_ne S N nd Hk true h Hg EX)|].
      assert (Hx : In x (g_X h)) by (rewrite EX; left; reflexivity).
      pose proof (proj1 (ko_Xg S N nd Hk _ h x Hg Hx)). pose proof (proj1 (ko_Xg S N nd Hk _ h x Hg' Hx)). congruence.
    + destruct (fl_own h p m Hg Hd) as (r & Hr & Hb & E). unfold m'. rewrite (E (VG k) Hkk).
      destruct (bB_cell_spec S N K P U kc Sok Hk Hu h fm sr si m r p Hg) as (_ & _ & C3 & _). rewrite C3 by exact Hkk.
      destruct (fm k); [|ring]. f_equal. apply (no_gm S N K U kc Hu false h k); auto.
      intros x Hx. apply RX; [apply (grp_X S N K P Hk false h x Hg Hx)|exact Hp].
  - intros k p Hp H. apply fl_frame; [exact Hp|]. intros h Hg Hkk. apply (H false); assumption.
  - intros q s j. apply fl_framev. cbn. auto.
  - intros e j. apply fl_framev. cbn. auto.
Qed.
End BB.


(** ** Backward run *)
Definition binv (m : kmem) (g : sst S K) : Prop := rep m g /\ ssup S K P g /\ szone g /\ vnz m.

Lemma szone_sbstep c gr g : szone (sbstep S K P c gr g).
Proof.
  intros e p He Hz. cbn [me sbstep binj bhalf]. destruct (ezone_prof e p He Hz) as [E _].
  destruct (eA S e); cbn [Bool.eqb]; rewrite E; ring.
Qed.

Definition g_inc (sr : Z) (store : kQ N -> Z -> arr K) (g : sst S K) (t : Z) (k : kM N) (p : pt) : K :=
  n_gm U k (fun x => mn (bhalf S K P false ccoe g) x p) (fun q => store q (t / sr)%Z (idx shape p)) (ofZ K sr).

Lemma b_body_inv visA visB fm sr gr (m : kmem) r t g :
  Permutation (svisits S N K P (bpml_b S K P pw) (bpml_e S K P pw) true) visA ->
  Permutation (svisits S N K P (bpml_b S K P pw) (bpml_e S K P pw) false) visB ->
  binv m g ->
  let mr := b_body S N K P U visA visB fm sr gr t (m, r) in
  binv (kswap S N K (fst mr)) (sbstep S K P ccoe (gr t) g) /\
  (forall u c, In c (allC S) -> r u c = map (fun _ => 0) (sp_src P c) ->
     snd mr u c = if (u =? t)%Z then grad_f S K P ccoe g c else r u c) /\
  (forall A h k p, In h (kgrp N A) -> In k (g_M h) -> dom S K P (g_h h) p = true ->
     fst mr (VG k) (idx shape p) = m (VG k) (idx shape p) +
       (if fm k && (t mod sr =? 0)%Z then g_inc sr (fun q si => m (VQ q si)) g t k p else 0)) /\
  (forall k p, inarr p -> (forall A h, In h (kgrp N A) -> In k (g_M h) -> dom S K P (g_h h) p = false) ->
     fst mr (VG k) (idx shape p) = m (VG k) (idx shape p)) /\
  (forall q s j, fst mr (VQ q s) j = m (VQ q s) j).
Proof.
  intros HA HB (R & Ss & Sz & Vz) mr. unfold mr, b_body. cbn [fst snd].
  set (fmt := fun k => fm k && (t mod sr =? 0)%Z).
  destruct (bA_loop fmt sr (t / sr)%Z visA HA m g R Ss Sz Vz) as (A1 & A2 & A3 & A4 & A5 & A6).
  set (m1 := fold_left (bA_cell S N K P U fmt sr (t / sr)%Z) visA m) in *.
  set (g1 := bhalf S K P false ccoe g) in *.
  destruct (bB_loop fmt sr (t / sr)%Z visB HB m1 g Ss Sz A1 A2) as (B1 & B2 & B3 & B4 & B5 & B6 & B7).
  set (m2 := fold_left (bB_cell S N K P U fmt sr (t / sr)%Z) visB m1) in *.
  fold g1 in B1, B2, B4. set (g2 := bhalf S K P true ccoe g1) in *.
  set (m3 := fold_left (k_add S N K (sp_rec P) (gr t)) (allC S) m2).
  assert (E3 : forall w, (forall x, w <> VX x) -> m3 w = m2 w) by (intros; apply k_adds_other; assumption).
  split; [split; [|split; [|split]]|split; [|split; [|split]]].
  - split.
    + intros x p Hx Hp. cbn [kswap]. unfold m3. rewrite k_adds by (auto; apply incl_refl). rewrite B1 by assumption.
      unfold sbstep. cbn [mn binj]. f_equal. unfold cinC. rewrite (sumf_filter_if K Kr). reflexivity.
    + intros e p He Hp. cbn [kswap]. unfold sbstep. cbn [me binj]. fold g1 g2.
      destruct (eA S e) eqn:EA; rewrite E3 by discriminate.
      * rewrite B7. apply A3; assumption.
      * apply B2; assumption.
  - apply (ssup_sbstep S K Kr P Sok Hrec), Ss.
  - apply szone_sbstep.
  - intros e p He EA Hp Hz. cbn [kswap]. rewrite EA, E3 by discriminate. rewrite B3 by assumption.
    destruct Hz as [Hz|Hz]; [apply Ss; assumption|apply Sz; assumption].
  - intros u c Hc Hr. unfold kput. destruct (Z.eqb_spec u t) as [->|]; cbn [andb]; [|reflexivity].
    unfold grad_f. fold g1.
    assert (G : forall m', (forall x p, In x (allX S) -> cin S c x = true -> inarr p -> m' (VX x) (idx shape p) = mn g1 x p) ->
      k_rec S N K m' (sp_src P c) (r t c) c = gat S K P (sp_src P c) (chsum S K c g1)).
    { intros m' Hm. rewrite Hr.
      pose proof (k_rec_gat (sp_src P) (fun w i => match w with VX x => if cin S c x then m' w i else mn g1 x (unidx shape i)
                    | VM e => me g1 e (unidx shape i) | _ => 0 end) g1 c Hsrc) as E.
      rewrite <- E; [|split|exact Hc].
      - unfold k_rec, record_from_wavefield. apply map_ext. intros [l y]. cbn [fst snd].
        destruct (0 <=? l)%Z; [|reflexivity]. apply (sumf_ext K). intros x Hx. apply filter_In in Hx. rewrite (proj2 Hx). reflexivity.
      - intros x p Hx Hp. destruct (cin S c x) eqn:Ec; [apply Hm; assumption|]. rewrite unidx_idx by exact Hp. reflexivity.
      - intros x p Hx Hp. rewrite unidx_idx by exact Hp. reflexivity. }
    destruct (cA S c) eqn:EC; cbn [negb].
    + apply G. intros x p Hx Hcx Hp. apply A1; assumption.
    + apply G. intros x p Hx Hcx Hp. rewrite (proj1 R x p Hx Hp). unfold g1. cbn [mn bhalf].
      rewrite (ok_cin S nd Sok c x Hc Hx Hcx), EC. reflexivity.
  - intros A h k p Hg Hkk Hd. rewrite E3 by discriminate. rewrite (B4 A h), (A4 A h) by assumption.
    change (fm k && (t mod sr =? 0)%Z) with (fmt k).
    assert (EQ : n_gm U k (fun x => mn g1 x p) (fun q => m1 (VQ q (t / sr)%Z) (idx shape p)) (ofZ K sr)
                 = g_inc sr (fun q si => m (VQ q si)) g t k p).
    { unfold g_inc. fold g1. apply (no_gm S N K U kc Hu A h k); auto. }
    rewrite EQ. unfold g_inc. fold g1. destruct A, (fmt k); cbn [andb negb]; ring.
  - intros k p Hp H. rewrite E3 by discriminate. rewrite B5, A5 by assumption. reflexivity.
  - intros q s j. rewrite E3 by discriminate. rewrite B6, A6. reflexivity.
Qed.

(** Gradients of the state before step [t], when [T] steps are taken. *)
Definition Gst (gr : krec S K) (T : Z) (g0 : sst S K) (t : Z) : sst S K := sbst S K P cc gr (Z.to_nat (T - t)) t g0.
Lemma Gst_S gr T g0 t : (t < T)%Z -> Gst gr T g0 t = sbstep S K P ccoe (gr t) (Gst gr T g0 (t + 1)).
Proof.
  intros H. unfold Gst. replace (Z.to_nat (T - t)) with (Datatypes.S (Z.to_nat (T - (t + 1)))) by lia. reflexivity.
Qed.

Definition brun_inv (fm : kM N -> bool) sr gr T g0 (store : kQ N -> Z -> arr K) (sw : bool) (t : Z) (mr : kmem * krec S K) : Prop :=
  binv (if sw then kswap S N K (fst mr) else fst mr) (Gst gr T g0 t) /\
  (forall u c, In c (allC S) ->
     snd mr u c = if (t <=? u)%Z && (u <? T)%Z then grad_f S K P ccoe (Gst gr T g0 (u + 1)) c else map (fun _ => 0) (sp_src P c)) /\
  (forall A h k p, In h (kgrp N A) -> In k (g_M h) -> dom S K P (g_h h) p = true ->
     fst mr (VG k) (idx shape p) =
     sumf (zrange t T) (fun u => if fm k && (u mod sr =? 0)%Z then g_inc sr store (Gst gr T g0 (u + 1)) u k p else 0)) /\
  (forall k p, inarr p -> (forall A h, In h (kgrp N A) -> In k (g_M h) -> dom S K P (g_h h) p = false) ->
     fst mr (VG k) (idx shape p) = 0) /\
  (forall q s j, fst mr (VQ q s) j = store q s j).

Lemma brun_step visA visB fm sr gr T g0 store t m r :
  Permutation (svisits S N K P (bpml_b S K P pw) (bpml_e S K P pw) true) visA ->
  Permutation (svisits S N K P (bpml_b S K P pw) (bpml_e S K P pw) false) visB ->
  (t < T)%Z -> brun_inv fm sr gr T g0 store false (t + 1) (m, r) ->
  brun_inv fm sr gr T g0 store true t (b_body S N K P U visA visB fm sr gr t (m, r)).
Proof.
  intros HA HB Ht (I1 & I2 & I3 & I4 & I5). cbn [fst snd] in *.
  destruct (b_body_inv visA visB fm sr gr m r t (Gst gr T g0 (t + 1)) HA HB I1) as (J1 & J2 & J3 & J4 & J5).
  split; [rewrite Gst_S by exact Ht; exact J1|split; [|split; [|split]]].
  - intros u c Hc. destruct (Z.eq_dec u t) as [->|Nu].
    + rewrite J2; [rewrite Z.eqb_refl|exact Hc|].
      * replace ((t <=? t) && (t <? T))%Z with true by (symmetry; rewrite andb_true_iff, Z.leb_le, Z.ltb_lt; lia). reflexivity.
      * rewrite I2 by exact Hc. replace ((t + 1 <=? t) && (t <? T))%Z with false; [reflexivity|].
        symmetry. apply not_true_iff_false. rewrite andb_true_iff, Z.leb_le. lia.
    + assert (E : snd (b_body S N K P U visA visB fm sr gr t (m, r)) u c = r u c).
      { unfold b_body, kput. cbn [snd]. destruct (Z.eqb_spec u t); [contradiction|reflexivity]. }
      rewrite E, I2 by exact Hc.
      replace (t + 1 <=? u)%Z with (t <=? u)%Z; [reflexivity|]. apply eq_true_iff_eq. rewrite !Z.leb_le. lia.
  - intros A h k p Hg Hkk Hd. rewrite (J3 A h), (I3 A h) by assumption. rewrite (zrange_cons t T) by exact Ht. cbn [sumf].
    assert (E : g_inc sr (fun q si => m (VQ q si)) (Gst gr T g0 (t + 1)) t k p = g_inc sr store (Gst gr T g0 (t + 1)) t k p).
    { unfold g_inc. apply (no_gm S N K U kc Hu A h k); auto. }
    rewrite E. ring.
  - intros k p Hp H. rewrite J4 by assumption. apply I4; assumption.
  - intros q s j. rewrite J5. apply I5.
Qed.

Lemma brun_swap fm sr gr T g0 store t m r : brun_inv fm sr gr T g0 store true t (m, r) ->
  brun_inv fm sr gr T g0 store false t (mswap S N K (m, r)).
Proof. intros (I1 & I2 & I3 & I4 & I5). split; [exact I1|split; [exact I2|split; [exact I3|split; [exact I4|exact I5]]]]. Qed.

(** One call of the backward kernel, starting after step [s0 - 1]. *)
Lemma brun_kernel visA visB fm sr gr T g0 store s0 n mr :
  Permutation (svisits S N K P (bpml_b S K P pw) (bpml_e S K P pw) true) visA ->
  Permutation (svisits S N K P (bpml_b S K P pw) (bpml_e S K P pw) false) visB ->
  (s0 <= T)%Z -> brun_inv fm sr gr T g0 store false s0 mr ->
  brun_inv fm sr gr T g0 store (Z.odd (Z.of_nat n)) (s0 - Z.of_nat n)
    (k_backward S N K P U visA visB fm sr gr (Z.of_nat n) s0 mr).
Proof.
  intros HA HB Hs H0. unfold k_backward. induction n as [|n IH].
  - rewrite Z.sub_0_r, zrange_nil by lia. exact H0.
  - rewrite (zrange_cons (s0 - Z.of_nat (Datatypes.S n))) by lia.
    replace (s0 - Z.of_nat (Datatypes.S n) + 1)%Z with (s0 - Z.of_nat n)%Z by lia.
    cbn [rev]. rewrite fold_left_app. cbn [fold_left].
    destruct (fold_left (b_t S N K P U visA visB fm sr gr s0) (rev (zrange (s0 - Z.of_nat n) s0)) mr) as [m r].
    set (t := (s0 - Z.of_nat (Datatypes.S n))%Z). replace (s0 - Z.of_nat n)%Z with (t + 1)%Z in IH by (unfold t; lia).
    unfold b_t. replace (s0 - 1 - t)%Z with (Z.of_nat n) by (unfold t; lia).
    replace (Z.of_nat (Datatypes.S n)) with (Z.succ (Z.of_nat n)) by lia. rewrite Z.odd_succ, <- Z.negb_odd.
    destruct (Z.odd (Z.of_nat n)); cbn [negb].
    + apply brun_swap in IH.
      pose proof (brun_step visA visB fm sr gr T g0 store t _ _ HA HB ltac:(unfold t; lia) IH) as J.
      change (mswap S N K (m, r)) with (kswap S N K m, r).
      cbn [mswap fst snd] in J.
      destruct (b_body S N K P U visA visB fm sr gr t (kswap S N K m, r)) as [m' r'] eqn:EB.
      apply brun_swap in J. exact J.
    + apply brun_step; auto. unfold t. lia.
Qed.

Lemma brun_chunk visA visB fm sr gr T g0 store cf s mr :
  Permutation (svisits S N K P (bpml_b S K P pw) (bpml_e S K P pw) true) visA ->
  Permutation (svisits S N K P (bpml_b S K P pw) (bpml_e S K P pw) false) visB ->
  (0 < sr)%Z -> (0 < cf)%Z -> (0 <= s)%Z -> (s * sr <= T)%Z -> brun_inv fm sr gr T g0 store false (s * sr) mr ->
  brun_inv fm sr gr T g0 store false ((s - Z.min s cf) * sr) (b_chunk S N K P U visA visB fm sr gr cf mr s).
Proof.
  intros HA HB Hsr Hcf Hs HT I0. unfold b_chunk.
  pose proof (brun_kernel visA visB fm sr gr T g0 store (s * sr)%Z (Z.to_nat (Z.min s cf * sr)) mr HA HB HT I0) as I.
  rewrite Z2Nat.id in I by nia. replace (s * sr - Z.min s cf * sr)%Z with ((s - Z.min s cf) * sr)%Z in I by ring.
  rewrite Zmod_odd. destruct (Z.odd (Z.min s cf * sr)).
  - destruct (k_backward S N K P U visA visB fm sr gr (Z.min s cf * sr) (s * sr) mr) as [m' r'].
    apply brun_swap in I. exact I.
  - exact I.
Qed.

Lemma brun_chunks visA visB fm sr gr g0 store n cf mr :
  Permutation (svisits S N K P (bpml_b S K P pw) (bpml_e S K P pw) true) visA ->
  Permutation (svisits S N K P (bpml_b S K P pw) (bpml_e S K P pw) false) visB ->
  (0 < sr)%Z -> (0 < cf)%Z -> (0 <= n)%Z -> brun_inv fm sr gr (n * sr) g0 store false (n * sr) mr ->
  brun_inv fm sr gr (n * sr) g0 store false 0 (fold_left (b_chunk S N K P U visA visB fm sr gr cf) (range_down n cf) mr).
Proof.
  intros HA HB Hsr Hcf Hn I0. unfold range_down.
  assert (G : forall k i mr, (k = Z.to_nat ((n + cf - 1) / cf - i))%nat -> (0 <= i <= (n + cf - 1) / cf)%Z ->
    brun_inv fm sr gr (n * sr) g0 store false (Z.max (n - i * cf) 0 * sr) mr ->
    brun_inv fm sr gr (n * sr) g0 store false 0
      (fold_left (b_chunk S N K P U visA visB fm sr gr cf) (map (fun i => n - i * cf)%Z (zrange i ((n + cf - 1) / cf))) mr)).
  { induction k as [|k IH]; intros i mr1 Hkk Hi I1.
    - rewrite (zrange_nil i) by lia. cbn [map fold_left].
      assert (i = (n + cf - 1) / cf)%Z by lia. subst i.
      replace (Z.max (n - (n + cf - 1) / cf * cf) 0 * sr)%Z with 0%Z in I1; [exact I1|].
      pose proof (Z.div_mod (n + cf - 1) cf). pose proof (Z.mod_pos_bound (n + cf - 1) cf Hcf). nia.
    - assert (Hi2 : (i * cf < n)%Z).
      { assert (i + 1 <= (n + cf - 1) / cf)%Z by lia.
        pose proof (Z.div_mod (n + cf - 1) cf). pose proof (Z.mod_pos_bound (n + cf - 1) cf Hcf). nia. }
      rewrite zrange_cons by lia. cbn [map fold_left]. apply IH; [lia|lia|].
      rewrite (Z.max_l (n - i * cf)) in I1 by lia.
      replace (Z.max (n - (i + 1) * cf) 0)%Z with (n - i * cf - Z.min (n - i * cf) cf)%Z by nia.
      apply brun_chunk; auto; nia. }
  apply (G (Z.to_nat ((n + cf - 1) / cf)) 0%Z).
  - f_equal. lia.
  - split; [lia|]. apply Z.div_pos; lia.
  - rewrite Z.max_l by lia. rewrite Z.mul_0_l, Z.sub_0_r. exact I0.
Qed.

Lemma k_bwd_spec visA visB fm sr gr nt cb store g :
  Permutation (svisits S N K P (bpml_b S K P pw) (bpml_e S K P pw) true) visA ->
  Permutation (svisits S N K P (bpml_b S K P pw) (bpml_e S K P pw) false) visB ->
  nt_ok nt sr cb ->
  let T := nsteps nt sr in
  exists g' r' gm', k_bwd S N K P U pw visA visB fm sr gr nt cb store g = Some (g', r', gm') /\
    sseq S K g' (Gst gr T (sinit g) 0) /\
    (forall t c, In c (allC S) ->
       r' t c = if (0 <=? t)%Z && (t <? T)%Z then grad_f S K P ccoe (Gst gr T (sinit g) (t + 1)) c else map (fun _ => 0) (sp_src P c)) /\
    (forall A h k p, In h (kgrp N A) -> In k (g_M h) -> dom S K P (g_h h) p = true ->
       gm' k (idx shape p) =
       sumf (zrange 0 T) (fun u => if fm k && (u mod sr =? 0)%Z then g_inc sr store (Gst gr T (sinit g) (u + 1)) u k p else 0)) /\
    (forall k p, inarr p -> (forall A h, In h (kgrp N A) -> In k (g_M h) -> dom S K P (g_h h) p = false) ->
       gm' k (idx shape p) = 0).
Proof.
  intros HA HB Hnt T. pose proof Hnt as (Hs & Hn & Hc).
  set (mr0 := (k_init S N K P pw store g, k_rec0 S K (sp_src P))).
  assert (I0 : brun_inv fm sr gr T (sinit g) store false T mr0).
  { split; [split; [|split; [|split]]|split; [|split; [|split]]].
    - unfold Gst. rewrite Z.sub_diag. apply rep_init.
    - unfold Gst. rewrite Z.sub_diag. apply ssup_sinit.
    - unfold Gst. rewrite Z.sub_diag. apply szone_sinit.
    - intros e p _ _ _ _. reflexivity.
    - intros t c Hcc. cbn [snd mr0]. replace ((T <=? t) && (t <? T))%Z with false; [reflexivity|].
      symmetry. apply not_true_iff_false. rewrite andb_true_iff, Z.leb_le, Z.ltb_lt. lia.
    - intros A h k p _ _ _. rewrite zrange_nil by lia. reflexivity.
    - reflexivity.
    - reflexivity. }
  assert (E : exists mr, k_bwd S N K P U pw visA visB fm sr gr nt cb store g
              = Some (k_out S N K P (fst mr), snd mr, fun k => fst mr (VG k)) /\ brun_inv fm sr gr T (sinit g) store false 0 mr).
  { unfold k_bwd. fold mr0. destruct (Z.leb_spec nt 0) as [Hle|Hlt].
    - assert (nt = 0%Z) by lia. subst nt. exists mr0. split; [reflexivity|].
      unfold T, nsteps in *. rewrite Z.div_0_l in * by lia. exact I0.
    - pose proof (k_cf_pos nt sr cb Hnt Hlt) as Hcf. destruct (Z.eqb_spec (k_cf nt sr cb) 0); [lia|].
      eexists. split; [reflexivity|].
      exact (brun_chunks visA visB fm sr gr (sinit g) store (nt / sr) (k_cf nt sr cb) mr0 HA HB Hs Hcf
                    (Z.div_pos _ _ Hn Hs) I0). }
  destruct E as (mr & E & (R & Ss & Sz & _) & I2 & I3 & I4 & _).
  exists (k_out S N K P (fst mr)), (snd mr), (fun k => fst mr (VG k)). split; [exact E|]. split; [|split; [|split]].
  - apply k_out_rep; assumption.
  - exact I2.
  - intros A h k p Hg Hkk Hd. apply (I3 A h); assumption.
  - intros k p Hp H. apply I4; assumption.
Qed.

End Refine.
