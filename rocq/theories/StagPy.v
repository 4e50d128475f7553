(** * Python backends of the staggered-grid propagators: common part.

    [staggered_grid.py] derivatives on whole arrays and the time loop shared by [acoustic_python]
    (acoustic.py:1341-1561) and [elastic_python] (elastic.py:2142-2740), for one shot and without [vmap];
    the array updates themselves are parameters, given in [AcousticPy.v] and [ElasticPy.v]. *)
From Coq Require Import List ZArith QArith Lia Bool Permutation.
From Verif Require Import Ops Sums Grid Stencil DualNum ScalarModel ScalarRefine ScalarForward ScalarAdjoint ScalarApi
  Stag StagAdj StagKernel StagCell StagRefine.
Import ListNotations.
Local Open Scope K_scope.

(** Coefficients written in staggered_grid.py:94-309. *)
Definition py_coefs (a : acc) : list Q :=
  match a with
  | A2 => [1#1]
  | A4 => [9#8; -1#24]
  | A6 => [75#64; -25#384; 3#640]
  | A8 => [1225#1024; -245#3072; 49#5120; -5#7168]
  end%Q.

Section Model.
Variable S : sys.
Variable K : ops.
Variable P : spar S K.
Notation shape := (sp_shape P).
Notation fd := (fd_pad (sp_acc P)).
Notation n_ d := (nth d shape 0%Z).

(** [diff1] (integer positions, result padded by [fd], [fd - 1]) and [diff1h] (half positions, padded by [fd],
    [fd]): staggered_grid.py:94-331. *)
Definition py_sfits (h : bool) (d : nat) (p : pt) : bool :=
  (fd <=? coord d p)%Z && (coord d p <? n_ d - (if h then fd else fd - 1))%Z.
Definition py_sdiff (h : bool) (d : nat) (f : field K) : field K := fun p =>
  if py_sfits h d p then
    (if h then st_half (py_coefs (sp_acc P)) 1 (fun k => f (shift d k p)) * sp_rd P d
     else st_int (py_coefs (sp_acc P)) 1 (fun k => f (shift d k p)) * sp_rd P d)
  else 0.

(** Flattened arrays, masked [scatter_add] (ignored entries add 0 to index 0) and [gather]
    (acoustic.py:1413-1441, 1499-1556; elastic.py:2424-2450, 2527-2660). *)
Definition sp_flat (f : field K) : arr K := fun i => f (unidx shape i).
Definition sp_scatter (locs : list Z) (amps : list K) (f : field K) : field K := fun p =>
  if inb (abox shape) p
  then fold_left (fun m la => upd m (fst la) (m (fst la) + snd la))
         (map (fun la => (py_masked (fst la), if (fst la =? IGNORE)%Z then 0 else snd la)) (combine locs amps))
         (sp_flat f) (idx shape p)
  else f p.
Definition sp_gather (locs : list Z) (f : field K) : list K := map (fun l => sp_flat f (py_masked l)) locs.
(** [masked_fill_(~recv_mask, 0)] (acoustic.py:1555-1557); [elastic_python] computes the masked amplitudes but
    returns the unmasked ones (elastic.py:2650-2657, 2728-2731): [msk] false. *)
Definition sp_mask (locs : list Z) (a : list K) : list K :=
  map (fun la => if (fst la =? IGNORE)%Z then 0 else snd la) (combine locs a).
Definition sp_fin (msk : bool) (locs : list Z) (a : list K) : list K := if msk then sp_mask locs a else a.

(** Sources of phase [A]. *)
Definition sp_inj (A : bool) (f : sC S -> list K) (s : sst S K) : sst S K :=
  mksst (fun x => fold_left (fun g c => sp_scatter (sp_src P c) (f c) g)
                            (filter (fun c => Bool.eqb (cA S c) A && cin S c x) (allC S)) (mn s x))
        (me s).

(** One step: record, update, inject, update, inject (acoustic.py:1478-1549, elastic.py:2529-2640);
    [updA], [updB]: the two update functions. *)
Definition sp_body (updA updB : sst S K -> sst S K) (f : krec S K) (sr : sst S K * krec S K) (t : Z) : sst S K * krec S K :=
  let '(s, r) := sr in
  let r' := fun u c => if (u =? t)%Z then sp_gather (sp_rec P c) (fun p => sumf (cinX S c) (fun x => mn s x p)) else r u c in
  (sp_inj false (f t) (updB (sp_inj true (f t) (updA s))), r').

(** Both loops (acoustic.py:1461-1479, elastic.py:2489-2529), receiver rows zero at the start and (if [msk]) masked at the end;
    [init]: [create_or_pad] and [zero_edges_and_interiors] as for the compiled backend; the result is cropped. *)
Variable pw : nat -> Z * Z.
Definition sp_init (u : sst S K) : sst S K :=
  mksst (fun x p => if crop S K P p then (if edge S K P (xh S x) p then 0 else mn u x p) else 0)
        (fun e p => if crop S K P p then (if edge S K P (eh S e) p || ezone S K P pw e p then 0 else me u e p) else 0).
Definition sp_python (msk : bool) (updA updB : sst S K -> sst S K) (sr : Z) (f : krec S K) (nt : Z) (u : sst S K) : sst S K * krec S K :=
  let r0 : krec S K := fun _ c => map (fun _ => 0) (sp_rec P c) in
  let '(s, r) := fold_left (fun acc step => fold_left (fun acc inner => sp_body updA updB f acc (step * sr + inner)%Z) (zrange 0 sr) acc)
                   (zrange 0 (nt / sr)) (sp_init u, r0) in
  (mksst (fun x p => if crop S K P p then mn s x p else 0) (fun e p => if crop S K P p then me s e p else 0),
   fun t c => sp_fin msk (sp_rec P c) (r t c)).
End Model.

(** Ignored locations are marked with [IGNORE_LOCATION] (C19). *)
Definition ign_ok (S : sys) (L : sC S -> list Z) : Prop :=
  forall c, In c (allC S) -> Forall (fun l => l = IGNORE \/ (0 <= l)%Z) (L c).

Section Thm.
Variable S : sys.
Variable K : ops.
Hypothesis Kr : is_ring K.
Add Ring KRing : Kr.
Variable P : spar S K.
Variable pw : nat -> Z * Z.
Notation shape := (sp_shape P).
Notation fd := (fd_pad (sp_acc P)).
Notation nd := (length shape).
Notation n_ d := (nth d shape 0%Z).
Notation inarr p := (inb (abox shape) p = true).
Hypothesis Sok : sys_ok S nd.
Hypothesis Hsrc : locs_ok S K P (sp_src P).
Hypothesis Hrec : locs_ok S K P (sp_rec P).
Hypothesis Isrc : ign_ok S (sp_src P).
Hypothesis Irec : ign_ok S (sp_rec P).
Hypothesis Hgeo : sgeom S K P pw.

(** The first cell of an array lies in the padding. *)
Lemma first_cell : (0 < nd)%nat -> inarr (unidx shape 0) /\ forall h, dom S K P h (unidx shape 0) = false.
Proof.
  intros H. assert (Hp : Forall (fun n => 0 < n)%Z shape).
  { apply Forall_forall. intros n Hn. apply In_nth with (d := 0%Z) in Hn. destruct Hn as (d & Hd & <-).
    pose proof (sg_dims S K P pw Hgeo d Hd). pose proof (fd_pad_pos (sp_acc P)). lia. }
  assert (Hpr : forall l, Forall (fun n => 0 < n)%Z l -> (0 < prodZ l)%Z).
  { induction 1; cbn; lia. }
  split; [apply unidx_in_array; [exact Hp|]; specialize (Hpr _ Hp); lia|].
  intros h. destruct (dom S K P h (unidx shape 0)) eqn:E; [|reflexivity]. exfalso. rewrite dom_spec in E. destruct E as [_ D].
  specialize (D 0%nat H). pose proof (fd_pad_pos (sp_acc P)). revert D H. unfold coord. destruct shape as [|n l]; cbn [length unidx nth]; [lia|].
  intros D _. cbn in D. lia.
Qed.

Variable msk : bool.
Hypothesis Hmsk : msk = true \/ (0 < nd)%nat.

Lemma SDIFF1_zero a rd (g : Z -> K) : (forall j, g j = 0) -> SDIFF1 a rd g = 0.
Proof.
  intros H. rewrite (SDIFF1_ext K a rd g (fun j => 0 * g j)) by (intros; rewrite H; ring).
  rewrite (SDIFF1_scal K Kr). ring.
Qed.
Lemma SDIFFH1_zero a rd (g : Z -> K) : (forall j, g j = 0) -> SDIFFH1 a rd g = 0.
Proof.
  intros H. rewrite (SDIFFH1_ext K a rd g (fun j => 0 * g j)) by (intros; rewrite H; ring).
  rewrite (SDIFFH1_scal K Kr). ring.
Qed.

Lemma py_sdiff_der e (f g : field K) p : In e (allE S) -> fsup S K P (xh S (esrc S e)) g ->
  (forall q, inarr q -> f q = g q) -> inarr p ->
  py_sdiff S K P (eh S e (edim S e)) (edim S e) f p = dmask S K P (eh S e) (der S K P e g) p.
Proof.
  intros He Hs Hfg Hp. pose proof (ok_dim S nd Sok e He) as Hd.
  assert (EC : py_coefs (sp_acc P) = coefs (sp_acc P)) by (destruct (sp_acc P); reflexivity).
  unfold py_sdiff. rewrite EC. fold (SDIFFH1 (sp_acc P) (sp_rd P (edim S e)) (fun k => f (shift (edim S e) k p))).
  fold (SDIFF1 (sp_acc P) (sp_rd P (edim S e)) (fun k => f (shift (edim S e) k p))).
  pose proof (fd_pad_pos (sp_acc P)) as Hfd.
  destruct (py_sfits S K P (eh S e (edim S e)) (edim S e) p) eqn:Hf; unfold dmask.
  - unfold py_sfits in Hf. rewrite andb_true_iff, Z.leb_le, Z.ltb_lt in Hf.
    assert (Hsh : forall k, (if eh S e (edim S e) then (1 - fd <= k <= fd)%Z else (- fd <= k <= fd - 1)%Z) -> inarr (shift (edim S e) k p)).
    { intros k Hk. apply inb_abox in Hp. destruct Hp as [L D]. apply inb_abox. split; [rewrite shift_length; exact L|].
      intros d' Hd'. destruct (Nat.eq_dec d' (edim S e)) as [->|Ne].
      - rewrite coord_shift_same by lia. destruct (eh S e (edim S e)); lia.
      - rewrite coord_shift_other by auto. apply D. exact Hd'. }
    transitivity (der S K P e g p).
    { unfold der, SDH1, SD1. destruct (eh S e (edim S e)); [apply SDIFFH1_ext|apply SDIFF1_ext]; intros j Hj; apply Hfg, Hsh, Hj. }
    destruct (dom S K P (eh S e) p) eqn:Hdom; [reflexivity|].
    assert (Z : forall k, g (shift (edim S e) k p) = 0).
    { intros k. apply Hs. destruct (dom S K P (xh S (esrc S e)) (shift (edim S e) k p)) eqn:E; [|reflexivity].
      exfalso. rewrite dom_spec in E. destruct E as [L D]. rewrite shift_length in L.
      assert (dom S K P (eh S e) p = true); [|congruence]. rewrite dom_spec. split; [exact L|].
      intros d' Hd'. specialize (D d' Hd'). destruct (Nat.eq_dec d' (edim S e)) as [->|Ne].
      - destruct (eh S e (edim S e)); lia.
      - rewrite coord_shift_other in D by auto. rewrite (ok_same S nd Sok e d' He Hd' Ne) in D. exact D. }
    unfold der, SDH1, SD1. destruct (eh S e (edim S e)); [apply SDIFFH1_zero|apply SDIFF1_zero]; exact Z.
  - destruct (dom S K P (eh S e) p) eqn:Hdom; [|reflexivity]. exfalso.
    rewrite dom_spec in Hdom. destruct Hdom as [_ D]. specialize (D _ Hd).
    assert (py_sfits S K P (eh S e (edim S e)) (edim S e) p = true); [|congruence].
    unfold py_sfits. rewrite andb_true_iff, Z.leb_le, Z.ltb_lt. destruct (eh S e (edim S e)); lia.
Qed.

(** Arrays of the Python backend and central states. *)
Definition pyrel (s c : sst S K) : Prop :=
  ssup S K P c /\
  (forall x p, In x (allX S) -> inarr p -> mn s x p = mn c x p) /\
  (forall e p, In e (allE S) -> inarr p -> me s e p = me c e p).

(** Specification of an update function: whole-array formulas. *)
Definition upd_ok (c : coe S K) (A : bool) (up : sst S K -> sst S K) : Prop :=
  forall s,
  (forall x p, In x (allX S) -> inarr p -> mn (up s) x p =
     if Bool.eqb (xA S x) A
     then mn s x p + sumf (incE S x) (fun e => c x e p *
            (py_sdiff S K P (eh S e (edim S e)) (edim S e) (mn s (esrc S e)) p + me (up s) e p))
     else mn s x p) /\
  (forall e p, In e (allE S) -> inarr p -> me (up s) e p =
     if Bool.eqb (eA S e) A
     then eb S K P e p * py_sdiff S K P (eh S e (edim S e)) (edim S e) (mn s (esrc S e)) p + ea S K P e p * me s e p
     else me s e p).

Lemma sp_scatter_srcf c amps (g : field K) p : In c (allC S) -> inarr p ->
  sp_scatter S K P (sp_src P c) amps g p = g p + srcf S K P (sp_src P c) amps p.
Proof.
  intros Hc Hp. unfold sp_scatter. rewrite Hp.
  assert (G : forall ls am (m m' : arr K), Forall (fun l => l = IGNORE \/ (0 <= l)%Z) ls -> (forall i, m i = m' i) -> forall i,
    fold_left (fun m la => upd m (fst la) (m (fst la) + snd la))
       (map (fun la => (py_masked (fst la), if (fst la =? IGNORE)%Z then 0 else snd la)) (combine ls am)) m i
    = add_to_wavefield K m' ls am i).
  { unfold add_to_wavefield. induction ls as [|l ls IH]; intros am m m' HF Hm i; [cbn; apply Hm|].
    destruct am as [|x am]; [cbn; apply Hm|]. inversion HF as [|? ? Hl1 Hl2]; subst.
    cbn [combine map fold_left fst snd]. apply IH; [exact Hl2|]. intros j.
    destruct Hl1 as [->|H1].
    - unfold upd, py_masked. rewrite Z.eqb_refl. change (0 <=? IGNORE)%Z with false. cbv iota.
      destruct (j =? 0)%Z eqn:E; [apply Z.eqb_eq in E; subst; rewrite Hm; ring|apply Hm].
    - unfold py_masked. destruct (Z.eqb_spec l IGNORE); [unfold IGNORE in *; lia|].
      destruct (Z.leb_spec 0 l); [|lia]. unfold upd. destruct (j =? l)%Z; rewrite ?Hm; reflexivity. }
  rewrite (G _ _ _ (sp_flat S K P g)) by (apply Isrc, Hc || reflexivity).
  rewrite (add_srcf S K Kr P c) by (assumption || apply Hsrc, Hc).
  unfold sp_flat. rewrite unidx_idx by exact Hp. reflexivity.
Qed.

Lemma sp_scatters cs f (g : field K) p : incl cs (allC S) -> inarr p ->
  fold_left (fun g c => sp_scatter S K P (sp_src P c) (f c) g) cs g p = g p + sumf cs (fun c => srcf S K P (sp_src P c) (f c) p).
Proof.
  intros Hi Hp. revert g Hi. induction cs as [|c cs IH]; intros g Hi; cbn [fold_left sumf]; [ring|].
  rewrite IH by (intros z Hz; apply Hi; right; exact Hz).
  rewrite sp_scatter_srcf by (exact Hp || (apply Hi; left; reflexivity)). ring.
Qed.

Lemma py_half c A up f s s0 : upd_ok c A up -> pyrel s s0 -> pyrel (sp_inj S K P A f (up s)) (hstep S K P A c f s0).
Proof.
  intros Hup (Ss & RX & RE). destruct (Hup s) as [HX HE].
  assert (DE : forall e p, In e (allE S) -> inarr p ->
    py_sdiff S K P (eh S e (edim S e)) (edim S e) (mn s (esrc S e)) p = dmask S K P (eh S e) (der S K P e (mn s0 (esrc S e))) p).
  { intros e p He Hp. pose proof (ok_srcin S nd Sok e He) as Hx. apply py_sdiff_der; auto. apply Ss, Hx. }
  assert (ME : forall e p, In e (allE S) -> inarr p -> eA S e = A -> me (up s) e p = nmem S K P s0 e p).
  { intros e p He Hp EA. rewrite HE by assumption. rewrite EA, eqb_reflx, DE, RE by assumption. unfold nmem, dmask.
    destruct (dom S K P (eh S e) p) eqn:Hd; [reflexivity|]. rewrite (proj2 Ss e He p Hd). ring. }
  split; [apply (ssup_hstep S K Kr P Hsrc), Ss|]. split.
  - intros x p Hx Hp. cbn [mn sp_inj hstep]. rewrite sp_scatters by (exact Hp || (intros z Hz; apply filter_In in Hz; apply Hz)).
    rewrite HX by assumption. destruct (Bool.eqb (xA S x) A) eqn:EA.
    + unfold injs, cinC. apply f_equal2.
      * unfold dmask. destruct (dom S K P (xh S x) p) eqn:Hd.
        -- rewrite RX by assumption. apply f_equal. apply (sumf_ext K). intros e He. apply filter_In in He. destruct He as [He Hi].
           destruct (ok_inc S nd Sok x e Hx He Hi) as [E1 E2]. apply eqb_prop in EA. rewrite (ME e p) by congruence || assumption.
           unfold term. rewrite DE by assumption. unfold dmask at 1.
           rewrite <- (dom_ext S K P _ _ p E2), Hd. reflexivity.
        -- rewrite RX by assumption. rewrite (proj1 Ss x Hx p Hd). rewrite (sumf_zero K Kr); [ring|].
           intros e He. apply filter_In in He. destruct He as [He Hi].
           destruct (ok_inc S nd Sok x e Hx He Hi) as [E1 E2]. apply eqb_prop in EA. rewrite (ME e p) by congruence || assumption.
           rewrite DE by assumption. unfold nmem, dmask. rewrite <- (dom_ext S K P _ _ p E2), Hd. ring.
      * rewrite !(sumf_filter_if K Kr). apply (sumf_ext K). intros ch Hch.
        destruct (cin S ch x) eqn:Ec; [|rewrite andb_false_r; reflexivity].
        rewrite <- (ok_cin S nd Sok ch x Hch Hx Ec), EA. reflexivity.
    + rewrite RX by assumption. rewrite (sumf_filter_if K Kr), (sumf_zero K Kr); [ring|]. intros ch Hch.
      destruct (cin S ch x) eqn:Ec; [|rewrite andb_false_r; reflexivity].
      rewrite <- (ok_cin S nd Sok ch x Hch Hx Ec), EA. reflexivity.
  - intros e p He Hp. cbn [me sp_inj hstep]. destruct (Bool.eqb (eA S e) A) eqn:EA.
    + apply ME; auto. apply eqb_prop. exact EA.
    + rewrite HE by assumption. rewrite EA. apply RE; assumption.
Qed.

Lemma sp_gather_gat s s0 c : pyrel s s0 -> In c (allC S) ->
  sp_fin K msk (sp_rec P c) (sp_gather S K P (sp_rec P c) (fun p => sumf (cinX S c) (fun x => mn s x p)))
  = srec S K P c s0.
Proof.
  intros (Ss & RX & _) Hc. unfold srec, gat, sp_gather.
  assert (Emsk : forall L, sp_fin K msk L (map (fun l => sp_flat S K P (fun p => sumf (cinX S c) (fun x => mn s x p)) (py_masked l)) L)
    = map (fun l => if msk && (l =? IGNORE)%Z then 0 else sp_flat S K P (fun p => sumf (cinX S c) (fun x => mn s x p)) (py_masked l)) L).
  { unfold sp_fin, sp_mask. destruct msk; cbn [andb]; [|reflexivity]. induction L as [|l L IH]; [reflexivity|].
    cbn [map combine fst snd]. rewrite IH. reflexivity. }
  rewrite Emsk. clear Emsk.
  pose proof (Hrec c Hc) as HL. pose proof (Irec c Hc) as HI. induction HL as [|l ls Hl1 Hl2 IH]; [reflexivity|].
  inversion HI as [|? ? HI1 HI2]; subst. cbn [map]. rewrite IH by exact HI2. f_equal.
  destruct HI1 as [->|H0].
  { rewrite Z.eqb_refl, andb_true_r. change (0 <=? IGNORE)%Z with false. cbv iota. pose proof Hmsk as HM. destruct msk; [reflexivity|].
    destruct HM as [E|Hnd]; [discriminate|]. destruct (first_cell Hnd) as [F1 F2]. unfold py_masked. rewrite Z.eqb_refl. unfold sp_flat.
    apply (sumf_zero K Kr). intros x Hx. unfold cinX in Hx. apply filter_In in Hx. destruct Hx as [Hx _].
    rewrite RX by assumption. apply Ss; [exact Hx|]. apply F2. }
  destruct (Z.eqb_spec l IGNORE) as [E|E]; [unfold IGNORE in E; lia|]. destruct (Z.leb_spec 0 l); [|lia].
  rewrite andb_false_r.
  destruct Hl1 as [Hl1|(q & Eq & Hq & _)]; [lia|]. unfold py_masked. destruct (Z.eqb_spec l IGNORE); [congruence|].
  unfold sp_flat. rewrite Eq, unidx_idx by exact Hq. unfold chsum.
  apply (sumf_ext K). intros x Hx. unfold cinX in Hx. apply filter_In in Hx. apply RX; tauto.
Qed.

Variable kc : sX S -> sE S -> arr K.
Notation cc := (ccoe S K P kc).
Variable upA upB : sst S K -> sst S K.
Hypothesis HupA : upd_ok cc true upA.
Hypothesis HupB : upd_ok cc false upB.

Definition pyinv (f : krec S K) (s0 : sst S K) (t : Z) (sr : sst S K * krec S K) : Prop :=
  pyrel (fst sr) (Fst S K P kc f s0 t) /\
  forall u c, In c (allC S) -> sp_fin K msk (sp_rec P c) (snd sr u c) =
    if (0 <=? u)%Z && (u <? t)%Z then srec S K P c (Fst S K P kc f s0 u) else map (fun _ => 0) (sp_rec P c).

Lemma pyinv_step f s0 t sr : (0 <= t)%Z -> pyinv f s0 t sr -> pyinv f s0 (t + 1) (sp_body S K P upA upB f sr t).
Proof.
  intros Ht [R W]. destruct sr as [s r]. cbn [fst snd] in R, W. unfold sp_body, pyinv. cbn [fst snd]. split.
  - rewrite Fst_S by exact Ht. unfold sstep. apply py_half; [exact HupB|]. apply py_half; [exact HupA|exact R].
  - intros u c Hc. destruct (Z.eqb_spec u t) as [->|Ne].
    + rewrite (sp_gather_gat _ _ _ R Hc). destruct (Z.leb_spec 0 t); [|lia]. destruct (Z.ltb_spec t (t + 1)); [reflexivity|lia].
    + rewrite W by exact Hc. destruct (Z.leb_spec 0 u); [|reflexivity]. cbn [andb].
      destruct (Z.ltb_spec u t), (Z.ltb_spec u (t + 1)); try lia; reflexivity.
Qed.

Lemma pyinv_range f s0 t n sr : (0 <= t)%Z -> (0 <= n)%Z -> pyinv f s0 t sr ->
  pyinv f s0 (t + n) (fold_left (fun acc i => sp_body S K P upA upB f acc (t + i)%Z) (zrange 0 n) sr).
Proof.
  intros Ht Hn. pattern n. apply natlike_ind; [| |exact Hn].
  - intros H. rewrite Z.add_0_r. exact H.
  - intros m Hm IH H. specialize (IH H). unfold Z.succ. rewrite (zrange_snoc 0 (m + 1)) by lia. rewrite fold_left_app.
    replace (m + 1 - 1)%Z with m by ring. cbn [fold_left]. replace (t + (m + 1))%Z with (t + m + 1)%Z by ring.
    apply pyinv_step; [lia|exact IH].
Qed.
Lemma pyinv_outer f s0 sr n a : (0 < sr)%Z -> (0 <= n)%Z -> pyinv f s0 0 a ->
  pyinv f s0 (n * sr) (fold_left (fun acc step => fold_left (fun acc inner => sp_body S K P upA upB f acc (step * sr + inner)%Z) (zrange 0 sr) acc)
    (zrange 0 n) a).
Proof.
  intros Hs Hn. pattern n. apply natlike_ind; [| |exact Hn].
  - intros H. exact H.
  - intros m Hm IH H. specialize (IH H). unfold Z.succ. rewrite (zrange_snoc 0 (m + 1)) by lia. rewrite fold_left_app.
    replace (m + 1 - 1)%Z with m by ring. cbn [fold_left]. replace ((m + 1) * sr)%Z with (m * sr + sr)%Z by ring.
    apply pyinv_range; [nia|lia|exact IH].
Qed.

Lemma sp_init_sinit u : sseq S K (sp_init S K P pw u) (sinit S K P pw u).
Proof.
  split; intros x p Hx; cbn [sp_init sinit mn me]; rewrite crop_edge; destruct (crop S K P p); cbn [andb negb]; auto;
    destruct (edge S K P _ p); cbn [andb orb negb]; auto.
  destruct (ezone S K P pw x p); reflexivity.
Qed.

(** The Python backend runs the central steps. *)
Lemma sp_python_spec sr f nt u : (0 < sr)%Z -> (0 <= nt)%Z ->
  let '(u', r') := sp_python S K P pw msk upA upB sr f nt u in
  sseq S K u' (Fst S K P kc f (sinit S K P pw u) (nsteps nt sr)) /\
  (forall t c, In c (allC S) -> r' t c =
     if (0 <=? t)%Z && (t <? nsteps nt sr)%Z then srec S K P c (Fst S K P kc f (sinit S K P pw u) t) else map (fun _ => 0) (sp_rec P c)).
Proof.
  intros Hs Hn. unfold sp_python.
  assert (I0 : pyinv f (sinit S K P pw u) 0 (sp_init S K P pw u, fun _ c => map (fun _ => 0) (sp_rec P c))).
  { split; cbn [fst snd].
    - destruct (sp_init_sinit u) as [EX EE]. split; [apply ssup_sinit|]. split; intros; [apply EX|apply EE]; assumption.
    - intros t c Hc. replace ((0 <=? t) && (t <? 0))%Z with false by (destruct (Z.leb_spec 0 t), (Z.ltb_spec t 0); try lia; reflexivity).
      unfold sp_fin. destruct msk; [|reflexivity].
      unfold sp_mask. induction (sp_rec P c) as [|l ls IH]; [reflexivity|]. cbn. rewrite IH. destruct (l =? IGNORE)%Z; reflexivity. }
  pose proof (pyinv_outer f _ sr (nt / sr) _ Hs (Z.div_pos _ _ Hn Hs) I0) as [R W].
  fold (nsteps nt sr) in R, W.
  destruct (fold_left _ (zrange 0 (nt / sr)) _) as [s r]. cbn [fst snd] in R, W. split; [|exact W].
  destruct R as ([SX SE] & RX & RE). split; intros x p Hx; cbn [mn me].
  - destruct (crop S K P p) eqn:Hc; [apply RX; [exact Hx|exact (dom_array S K P _ _ Hc)]|].
    symmetry. apply SX; [exact Hx|]. destruct (dom S K P (xh S x) p) eqn:Hd; [|reflexivity].
    apply dom_crop in Hd. congruence.
  - destruct (crop S K P p) eqn:Hc; [apply RE; [exact Hx|exact (dom_array S K P _ _ Hc)]|].
    symmetry. apply SE; [exact Hx|]. destruct (dom S K P (eh S x) p) eqn:Hd; [|reflexivity].
    apply dom_crop in Hd. congruence.
Qed.
End Thm.
