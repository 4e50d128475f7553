(** * Staggered-grid systems: the backward step is the adjoint of the derivative of the forward step. *)
From Coq Require Import List ZArith QArith Ring Ring_theory Lia Bool.
From Verif Require Import Ops Sums Grid Stencil DualNum ScalarModel ScalarRefine ScalarAdjoint Stag.
Import ListNotations.
Local Open Scope K_scope.

Local Arguments der : simpl never.
Local Arguments der' : simpl never.
Local Arguments dmask : simpl never.
Local Arguments srcf : simpl never.
Local Arguments gat : simpl never.
Local Arguments SD1 : simpl never.
Local Arguments SDH1 : simpl never.
Local Arguments term : simpl never.
Local Arguments nmem : simpl never.
Local Arguments tbar : simpl never.
Local Arguments zf : simpl never.
Local Arguments injs : simpl never.

Section Basic.
Variable S : sys.
Variable K : ops.
Hypothesis Kr : is_ring K.
Add Ring KRing : Kr.
Variable P : spar S K.
Notation shape := (sp_shape P).
Notation fd := (fd_pad (sp_acc P)).
Notation nd := (length shape).
Notation L := (spts S K P).

Lemma sumf_filter_if {A} (p : A -> bool) (l : list A) (f : A -> K) :
  sumf (filter p l) f = sumf l (fun x => if p x then f x else 0).
Proof.
  induction l as [|x l IH]; cbn; [reflexivity|]. destruct (p x); cbn; rewrite IH; [reflexivity|ring].
Qed.

Lemma dbox_length h : length (dbox S K P h) = nd.
Proof. unfold dbox. rewrite map_length, seq_length. reflexivity. Qed.

Lemma dom_spec h p :
  dom S K P h p = true <->
  length p = nd /\ forall d, (d < nd)%nat -> (fd <= coord d p < nth d shape 0 - fd + (if h d then 0 else 1))%Z.
Proof.
  unfold dom. rewrite inb_spec, dbox_length.
  assert (E : forall d, (d < nd)%nat -> nth d (dbox S K P h) (0, 0)%Z
     = (fd, nth d shape 0 - fd + (if h d then 0 else 1))%Z).
  { intros d Hd. unfold dbox. set (F := fun d => (fd, nth d shape 0 - fd + (if h d then 0 else 1))%Z).
    rewrite (nth_indep _ (0, 0)%Z (F 0%nat)) by (rewrite map_length, seq_length; exact Hd).
    rewrite map_nth, seq_nth by exact Hd. reflexivity. }
  split; intros [H1 H2]; split; auto; intros d Hd; specialize (H2 d Hd); rewrite E in * by exact Hd;
    cbn [fst snd] in *; exact H2.
Qed.

Lemma dom_ext h h' p : (forall d, (d < nd)%nat -> h d = h' d) -> dom S K P h p = dom S K P h' p.
Proof.
  intros H. apply eq_true_iff_eq. rewrite !dom_spec.
  split; intros [H1 H2]; split; auto; intros d Hd; specialize (H2 d Hd); rewrite H in * by exact Hd; auto;
   rewrite <- H in * by exact Hd; auto.
Qed.

Lemma dom_array h p : dom S K P h p = true -> inb (abox shape) p = true.
Proof.
  rewrite dom_spec, inb_abox. intros [H1 H2]. split; auto. intros d Hd. specialize (H2 d Hd).
  pose proof (fd_pad_pos (sp_acc P)). destruct (h d); lia.
Qed.

Lemma In_spts p : In p L <-> inb (abox shape) p = true.
Proof. apply In_box_pts. Qed.
Lemma NoDup_spts : NoDup L.
Proof. apply NoDup_box_pts. Qed.

Lemma fsup_supp h f : fsup S K P h f -> supp L f.
Proof.
  intros H p Hp. apply H. destruct (dom S K P h p) eqn:E; [|reflexivity].
  exfalso. apply Hp, In_spts, (dom_array h), E.
Qed.
Lemma fsup_ext h h' f : (forall d, (d < nd)%nat -> h d = h' d) -> fsup S K P h f -> fsup S K P h' f.
Proof. intros H H1 p Hp. apply H1. rewrite (dom_ext h h') by exact H. exact Hp. Qed.
Lemma fsup_dmask h f : fsup S K P h (dmask S K P h f).
Proof. intros p Hp. unfold dmask. rewrite Hp. reflexivity. Qed.
Lemma fsup_add h f g : fsup S K P h f -> fsup S K P h g -> fsup S K P h (fun p => f p + g p).
Proof. intros H H' p Hp. rewrite H, H' by exact Hp. ring. Qed.
Lemma fsup_mul h (g f : field K) : fsup S K P h f -> fsup S K P h (fun p => g p * f p).
Proof. intros H p Hp. rewrite H by exact Hp. ring. Qed.
Lemma fsup_sum {A} h (l : list A) (f : A -> field K) :
  (forall x, In x l -> fsup S K P h (f x)) -> fsup S K P h (fun p => sumf l (fun x => f x p)).
Proof. intros H p Hp. apply (sumf_zero K Kr). intros x Hx. apply H; auto. Qed.

Lemma dot_dmask_r h (f g : field K) : fsup S K P h f -> dot L f (dmask S K P h g) = dot L f g.
Proof.
  intros H. apply sumf_ext. intros p _. unfold dmask. destruct (dom S K P h p) eqn:E; [reflexivity|].
  rewrite H by exact E. ring.
Qed.
Lemma dot_dmask_l h (f g : field K) : fsup S K P h g -> dot L (dmask S K P h f) g = dot L f g.
Proof. intros H. rewrite (dot_comm K Kr), dot_dmask_r, (dot_comm K Kr) by exact H. reflexivity. Qed.

Lemma dot_sum_l {A} (l : list A) (f : A -> field K) (g : field K) :
  dot L (fun p => sumf l (fun x => f x p)) g = sumf l (fun x => dot L (f x) g).
Proof.
  unfold dot. rewrite (sumf_swap K Kr l L). apply sumf_ext. intros p _. rewrite (sumf_scal_r K Kr). reflexivity.
Qed.
Lemma dot_sum_r {A} (l : list A) (f : A -> field K) (g : field K) :
  dot L g (fun p => sumf l (fun x => f x p)) = sumf l (fun x => dot L g (f x)).
Proof.
  rewrite (dot_comm K Kr), dot_sum_l. apply sumf_ext. intros x _. apply (dot_comm K Kr).
Qed.

Lemma der_sbp e (f g : field K) : supp L f -> supp L g -> dot L f (der S K P e g) = - dot L (der' S K P e f) g.
Proof.
  intros Hf Hg. unfold der, der'. destruct (eh S e (edim S e)).
  - apply (SDH1_sbp K Kr); auto using NoDup_spts.
  - apply (SD1_sbp K Kr); auto using NoDup_spts.
Qed.

Lemma der_ext e (f g : field K) p : (forall q, f q = g q) -> der S K P e f p = der S K P e g p.
Proof.
  intros H. unfold der, SDH1, SD1. destruct (eh S e (edim S e)).
  - apply SDIFFH1_ext. intros; apply H.
  - apply SDIFF1_ext. intros; apply H.
Qed.
Lemma der'_ext e (f g : field K) p : (forall q, f q = g q) -> der' S K P e f p = der' S K P e g p.
Proof.
  intros H. unfold der', SDH1, SD1. destruct (eh S e (edim S e)).
  - apply SDIFF1_ext. intros; apply H.
  - apply SDIFFH1_ext. intros; apply H.
Qed.

Lemma dot_srcf locs amps (f : field K) :
  Forall (fun l => (l < 0)%Z \/ inb (abox shape) (unidx shape l) = true) locs ->
  dot L f (srcf S K P locs amps) = ldot (gat S K P locs f) amps.
Proof.
  intros Hl. unfold dot, ldot, gat, srcf.
  rewrite (sumf_ext K L _ (fun p => sumf (combine locs amps) (fun la => f p *
     (if (0 <=? fst la)%Z && (if pt_eq_dec (unidx shape (fst la)) p then true else false) then snd la else 0)))).
  2:{ intros p _. rewrite (sumf_scal K Kr). reflexivity. }
  rewrite (sumf_swap K Kr).
  revert amps. induction Hl as [|l ls Hl1 Hl2 IH]; intros [|x xs]; cbn [combine map sumf]; auto.
  rewrite IH. f_equal. cbn [fst snd].
  destruct (Z.leb_spec 0 l) as [H0|H0]; cbn [andb].
  - destruct Hl1 as [Hl1|Ein]; [lia|]. rewrite (sumf_single K Kr L (unidx shape l)).
    + destruct (pt_eq_dec (unidx shape l) (unidx shape l)); [reflexivity|congruence].
    + apply NoDup_spts.
    + apply In_spts, Ein.
    + intros p _ Hp. destruct (pt_eq_dec (unidx shape l) p); [congruence|ring].
  - rewrite (sumf_zero K Kr); [ring|]. intros; ring.
Qed.

Lemma locs_arr c l : Forall (sloc_ok S K P c) l ->
  Forall (fun l => (l < 0)%Z \/ inb (abox shape) (unidx shape l) = true) l.
Proof.
  intros H. eapply Forall_impl; [|exact H]. intros a [Ha|(q & -> & Hq & _)]; [left; exact Ha|right].
  rewrite unidx_idx by exact Hq. exact Hq.
Qed.

Lemma fsup_srcf c x l amps : In x (allX S) -> cin S c x = true ->
  Forall (sloc_ok S K P c) l -> fsup S K P (xh S x) (srcf S K P l amps).
Proof.
  intros Hx Hc Hl p Hp. unfold srcf. apply (sumf_zero K Kr). intros [a y] Hin. apply in_combine_l in Hin.
  rewrite Forall_forall in Hl. specialize (Hl a Hin). cbn [fst snd].
  destruct (Z.leb_spec 0 a) as [H0|H0]; cbn [andb]; [|reflexivity].
  destruct Hl as [Hl|(q & -> & Hq & Hd)]; [lia|]. rewrite unidx_idx by exact Hq.
  destruct (pt_eq_dec q p) as [->|N]; [|reflexivity]. rewrite Hd in Hp by auto. discriminate.
Qed.

End Basic.

(** ** One half step *)
Section Half.
Variable S : sys.
Variable K : ops.
Hypothesis Kr : is_ring K.
Add Ring KRing2 : Kr.
Variable P : spar S K.
Notation shape := (sp_shape P).
Notation nd := (length shape).
Notation L := (spts S K P).
Hypothesis Sok : sys_ok S nd.
Hypothesis Hsrc : locs_ok S K P (sp_src P).
Hypothesis Hrec : locs_ok S K P (sp_rec P).

(** Tangent of [hstep]. *)
Definition thstep (A : bool) (c dc : coe S K) (df : sC S -> list K) (s ds : sst S K) : sst S K :=
  mksst (fun x => if Bool.eqb (xA S x) A
                  then injs S K P df x (dmask S K P (xh S x) (fun p => mn ds x p
                         + sumf (incE S x) (fun e => c x e p * term S K P ds e p + dc x e p * term S K P s e p)))
                  else mn ds x)
        (fun e => if Bool.eqb (eA S e) A then nmem S K P ds e else me ds e).

Definition cdotA (A : bool) (a b : sC S -> list K) : K :=
  sumf (allC S) (fun c => if Bool.eqb (cA S c) A then ldot (a c) (b c) else 0).
Definition kdotA (A : bool) (a b : coe S K) : K :=
  sumf (allX S) (fun x => sumf (incE S x) (fun e => if Bool.eqb (eA S e) A then dot L (a x e) (b x e) else 0)).

Lemma In_incE x e : In e (incE S x) <-> In e (allE S) /\ inc S x e = true.
Proof. apply filter_In. Qed.
Lemma In_incX x e : In x (incX S e) <-> In x (allX S) /\ inc S x e = true.
Proof. apply filter_In. Qed.
Lemma In_cinC x c : In c (cinC S x) <-> In c (allC S) /\ cin S c x = true.
Proof. apply filter_In. Qed.

Lemma fsup_inc x e f : In x (allX S) -> In e (allE S) -> inc S x e = true ->
  fsup S K P (xh S x) f -> fsup S K P (eh S e) f.
Proof. intros Hx He Hi. apply fsup_ext. apply (ok_inc S nd Sok x e); auto. Qed.

Lemma fsup_tbar c g e : ssup S K P g -> In e (allE S) -> fsup S K P (eh S e) (tbar S K c g e).
Proof.
  intros [Hg _] He. apply (fsup_sum S K Kr P). intros x Hx. apply In_incX in Hx. destruct Hx as [Hx Hi].
  apply (fsup_mul S K Kr P). apply (fsup_inc x e); auto.
Qed.

Lemma fsup_zf c g e : ssup S K P g -> In e (allE S) -> fsup S K P (eh S e) (zf S K P c g e).
Proof.
  intros Hg He. apply (fsup_add S K Kr P); apply (fsup_mul S K Kr P); [apply Hg, He|apply fsup_tbar; auto].
Qed.

(** Terms of one memory variable. *)
Lemma half_term c g e ds : ssup S K P g -> ssup S K P ds -> In e (allE S) ->
  dot L (tbar S K c g e) (term S K P ds e) + dot L (me g e) (nmem S K P ds e)
  = dot L (fun p => ea S K P e p * (me g e p + tbar S K c g e p)) (me ds e)
    + - dot L (der' S K P e (zf S K P c g e)) (mn ds (esrc S e)).
Proof.
  intros Hg Hds He.
  rewrite <- (der_sbp S K Kr P).
  2:{ eapply fsup_supp. apply fsup_zf; auto. }
  2:{ eapply fsup_supp. apply Hds. apply (ok_srcin S nd Sok), He. }
  unfold term. rewrite (dot_add_r K Kr).
  unfold nmem. rewrite !(dot_dmask_r S K Kr P) by (try apply fsup_tbar; try apply Hg; auto).
  unfold dot. rewrite <- !(sumf_add K Kr). apply sumf_ext. intros p _. unfold zf. ring.
Qed.

Lemma half_duality A c dc df s g ds :
  ssup S K P g -> ssup S K P ds ->
  sdot S K P g (thstep A c dc df s ds)
  = sdot S K P (bhalf S K P A c g) ds
    + cdotA A (fun ch => gat S K P (sp_src P ch) (chsum S K ch g)) df
    + kdotA A (fun x e p => mn g x p * term S K P s e p) dc.
Proof.
  intros Hg Hds.
  (* left-hand side *)
  assert (E1 : sumf (allX S) (fun x => dot L (mn g x) (mn (thstep A c dc df s ds) x))
    = sumf (allX S) (fun x => dot L (mn g x) (mn ds x))
      + sumf (allX S) (fun x => sumf (allE S) (fun e => if inc S x e then if Bool.eqb (eA S e) A then
            dot L (fun p => c x e p * mn g x p) (term S K P ds e) else 0 else 0))
      + kdotA A (fun x e p => mn g x p * term S K P s e p) dc
      + cdotA A (fun ch => gat S K P (sp_src P ch) (chsum S K ch g)) df).
  { assert (E : cdotA A (fun ch => gat S K P (sp_src P ch) (chsum S K ch g)) df
       = sumf (allX S) (fun x => sumf (allC S) (fun ch => if cin S ch x then if Bool.eqb (cA S ch) A then
             ldot (gat S K P (sp_src P ch) (mn g x)) (df ch) else 0 else 0))).
    { rewrite (sumf_swap K Kr). unfold cdotA. apply sumf_ext. intros ch Hch.
      destruct (Bool.eqb (cA S ch) A).
      - rewrite <- (dot_srcf S K Kr P) by (apply (locs_arr S K P ch), Hsrc, Hch).
        unfold chsum, cinX. rewrite (dot_sum_l S K Kr P), (sumf_filter_if K Kr). apply sumf_ext. intros x _.
        destruct (cin S ch x); [|reflexivity]. apply (dot_srcf S K Kr P). apply (locs_arr S K P ch), Hsrc, Hch.
      - symmetry. apply (sumf_zero K Kr). intros x _. destruct (cin S ch x); reflexivity. }
    rewrite E. unfold kdotA. rewrite <- !(sumf_add K Kr). apply sumf_ext. intros x Hx. cbn [mn thstep].
    destruct (Bool.eqb (xA S x) A) eqn:EA.
    - unfold injs. rewrite (dot_add_r K Kr), (dot_dmask_r S K Kr P) by (apply Hg, Hx).
      rewrite (dot_add_r K Kr), !(dot_sum_r S K Kr P). unfold cinC, incE.
      rewrite !(sumf_filter_if K Kr).
      rewrite (sumf_ext K (allE S) _ (fun e =>
         (if inc S x e then if Bool.eqb (eA S e) A then dot L (fun p => c x e p * mn g x p) (term S K P ds e) else 0 else 0)
         + (if inc S x e then if Bool.eqb (eA S e) A then dot L (fun p => mn g x p * term S K P s e p) (dc x e) else 0 else 0))).
      2:{ intros e He. destruct (inc S x e) eqn:Ei; [|ring].
          destruct (ok_inc S nd Sok x e Hx He Ei) as [Hh _]. rewrite <- Hh, EA.
          unfold dot. rewrite <- (sumf_add K Kr). apply sumf_ext. intros p _. ring. }
      rewrite (sumf_add K Kr).
      rewrite (sumf_ext K (allC S) (fun x0 => if cin S x0 x then dot L (mn g x) (fun p => srcf S K P (sp_src P x0) (df x0) p) else 0)
         (fun ch => if cin S ch x then if Bool.eqb (cA S ch) A then ldot (gat S K P (sp_src P ch) (mn g x)) (df ch) else 0 else 0)).
      2:{ intros ch Hch. destruct (cin S ch x) eqn:Ec; [|reflexivity].
          rewrite <- (ok_cin S nd Sok ch x Hch Hx Ec), EA. apply (dot_srcf S K Kr P). apply (locs_arr S K P ch), Hsrc, Hch. }
      ring.
    - unfold incE. rewrite (sumf_filter_if K Kr).
      rewrite !(sumf_zero K Kr); [ring|..].
      + intros ch Hch. destruct (cin S ch x) eqn:Ec; [|reflexivity].
        rewrite <- (ok_cin S nd Sok ch x Hch Hx Ec), EA. reflexivity.
      + intros e He. destruct (inc S x e) eqn:Ei; [|reflexivity].
        destruct (ok_inc S nd Sok x e Hx He Ei) as [Hh _]. rewrite <- Hh, EA. reflexivity.
      + intros e He. destruct (inc S x e) eqn:Ei; [|reflexivity].
        destruct (ok_inc S nd Sok x e Hx He Ei) as [Hh _]. rewrite <- Hh, EA. reflexivity. }
  assert (E2 : sumf (allX S) (fun x => sumf (allE S) (fun e => if inc S x e then if Bool.eqb (eA S e) A then
            dot L (fun p => c x e p * mn g x p) (term S K P ds e) else 0 else 0))
    = sumf (allE S) (fun e => if Bool.eqb (eA S e) A then dot L (tbar S K c g e) (term S K P ds e) else 0)).
  { rewrite (sumf_swap K Kr). apply sumf_ext. intros e He. destruct (Bool.eqb (eA S e) A).
    - unfold tbar, incX. rewrite (dot_sum_l S K Kr P), (sumf_filter_if K Kr). reflexivity.
    - apply (sumf_zero K Kr). intros x _. destruct (inc S x e); reflexivity. }
  (* right-hand side *)
  assert (E3 : sumf (allX S) (fun x => dot L (mn (bhalf S K P A c g) x) (mn ds x))
    = sumf (allX S) (fun x => dot L (mn g x) (mn ds x))
      + sumf (allE S) (fun e => if Bool.eqb (eA S e) A
           then - dot L (der' S K P e (zf S K P c g e)) (mn ds (esrc S e)) else 0)).
  { transitivity (sumf (allX S) (fun x => dot L (mn g x) (mn ds x))
      + sumf (allX S) (fun x => sumf (allE S) (fun e => if esrcb S e x then if Bool.eqb (eA S e) A then
            - dot L (der' S K P e (zf S K P c g e)) (mn ds x) else 0 else 0))).
    - rewrite <- (sumf_add K Kr). apply sumf_ext. intros x Hx. cbn [mn bhalf].
      destruct (Bool.eqb (xA S x) A) eqn:EA.
      + rewrite (sumf_zero K Kr); [ring|]. intros e He. destruct (esrcb S e x) eqn:Eb; [|reflexivity].
        apply (ok_srcb S nd Sok e x He) in Eb. pose proof (ok_half S nd Sok e He) as Hh. rewrite Eb in Hh.
        rewrite Hh in EA. destruct (eA S e), A; try discriminate; reflexivity.
      + rewrite (dot_dmask_l S K Kr P) by (apply Hds, Hx). rewrite (dot_add_l K Kr), (dot_sum_l S K Kr P).
        unfold srcE. rewrite (sumf_filter_if K Kr). f_equal. apply sumf_ext. intros e He.
        destruct (esrcb S e x) eqn:Eb; [|reflexivity].
        apply (ok_srcb S nd Sok e x He) in Eb. pose proof (ok_half S nd Sok e He) as Hh. rewrite Eb in Hh.
        rewrite Hh in EA. assert (Bool.eqb (eA S e) A = true) as -> by (destruct (eA S e), A; try discriminate; reflexivity).
        unfold dot. rewrite <- (sumf_opp K Kr). apply sumf_ext. intros p _. ring.
    - f_equal. rewrite (sumf_swap K Kr). apply sumf_ext. intros e He.
      rewrite (sumf_single K Kr (allX S) (esrc S e)).
      + assert (esrcb S e (esrc S e) = true) as -> by (apply (ok_srcb S nd Sok); auto). reflexivity.
      + apply (ok_X S nd Sok).
      + apply (ok_srcin S nd Sok), He.
      + intros x _ Hx. destruct (esrcb S e x) eqn:Eb; [|reflexivity].
        apply (ok_srcb S nd Sok e x He) in Eb. congruence. }
  unfold sdot. rewrite E1, E2, E3.
  assert (E4 : sumf (allE S) (fun e => if Bool.eqb (eA S e) A then dot L (tbar S K c g e) (term S K P ds e) else 0)
     + sumf (allE S) (fun e => dot L (me g e) (me (thstep A c dc df s ds) e))
     = sumf (allE S) (fun e => if Bool.eqb (eA S e) A
           then - dot L (der' S K P e (zf S K P c g e)) (mn ds (esrc S e)) else 0)
       + sumf (allE S) (fun e => dot L (me (bhalf S K P A c g) e) (me ds e))).
  { rewrite <- !(sumf_add K Kr). apply sumf_ext. intros e He. cbn [me thstep bhalf].
    destruct (Bool.eqb (eA S e) A); [|reflexivity].
    rewrite half_term by auto. ring. }
  set (T := sumf (allX S) (fun x => dot L (mn g x) (mn ds x))).
  set (T1 := kdotA _ _ _). set (T2 := cdotA _ _ _).
  match type of E4 with ?a + ?b = _ => transitivity (T + (a + b) + T1 + T2); [ring|rewrite E4; ring] end.
Qed.

(** ** Supports *)

Lemma fsup_injs f x g : In x (allX S) -> fsup S K P (xh S x) g -> fsup S K P (xh S x) (injs S K P f x g).
Proof.
  intros Hx Hg. apply (fsup_add S K Kr P); [exact Hg|]. apply (fsup_sum S K Kr P).
  intros c Hc. apply In_cinC in Hc. destruct Hc as [Hc Hi].
  apply (fsup_srcf S K Kr P c x); auto.
Qed.

Lemma ssup_hstep A c f s : ssup S K P s -> ssup S K P (hstep S K P A c f s).
Proof.
  intros [H1 H2]. split; cbn; intros.
  - destruct (Bool.eqb _ _); auto. apply fsup_injs; auto. apply fsup_dmask.
  - destruct (Bool.eqb _ _); auto. apply fsup_dmask.
Qed.
Lemma ssup_sstep c f s : ssup S K P s -> ssup S K P (sstep S K P c f s).
Proof. intros H. apply ssup_hstep, ssup_hstep, H. Qed.
Lemma ssup_sstate c f n t s : ssup S K P s -> ssup S K P (sstate S K P c f n t s).
Proof. revert t s. induction n as [|n IH]; intros t s H; cbn; auto. apply IH, ssup_sstep, H. Qed.
Lemma ssup_thstep A c dc df s ds : ssup S K P ds -> ssup S K P (thstep A c dc df s ds).
Proof.
  intros [H1 H2]. split; cbn; intros.
  - destruct (Bool.eqb _ _); auto. apply fsup_injs; auto. apply fsup_dmask.
  - destruct (Bool.eqb _ _); auto. apply fsup_dmask.
Qed.
Lemma ssup_bhalf A c g : ssup S K P g -> ssup S K P (bhalf S K P A c g).
Proof.
  intros Hg. pose proof Hg as [H1 H2]. split; cbn; intros.
  - destruct (Bool.eqb _ _); auto. apply fsup_dmask.
  - destruct (Bool.eqb _ _); auto. apply (fsup_mul S K Kr P), (fsup_add S K Kr P); auto. apply fsup_tbar; auto.
Qed.
Lemma ssup_binj gr g : ssup S K P g -> ssup S K P (binj S K P gr g).
Proof.
  intros [H1 H2]. split; cbn; intros; auto.
  apply (fsup_add S K Kr P); [auto|]. apply (fsup_sum S K Kr P).
  intros c Hc. apply In_cinC in Hc. destruct Hc as [Hc Hi].
  apply (fsup_srcf S K Kr P c x); auto.
Qed.
Lemma ssup_sbstep c gr g : ssup S K P g -> ssup S K P (sbstep S K P c gr g).
Proof. intros H. apply ssup_binj, ssup_bhalf, ssup_bhalf, H. Qed.
Lemma ssup_sbst c gr n t g : ssup S K P g -> ssup S K P (sbst S K P c gr n t g).
Proof. revert t. induction n as [|n IH]; intros t H; cbn; auto. apply ssup_sbstep, IH, H. Qed.

(** ** One step *)

Definition tsstep (c dc : coe S K) (f df : sC S -> list K) (s ds : sst S K) : sst S K :=
  thstep false c dc df (hstep S K P true c f s) (thstep true c dc df s ds).

Lemma dot_binj gr g ds :
  sdot S K P (binj S K P gr g) ds = sdot S K P g ds + cdot S K gr (fun ch => srec S K P ch ds).
Proof.
  unfold sdot. cbn [mn me binj].
  rewrite (sumf_ext K (allX S) (fun x => dot L (fun p => mn g x p + sumf (cinC S x) (fun c => srcf S K P (sp_rec P c) (gr c) p)) (mn ds x))
    (fun x => dot L (mn g x) (mn ds x) + sumf (allC S) (fun ch => if cin S ch x then ldot (gr ch) (gat S K P (sp_rec P ch) (mn ds x)) else 0))).
  2:{ intros x Hx. rewrite (dot_add_l K Kr), (dot_sum_l S K Kr P). unfold cinC. rewrite (sumf_filter_if K Kr). f_equal.
      apply sumf_ext. intros ch Hch. destruct (cin S ch x); [|reflexivity].
      rewrite (ldot_comm K Kr), <- (dot_srcf S K Kr P) by (apply (locs_arr S K P ch), Hrec, Hch).
      apply (dot_comm K Kr). }
  rewrite (sumf_add K Kr), (sumf_swap K Kr).
  assert (E : cdot S K gr (fun ch => srec S K P ch ds)
    = sumf (allC S) (fun ch => sumf (allX S) (fun x => if cin S ch x then ldot (gr ch) (gat S K P (sp_rec P ch) (mn ds x)) else 0))).
  { apply sumf_ext. intros ch Hch. unfold srec.
    rewrite (ldot_comm K Kr), <- (dot_srcf S K Kr P) by (apply (locs_arr S K P ch), Hrec, Hch).
    unfold chsum, cinX. rewrite (dot_sum_l S K Kr P), (sumf_filter_if K Kr). apply sumf_ext. intros x _.
    destruct (cin S ch x); [|reflexivity].
    rewrite (ldot_comm K Kr). apply (dot_srcf S K Kr P). apply (locs_arr S K P ch), Hrec, Hch. }
  rewrite E. ring.
Qed.

Lemma chsum_ext c s s' p : (forall x, In x (allX S) -> cin S c x = true -> mn s x p = mn s' x p) ->
  chsum S K c s p = chsum S K c s' p.
Proof. intros H. apply sumf_ext. intros x Hx. apply filter_In in Hx. apply H; tauto. Qed.

Lemma step_duality c dc f df gr s g ds :
  ssup S K P g -> ssup S K P ds ->
  sdot S K P g (tsstep c dc f df s ds) + cdot S K gr (fun ch => srec S K P ch ds)
  = sdot S K P (sbstep S K P c gr g) ds + cdot S K (grad_f S K P c g) df + kdot S K P (grad_c S K P c f s g) dc.
Proof.
  intros Hg Hds. unfold tsstep, sbstep. rewrite dot_binj.
  rewrite half_duality; [|exact Hg|apply ssup_thstep, Hds].
  rewrite half_duality; [|apply ssup_bhalf, Hg|exact Hds].
  assert (E1 : cdot S K (grad_f S K P c g) df
    = cdotA true (fun ch => gat S K P (sp_src P ch) (chsum S K ch (bhalf S K P false c g))) df
      + cdotA false (fun ch => gat S K P (sp_src P ch) (chsum S K ch g)) df).
  { unfold cdot, cdotA. rewrite <- (sumf_add K Kr). apply sumf_ext. intros ch Hch. unfold grad_f.
    destruct (cA S ch) eqn:EA; cbn [Bool.eqb]; [ring|].
    assert (E : gat S K P (sp_src P ch) (chsum S K ch (bhalf S K P false c g)) = gat S K P (sp_src P ch) (chsum S K ch g)).
    { unfold gat. apply map_ext. intros l. destruct (0 <=? l)%Z; [|reflexivity]. apply chsum_ext.
      intros x Hx Hc. cbn [mn bhalf]. rewrite (ok_cin S nd Sok ch x Hch Hx Hc), EA. reflexivity. }
    rewrite E. ring. }
  assert (E2 : kdot S K P (grad_c S K P c f s g) dc
    = kdotA true (fun x e p => mn (bhalf S K P false c g) x p * term S K P s e p) dc
      + kdotA false (fun x e p => mn g x p * term S K P (hstep S K P true c f s) e p) dc).
  { unfold kdot, kdotA. rewrite <- (sumf_add K Kr). apply sumf_ext. intros x Hx.
    rewrite <- (sumf_add K Kr). apply sumf_ext. intros e He. apply In_incE in He. destruct He as [He Hi].
    unfold grad_c. destruct (eA S e) eqn:EA; cbn [Bool.eqb]; [ring|].
    destruct (ok_inc S nd Sok x e Hx He Hi) as [Hh _].
    cbn [mn bhalf]. rewrite Hh, EA. cbn [Bool.eqb]. ring. }
  rewrite E1, E2. ring.
Qed.

(** ** Extensionality *)

Lemma nmem_ext s s' e p : sseq S K s s' -> In e (allE S) -> nmem S K P s e p = nmem S K P s' e p.
Proof.
  intros [H1 H2] He. unfold nmem, dmask. destruct (dom _ _ _ _ _); [|reflexivity].
  rewrite (der_ext S K P e (mn s (esrc S e)) (mn s' (esrc S e))), H2; auto.
  intros q. apply H1. apply (ok_srcin S nd Sok), He.
Qed.
Lemma term_ext s s' e p : sseq S K s s' -> In e (allE S) -> term S K P s e p = term S K P s' e p.
Proof.
  intros H He. unfold term. rewrite (nmem_ext s s') by auto.
  rewrite (der_ext S K P e (mn s (esrc S e)) (mn s' (esrc S e))); auto.
  intros q. apply H. apply (ok_srcin S nd Sok), He.
Qed.
Definition ceq (c c' : coe S K) : Prop :=
  forall x e p, In x (allX S) -> In e (allE S) -> c x e p = c' x e p.
Lemma hstep_ext A c c' f f' s s' : ceq c c' -> (forall ch, In ch (allC S) -> f ch = f' ch) -> sseq S K s s' ->
  sseq S K (hstep S K P A c f s) (hstep S K P A c' f' s').
Proof.
  intros Hc Hf H. pose proof H as [H1 H2]. split; cbn.
  - intros x p Hx. destruct (Bool.eqb _ _); auto. unfold injs. f_equal.
    + unfold dmask. destruct (dom _ _ _ _ _); [|reflexivity]. rewrite H1 by auto. f_equal.
      apply sumf_ext. intros e He. apply In_incE in He. rewrite Hc, (term_ext s s') by tauto. reflexivity.
    + apply sumf_ext. intros ch Hch. apply In_cinC in Hch. rewrite Hf by tauto. reflexivity.
  - intros e p He. destruct (Bool.eqb _ _); auto. apply nmem_ext; auto.
Qed.
Lemma sseq_refl s : sseq S K s s. Proof. split; auto. Qed.
Lemma sseq_sym s s' : sseq S K s s' -> sseq S K s' s.
Proof. intros [H1 H2]; split; intros; symmetry; auto. Qed.
Lemma sseq_trans s s' s'' : sseq S K s s' -> sseq S K s' s'' -> sseq S K s s''.
Proof. intros [H1 H2] [H3 H4]; split; intros; [rewrite H1|rewrite H2]; auto. Qed.
Lemma sstep_ext c c' f f' s s' : ceq c c' -> (forall ch, In ch (allC S) -> f ch = f' ch) -> sseq S K s s' ->
  sseq S K (sstep S K P c f s) (sstep S K P c' f' s').
Proof. intros. apply hstep_ext; auto. apply hstep_ext; auto. Qed.
Lemma sstate_ext c c' f f' n t s s' : (forall u, ceq (c u) (c' u)) ->
  (forall u ch, In ch (allC S) -> f u ch = f' u ch) -> sseq S K s s' ->
  sseq S K (sstate S K P c f n t s) (sstate S K P c' f' n t s').
Proof.
  intros Hc Hf. revert t s s'. induction n as [|n IH]; intros t s s' H; [exact H|].
  cbn [sstate]. apply IH. apply sstep_ext; auto.
Qed.
Lemma srec_ext ch s s' : sseq S K s s' -> srec S K P ch s = srec S K P ch s'.
Proof.
  intros [H _]. unfold srec, gat. apply map_ext. intros l. destruct (0 <=? l)%Z; [|reflexivity].
  apply chsum_ext. auto.
Qed.
Lemma sdot_ext g g' s s' : sseq S K g g' -> sseq S K s s' -> sdot S K P g s = sdot S K P g' s'.
Proof.
  intros [H1 H2] [H3 H4]. unfold sdot. f_equal; apply sumf_ext; intros; apply (dot_ext K); auto.
Qed.
Lemma tbar_ext c c' g g' e p : ceq c c' -> sseq S K g g' -> In e (allE S) -> tbar S K c g e p = tbar S K c' g' e p.
Proof.
  intros Hc [H _] He. apply sumf_ext. intros x Hx. apply In_incX in Hx. rewrite Hc, H by tauto. reflexivity.
Qed.
Lemma zf_ext c c' g g' e p : ceq c c' -> sseq S K g g' -> In e (allE S) -> zf S K P c g e p = zf S K P c' g' e p.
Proof. intros Hc H He. unfold zf. rewrite (tbar_ext c c' g g'), (proj2 H) by auto. reflexivity. Qed.
Lemma bhalf_ext A c c' g g' : ceq c c' -> sseq S K g g' -> sseq S K (bhalf S K P A c g) (bhalf S K P A c' g').
Proof.
  intros Hc H. pose proof H as [H1 H2]. split; cbn.
  - intros x p Hx. destruct (Bool.eqb _ _); auto. unfold dmask. destruct (dom _ _ _ _ _); [|reflexivity].
    rewrite H1 by auto. f_equal. apply sumf_ext. intros e He. apply filter_In in He. f_equal.
    apply der'_ext. intros q. apply zf_ext; tauto.
  - intros e p He. destruct (Bool.eqb _ _); auto. rewrite H2, (tbar_ext c c' g g') by auto. reflexivity.
Qed.
Lemma sbstep_ext c c' gr gr' g g' : ceq c c' -> (forall ch, In ch (allC S) -> gr ch = gr' ch) -> sseq S K g g' ->
  sseq S K (sbstep S K P c gr g) (sbstep S K P c' gr' g').
Proof.
  intros Hc Hf H. pose proof (bhalf_ext true c c' _ _ Hc (bhalf_ext false c c' g g' Hc H)) as [H1 H2].
  split; cbn [mn me sbstep binj]; auto.
  intros x p Hx. rewrite H1 by auto. f_equal. apply sumf_ext. intros ch Hch. apply In_cinC in Hch.
  rewrite Hf by tauto. reflexivity.
Qed.
Lemma sbst_ext c c' gr gr' n t g g' : (forall u, ceq (c u) (c' u)) ->
  (forall u ch, In ch (allC S) -> gr u ch = gr' u ch) -> sseq S K g g' ->
  sseq S K (sbst S K P c gr n t g) (sbst S K P c' gr' n t g').
Proof.
  intros Hc Hf. revert t. induction n as [|n IH]; intros t H; [exact H|].
  cbn [sbst]. apply sbstep_ext; auto.
Qed.

End Half.

(** ** Dual numbers *)
Section Dual.
Variable S : sys.
Variable K : ops.
Hypothesis Kr : is_ring K.
Add Ring KRing3 : Kr.
Variable P : spar S K.
Notation shape := (sp_shape P).
Notation nd := (length shape).
Notation DP := (dspar P).
Notation dK := (dual K).
Notation L := (spts S K P).
Hypothesis Sok : sys_ok S nd.
Hypothesis Hsrc : locs_ok S K P (sp_src P).
Hypothesis Hrec : locs_ok S K P (sp_rec P).

Lemma fst_der e (f : field dK) p : fst (der S dK DP e f p) = der S K P e (fre f) p.
Proof.
  unfold der. destruct (eh S e (edim S e)); [apply (fst_SDIFFH1 K)|apply (fst_SDIFF1 K)].
Qed.
Lemma snd_der e (f : field dK) p : snd (der S dK DP e f p) = der S K P e (fep f) p.
Proof.
  unfold der. destruct (eh S e (edim S e)); [apply (snd_SDIFFH1 K Kr)|apply (snd_SDIFF1 K Kr)].
Qed.
Lemma fst_dmask h (f : field dK) p : fst (dmask S dK DP h f p) = dmask S K P h (fre f) p.
Proof. unfold dmask. change (dom S dK DP h p) with (dom S K P h p). destruct (dom _ _ _ _ _); reflexivity. Qed.
Lemma snd_dmask h (f : field dK) p : snd (dmask S dK DP h f p) = dmask S K P h (fep f) p.
Proof. unfold dmask. change (dom S dK DP h p) with (dom S K P h p). destruct (dom _ _ _ _ _); reflexivity. Qed.
Lemma dmask_ext h (f g : field K) p : f p = g p -> dmask S K P h f p = dmask S K P h g p.
Proof. intros H. unfold dmask. rewrite H. reflexivity. Qed.
Lemma fst_srcf l (a : list dK) p : fst (srcf S dK DP l a p) = srcf S K P l (lre a) p.
Proof.
  unfold srcf. rewrite fst_sumf. unfold lre. rewrite sumf_combine_map. apply sumf_ext.
  intros [x y] _. cbn. destruct (_ && _); reflexivity.
Qed.
Lemma snd_srcf l (a : list dK) p : snd (srcf S dK DP l a p) = srcf S K P l (lep a) p.
Proof.
  unfold srcf. rewrite snd_sumf. unfold lep. rewrite sumf_combine_map. apply sumf_ext.
  intros [x y] _. cbn. destruct (_ && _); reflexivity.
Qed.

Lemma fst_nmem s e p : fst (nmem S dK DP s e p) = nmem S K P (ssre s) e p.
Proof.
  unfold nmem. rewrite fst_dmask. apply dmask_ext. unfold fre at 1. cbn. rewrite fst_der. reflexivity.
Qed.
Lemma snd_nmem s e p : snd (nmem S dK DP s e p) = nmem S K P (ssep s) e p.
Proof.
  unfold nmem. rewrite snd_dmask. apply dmask_ext. unfold fep at 1. cbn. rewrite snd_der.
  unfold eb, ea, fep. cbn. ring.
Qed.
Lemma fst_term s e p : fst (term S dK DP s e p) = term S K P (ssre s) e p.
Proof. unfold term. cbn. rewrite fst_der, fst_nmem. reflexivity. Qed.
Lemma snd_term s e p : snd (term S dK DP s e p) = term S K P (ssep s) e p.
Proof. unfold term. cbn. rewrite snd_der, snd_nmem. reflexivity. Qed.

Lemma ssre_hstep A c f s :
  sseq S K (ssre (hstep S dK DP A c f s)) (hstep S K P A (cre c) (fun ch => lre (f ch)) (ssre s)).
Proof.
  split; cbn; unfold fre at 1.
  - intros x p Hx. destruct (Bool.eqb _ _); [|reflexivity]. unfold injs. cbn. rewrite fst_sumf. f_equal.
    + rewrite fst_dmask. apply dmask_ext. unfold fre at 1. cbn. rewrite fst_sumf. f_equal.
      apply sumf_ext. intros e _. cbn. rewrite fst_term. reflexivity.
    + apply sumf_ext. intros ch _. apply fst_srcf.
  - intros e p He. destruct (Bool.eqb _ _); [|reflexivity]. apply fst_nmem.
Qed.
Lemma ssep_hstep A c f s :
  sseq S K (ssep (hstep S dK DP A c f s))
           (thstep S K P A (cre c) (cep c) (fun ch => lep (f ch)) (ssre s) (ssep s)).
Proof.
  split; cbn; unfold fep at 1.
  - intros x p Hx. destruct (Bool.eqb _ _); [|reflexivity]. unfold injs. cbn. rewrite snd_sumf. f_equal.
    + rewrite snd_dmask. apply dmask_ext. unfold fep at 1. cbn. rewrite snd_sumf. f_equal.
      apply sumf_ext. intros e _. cbn. rewrite fst_term, snd_term. reflexivity.
    + apply sumf_ext. intros ch _. apply snd_srcf.
  - intros e p He. destruct (Bool.eqb _ _); [|reflexivity]. apply snd_nmem.
Qed.

Lemma thstep_ext A c dc df s s' ds ds' : sseq S K s s' -> sseq S K ds ds' ->
  sseq S K (thstep S K P A c dc df s ds) (thstep S K P A c dc df s' ds').
Proof.
  intros Hs H. pose proof H as [H1 H2]. split; cbn.
  - intros x p Hx. destruct (Bool.eqb _ _); auto. unfold injs. f_equal. apply dmask_ext. rewrite H1 by auto. f_equal.
    apply sumf_ext. intros e He. apply In_incE in He.
    rewrite (term_ext S K P Sok s s'), (term_ext S K P Sok ds ds') by tauto. reflexivity.
  - intros e p He. destruct (Bool.eqb _ _); auto. apply (nmem_ext S K P Sok); auto.
Qed.

Lemma ssre_sstep c f s :
  sseq S K (ssre (sstep S dK DP c f s)) (sstep S K P (cre c) (fun ch => lre (f ch)) (ssre s)).
Proof.
  eapply sseq_trans; [apply ssre_hstep|]. apply (hstep_ext S K P Sok); [intros ? ? ? ? ?; reflexivity|reflexivity|].
  apply ssre_hstep.
Qed.
Lemma ssep_sstep c f s :
  sseq S K (ssep (sstep S dK DP c f s))
           (tsstep S K P (cre c) (cep c) (fun ch => lre (f ch)) (fun ch => lep (f ch)) (ssre s) (ssep s)).
Proof.
  eapply sseq_trans; [apply ssep_hstep|]. apply thstep_ext; [apply ssre_hstep|apply ssep_hstep].
Qed.
Lemma ssre_sstate c f n t s :
  sseq S K (ssre (sstate S dK DP c f n t s))
           (sstate S K P (fun u => cre (c u)) (fun u ch => lre (f u ch)) n t (ssre s)).
Proof.
  revert t s. induction n as [|n IH]; intros t s; [apply sseq_refl|]. cbn [sstate].
  eapply sseq_trans; [apply IH|]. apply (sstate_ext S K P Sok); [intros ? ? ? ? ? ?; reflexivity|reflexivity|].
  apply ssre_sstep.
Qed.
Lemma lep_gat l (f : field dK) : lep (gat S dK DP l f) = gat S K P l (fep f).
Proof. unfold lep, gat. rewrite map_map. apply map_ext. intros a. destruct (0 <=? a)%Z; reflexivity. Qed.
Lemma lre_gat l (f : field dK) : lre (gat S dK DP l f) = gat S K P l (fre f).
Proof. unfold lre, gat. rewrite map_map. apply map_ext. intros a. destruct (0 <=? a)%Z; reflexivity. Qed.
Lemma gat_ext l (f g : field K) : (forall p, f p = g p) -> gat S K P l f = gat S K P l g.
Proof. intros H. apply map_ext. intros a. destruct (0 <=? a)%Z; auto. Qed.
Lemma lep_srec ch s : lep (srec S dK DP ch s) = srec S K P ch (ssep s).
Proof.
  unfold srec. rewrite lep_gat. apply gat_ext. intros p. unfold fep at 1, chsum. rewrite snd_sumf. reflexivity.
Qed.
Lemma lre_srec ch s : lre (srec S dK DP ch s) = srec S K P ch (ssre s).
Proof.
  unfold srec. rewrite lre_gat. apply gat_ext. intros p. unfold fre at 1, chsum. rewrite fst_sumf. reflexivity.
Qed.

(** ** All steps *)
Lemma run_duality (c : Z -> coe S dK) (f : Z -> sC S -> list dK) gr n t (s : sst S dK) (g : sst S K) :
  ssup S K P g -> ssup S K P (ssep s) ->
  let ck := fun u => cre (c u) in
  let fk := fun u ch => lre (f u ch) in
  let gk := fun k => sbst S K P ck gr (n - 1 - k) (t + Z.of_nat k + 1)%Z g in
  sdot S K P g (ssep (sstate S dK DP c f n t s))
  + sumk K n (fun k => cdot S K (gr (t + Z.of_nat k)%Z) (fun ch => lep (srec S dK DP ch (sstate S dK DP c f k t s))))
  = sdot S K P (sbst S K P ck gr n t g) (ssep s)
    + sumk K n (fun k => cdot S K (grad_f S K P (ck (t + Z.of_nat k)%Z) (gk k)) (fun ch => lep (f (t + Z.of_nat k)%Z ch)))
    + sumk K n (fun k => kdot S K P (grad_c S K P (ck (t + Z.of_nat k)%Z) (fk (t + Z.of_nat k)%Z)
                                        (sstate S K P ck fk k t (ssre s)) (gk k)) (cep (c (t + Z.of_nat k)%Z))).
Proof.
  cbv zeta. revert t s. induction n as [|n IH]; intros t s Hg Hs.
  - unfold sumk. cbn. ring.
  - set (ck := fun u => cre (c u)) in *. set (fk := fun u ch => lre (f u ch)) in *.
    assert (Hs1 : ssup S K P (tsstep S K P (ck t) (cep (c t)) (fk t) (fun ch => lep (f t ch)) (ssre s) (ssep s))).
    { apply (ssup_thstep S K Kr P Hsrc), (ssup_thstep S K Kr P Hsrc), Hs. }
    assert (Hs2 : ssup S K P (ssep (sstep S dK DP (c t) (f t) s))).
    { destruct (ssep_sstep (c t) (f t) s) as [G1 G2]. destruct Hs1 as [G3 G4].
      split; intros x Hx p Hp; [rewrite G1 by auto; apply G3|rewrite G2 by auto; apply G4]; auto. }
    specialize (IH (t + 1)%Z (sstep S dK DP (c t) (f t) s) Hg Hs2).
    rewrite !(sumk_S K). cbn [sstate sbst]. 
    replace (Datatypes.S n - 1 - 0)%nat with n by lia. rewrite Z.add_0_r.
    pose proof (step_duality S K Kr P Sok Hsrc Hrec (ck t) (cep (c t)) (fk t) (fun ch => lep (f t ch)) (gr t) (ssre s)
                  (sbst S K P ck gr n (t + 1)%Z g) (ssep s)
                  (ssup_sbst S K Kr P Sok Hrec _ _ _ _ _ Hg) Hs) as E.
    rewrite <- (sdot_ext S K P _ _ _ _ (sseq_refl S K _) (ssep_sstep (c t) (f t) s)) in E.
    set (X1 := sumk K n (fun k => cdot S K (gr (t + 1 + Z.of_nat k)%Z) _)) in IH.
    set (X2 := sumk K n (fun k => cdot S K (grad_f _ _ _ _ _) _)) in IH.
    set (X3 := sumk K n (fun k => kdot _ _ _ _ _)) in IH.
    match goal with |- ?a + (?b + ?r1) = ?d + (?e1 + ?r2) + (?h + ?r3) =>
      assert (R1 : r1 = X1); [|assert (R2 : r2 = X2); [|assert (R3 : r3 = X3)]] end.
    + unfold X1. apply sumf_ext. intros k _. replace (t + Z.of_nat (Datatypes.S k))%Z with (t + 1 + Z.of_nat k)%Z by lia. reflexivity.
    + unfold X2. apply sumf_ext. intros k Hk. replace (t + Z.of_nat (Datatypes.S k))%Z with (t + 1 + Z.of_nat k)%Z by lia.
      replace (Datatypes.S n - 1 - Datatypes.S k)%nat with (n - 1 - k)%nat by lia. reflexivity.
    + unfold X3. apply sumf_ext. intros k Hk. replace (t + Z.of_nat (Datatypes.S k))%Z with (t + 1 + Z.of_nat k)%Z by lia.
      replace (Datatypes.S n - 1 - Datatypes.S k)%nat with (n - 1 - k)%nat by lia.
      apply sumf_ext. intros x Hx. apply sumf_ext. intros e He. apply In_incE in He. apply (dot_ext K); [|reflexivity].
      intros p _. unfold grad_c. f_equal.
      assert (Q : sseq S K (sstate S K P ck fk k (t + 1) (sstep S K P (ck t) (fk t) (ssre s)))
                 (sstate S K P ck fk k (t + 1) (ssre (sstep S dK DP (c t) (f t) s)))).
      { apply (sstate_ext S K P Sok); [intros ? ? ? ? ? ?; reflexivity|reflexivity|]. apply sseq_sym, ssre_sstep. }
      apply (term_ext S K P Sok); [|tauto]. destruct (eA S e); [exact Q|].
      apply (hstep_ext S K P Sok); [intros ? ? ? ? ?; reflexivity|reflexivity|exact Q].
    + rewrite R1, R2, R3. clear R1 R2 R3.
      assert (EE : cdot S K (gr t) (fun ch => lep (srec S dK DP ch s)) = cdot S K (gr t) (fun ch => srec S K P ch (ssep s))).
      { apply sumf_ext. intros ch _. rewrite lep_srec. reflexivity. }
      rewrite EE. clear EE.
      change (0%nat) with O. cbn [sstate].
      match type of IH with ?a + ?b = ?c + ?d + ?e =>
        match type of E with ?a2 + ?b2 = ?c2 + ?d2 + ?e2 =>
          transitivity ((a + b) + b2); [ring|]; rewrite IH;
          transitivity ((a2 + b2) + d + e); [ring|] end end.
      rewrite E. unfold ck, fk. ring.
Qed.

End Dual.
