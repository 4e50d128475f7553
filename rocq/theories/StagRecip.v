(** * Staggered-grid systems without PML: reciprocity (proofs). *)
From Coq Require Import List ZArith QArith Ring Ring_theory Lia Bool Permutation.
From Verif Require Import Ops Sums Grid Stencil DualNum ScalarModel ScalarRefine ScalarForward ScalarAdjoint Loop
  Stag StagAdj StagKernel StagCell StagRefine StagGrad StagEqs StagRun StagEnergy StagPhys.
Import ListNotations.
Local Open Scope K_scope.

Local Arguments der : simpl never.
Local Arguments der' : simpl never.
Local Arguments dmask : simpl never.
Local Arguments srcf : simpl never.
Local Arguments gat : simpl never.
Local Arguments term : simpl never.
Local Arguments nmem : simpl never.
Local Arguments injs : simpl never.

(** Structure behind reciprocity: every term has a mate, whose derivative is the adjoint, and the
    coefficients come from a symmetric matrix of moduli [hC] at every point: the term [e] acts on
    the variable that its mate differentiates, and then through [hC]. *)
Record recip_ok (S : sys) (K : ops) (nd : nat) (c : coe S K) (mate : sE S -> sE S) (hC : sX S -> sX S -> field K) : Prop := {
  rc_in : forall e, In e (allE S) -> In (mate e) (allE S);
  rc_inv : forall e, In e (allE S) -> mate (mate e) = e;
  rc_dim : forall e, In e (allE S) -> edim S (mate e) = edim S e;
  rc_h : forall e, In e (allE S) -> eh S (mate e) (edim S e) = negb (eh S e (edim S e));
  rc_A : forall e, In e (allE S) -> eA S (mate e) = negb (eA S e);
  rc_perm : Permutation (map mate (allE S)) (allE S);
  rc_coe : forall x e p, In x (allX S) -> In e (allE S) -> (if inc S x e then c x e p else 0) = hC x (esrc S (mate e)) p;
  rc_sym : forall x w p, In x (allX S) -> In w (allX S) -> hC x w p = hC w x p;
  rc_dom : forall x w, In x (allX S) -> In w (allX S) ->
    (forall p, hC x w p = 0) \/ (xA S x = xA S w /\ forall d, (d < nd)%nat -> xh S x d = xh S w d)
}.

(** Unit impulse of kind [ch] at the cell with index [l]. *)
Definition impulse (S : sys) (K : ops) (shape : list Z) (ch : sC S) (l : Z) : sX S -> field K :=
  fun x p => if cin S ch x then (if pt_eq_dec (unidx shape l) p then 1 else 0) else 0.

Section Recip.
Variable S : sys.
Variable K : ops.
Hypothesis Kr : is_ring K.
Add Ring KRing : Kr.
Variable P : spar S K.
Variable pw : nat -> Z * Z.
Notation shape := (sp_shape P).
Notation fd := (fd_pad (sp_acc P)).
Notation nd := (length shape).
Notation L := (spts S K P).
Hypothesis Sok : sys_ok S nd.
Hypothesis Hgeo : sgeom S K P pw.
Hypothesis HN : no_layers nd pw.
Variable c : coe S K.
Variable mate : sE S -> sE S.
Variable hC : sX S -> sX S -> field K.
Hypothesis R : recip_ok S K nd c mate hC.

Notation mst := (sX S -> field K).
Notation D := (der S K P).
Notation dm := (dmask S K P).
Notation inX x := (In x (allX S)).
Notation inE e := (In e (allE S)).
Notation hs := (hs S K P c).
Notation ms := (ms S K P c).
Notation mrun := (mrun S K P c).
Notation meq := (meq S K).
Notation msup := (msup S K P).
Notation y e := (esrc S (mate e)).

Lemma in_y e : inE e -> inX (y e).
Proof. intros He. apply (ok_srcin S nd Sok), (rc_in _ _ _ _ _ _ R), He. Qed.
Lemma xA_y e : inE e -> xA S (y e) = eA S e.
Proof.
  intros He. rewrite (ok_half S nd Sok) by apply (rc_in _ _ _ _ _ _ R), He.
  rewrite (rc_A _ _ _ _ _ _ R) by exact He. apply negb_involutive.
Qed.
Lemma der_mate e f : inE e -> der' S K P e f = D (mate e) f.
Proof.
  intros He. unfold der', der. rewrite (rc_dim _ _ _ _ _ _ R), (rc_h _ _ _ _ _ _ R) by exact He.
  destruct (eh S e (edim S e)); reflexivity.
Qed.

Definition Cz (z : mst) : mst := fun x p => sumf (allX S) (fun w => hC x w p * z w p).
Definition zs (A : bool) (z : mst) : mst := fun w =>
  if Bool.eqb (xA S w) A
  then dm (xh S w) (fun p => z w p + sumf (allE S) (fun e => if esrcb S (mate e) w then D e (Cz z (esrc S e)) p else 0))
  else z w.
Definition zms (z : mst) : mst := zs false (zs true z).
Fixpoint zrun (n : nat) (z : mst) : mst := match n with O => z | Datatypes.S n' => zms (zrun n' z) end.

Lemma Cz_ext z z' : meq z z' -> meq (Cz z) (Cz z').
Proof. intros H x p Hx. apply (sumf_ext K). intros w Hw. rewrite (H w p Hw). reflexivity. Qed.
Lemma Cz_sup z : msup z -> msup (Cz z).
Proof.
  intros H x Hx p Hp. unfold Cz. apply (sumf_zero K Kr). intros w Hw.
  destruct (rc_dom _ _ _ _ _ _ R x w Hx Hw) as [Z|[_ Hh]]; [rewrite Z; ring|].
  rewrite (H w Hw p); [ring|]. rewrite <- (dom_ext S K P (xh S x) (xh S w) p Hh). exact Hp.
Qed.
Lemma zs_sup A z : msup z -> msup (zs A z).
Proof. intros H x Hx. unfold zs. destruct (Bool.eqb (xA S x) A); [apply fsup_dmask|apply H, Hx]. Qed.
Lemma zrun_sup n z : msup z -> msup (zrun n z).
Proof. intros H. induction n; cbn [zrun]; [exact H|]. apply zs_sup, zs_sup, IHn. Qed.

Lemma sum_src e (g : sX S -> K) : inE e -> sumf (allX S) (fun w => if esrcb S (mate e) w then g w else 0) = g (y e).
Proof.
  intros He. rewrite (sumf_single K Kr (allX S) (y e)).
  - assert (E : esrcb S (mate e) (y e) = true) by (apply (ok_srcb S nd Sok); [apply (rc_in _ _ _ _ _ _ R), He|reflexivity]).
    rewrite E. reflexivity.
  - apply (ok_X S nd Sok).
  - apply in_y, He.
  - intros w _ Hw. destruct (esrcb S (mate e) w) eqn:E; [|reflexivity].
    apply (ok_srcb S nd Sok) in E; [congruence|apply (rc_in _ _ _ _ _ _ R), He].
Qed.

Lemma Cz_zs A z : meq (Cz (zs A z)) (hs A (Cz z)).
Proof.
  intros x p Hx. unfold StagPhys.hs. destruct (Bool.eqb_spec (xA S x) A) as [HA|HA].
  - unfold dmask. destruct (dom S K P (xh S x) p) eqn:E.
    + unfold Cz at 1.
      rewrite (sumf_ext K (allX S) _ (fun w => hC x w p * z w p + sumf (allE S) (fun e => if esrcb S (mate e) w then hC x w p * D e (Cz z (esrc S e)) p else 0))).
      2:{ intros w Hw. destruct (rc_dom _ _ _ _ _ _ R x w Hx Hw) as [Z|[HAw Hh]].
          - rewrite (sumf_zero K Kr (allE S)); [rewrite Z; ring|]. intros e _. destruct (esrcb S (mate e) w); [rewrite Z; ring|reflexivity].
          - unfold zs. rewrite <- HAw, HA, eqb_reflx. unfold dmask. rewrite <- (dom_ext S K P (xh S x) (xh S w) p Hh), E.
            rewrite (sumf_ext K (allE S) (fun e => if esrcb S (mate e) w then hC x w p * D e (Cz z (esrc S e)) p else 0)
                      (fun e => hC x w p * (if esrcb S (mate e) w then D e (Cz z (esrc S e)) p else 0))).
            + rewrite (sumf_scal K Kr). ring.
            + intros e _. destruct (esrcb S (mate e) w); ring. }
      rewrite (sumf_add K Kr). unfold Cz at 2. f_equal. rewrite (sumf_swap K Kr). unfold incE. rewrite (sumf_filter_if K Kr).
      apply (sumf_ext K). intros e He. rewrite (sum_src e (fun w => hC x w p * D e (Cz z (esrc S e)) p) He).
      rewrite <- (rc_coe _ _ _ _ _ _ R x e p Hx He). destruct (inc S x e); ring.
    + unfold Cz at 1. apply (sumf_zero K Kr). intros w Hw. destruct (rc_dom _ _ _ _ _ _ R x w Hx Hw) as [Z|[HAw Hh]]; [rewrite Z; ring|].
      unfold zs. rewrite <- HAw, HA, eqb_reflx. unfold dmask. rewrite <- (dom_ext S K P (xh S x) (xh S w) p Hh), E. ring.
  - unfold Cz. apply (sumf_ext K). intros w Hw. destruct (rc_dom _ _ _ _ _ _ R x w Hx Hw) as [Z|[HAw Hh]]; [rewrite Z; ring|].
    unfold zs. rewrite <- HAw. destruct (Bool.eqb_spec (xA S x) A); [contradiction|reflexivity].
Qed.
Lemma Cz_zms z : meq (Cz (zms z)) (ms (Cz z)).
Proof. unfold zms, StagPhys.ms. eapply meq_trans; [apply Cz_zs|]. apply (hs_ext S K P Sok), Cz_zs. Qed.
Lemma Cz_zrun n z : meq (Cz (zrun n z)) (mrun n (Cz z)).
Proof.
  induction n; cbn [zrun StagPhys.mrun]; [apply meq_refl|].
  eapply meq_trans; [apply Cz_zms|]. apply (ms_ext S K P Sok), IHn.
Qed.

(** Pairings. *)
Definition sg (b : bool) : K := if b then - (1) else 1.
Definition pr (z s : mst) : K := sumf (allX S) (fun x => sg (xA S x) * dot L (z x) (s x)).
Definition up (z s : mst) : K := sumf (allX S) (fun x => dot L (z x) (s x)).

Lemma dot_ext2 (f f' g g' : field K) : (forall p, f p = f' p) -> (forall p, g p = g' p) -> dot L f g = dot L f' g'.
Proof. intros H H'. apply (sumf_ext K). intros p _. rewrite H, H'. reflexivity. Qed.
Lemma dot_plus_l (f g h : field K) : dot L (fun p => f p + g p) h = dot L f h + dot L g h.
Proof. unfold dot. rewrite <- (sumf_add K Kr). apply (sumf_ext K). intros p _. ring. Qed.
Lemma dot_plus_r (f g h : field K) : dot L h (fun p => f p + g p) = dot L h f + dot L h g.
Proof. unfold dot. rewrite <- (sumf_add K Kr). apply (sumf_ext K). intros p _. ring. Qed.
Lemma pr_ext z z' s s' : meq z z' -> meq s s' -> pr z s = pr z' s'.
Proof. intros H H'. apply (sumf_ext K). intros x Hx. f_equal. apply dot_ext2; intros p; [apply H|apply H']; exact Hx. Qed.
Lemma up_ext z z' s s' : meq z z' -> meq s s' -> up z s = up z' s'.
Proof. intros H H'. apply (sumf_ext K). intros x Hx. apply dot_ext2; intros p; [apply H|apply H']; exact Hx. Qed.
Lemma up_comm z s : up z s = up s z.
Proof. apply (sumf_ext K). intros x _. apply (dot_comm K Kr). Qed.
Lemma up_C z z' : up z (Cz z') = up (Cz z) z'.
Proof.
  unfold up, Cz.
  rewrite (sumf_ext K (allX S) _ (fun x => sumf (allX S) (fun w => dot L (fun p => hC x w p * z x p) (z' w)))).
  2:{ intros x _. rewrite (dot_sum_r S K Kr P). apply (sumf_ext K). intros w _. apply (sumf_ext K). intros p _. ring. }
  rewrite (sumf_swap K Kr). apply (sumf_ext K). intros w Hw. rewrite (dot_sum_l S K Kr P).
  apply (sumf_ext K). intros x Hx. apply (sumf_ext K). intros p _. rewrite (rc_sym _ _ _ _ _ _ R x w p Hx Hw). reflexivity.
Qed.

Definition G (z s : mst) (e : sE S) : K := dot L (D e (Cz z (esrc S e))) (s (y e)).

Lemma pr_zs_l A z s : msup z -> msup s ->
  pr (zs A z) s = pr z s + sg A * sumf (allE S) (fun e => if Bool.eqb (eA S e) A then G z s e else 0).
Proof.
  intros Hz Hs. unfold pr.
  rewrite (sumf_ext K (allX S) _ (fun x => sg (xA S x) * dot L (z x) (s x)
     + sg A * sumf (allE S) (fun e => if esrcb S (mate e) x then (if Bool.eqb (xA S x) A then dot L (D e (Cz z (esrc S e))) (s x) else 0) else 0))).
  - rewrite (sumf_add K Kr), (sumf_scal K Kr), (sumf_swap K Kr). f_equal. f_equal. apply (sumf_ext K). intros e He.
    rewrite (sum_src e (fun x => if Bool.eqb (xA S x) A then dot L (D e (Cz z (esrc S e))) (s x) else 0) He), xA_y by exact He. reflexivity.
  - intros x Hx. unfold zs. destruct (Bool.eqb_spec (xA S x) A) as [HA|HA].
    + rewrite (dot_dmask_l S K Kr P) by (apply Hs, Hx). rewrite HA.
      rewrite dot_plus_l.
      rewrite (dot_sum_l S K Kr P).
      rewrite (sumf_ext K (allE S) (fun e => dot L (fun p => if esrcb S (mate e) x then D e (Cz z (esrc S e)) p else 0) (s x))
         (fun e => if esrcb S (mate e) x then dot L (D e (Cz z (esrc S e))) (s x) else 0)); [ring|].
      intros e _. destruct (esrcb S (mate e) x); [reflexivity|]. apply (sumf_zero K Kr). intros p _. ring.
    + rewrite (sumf_zero K Kr (allE S)); [ring|]. intros e _. destruct (esrcb S (mate e) x); reflexivity.
Qed.

Lemma pr_hs_r A z s : msup z -> msup s ->
  pr z (hs A s) = pr z s + sg A * sumf (allE S) (fun e => if Bool.eqb (eA S e) A then dot L (Cz z (y e)) (D e (s (esrc S e))) else 0).
Proof.
  intros Hz Hs. unfold pr.
  rewrite (sumf_ext K (allX S) _ (fun x => sg (xA S x) * dot L (z x) (s x)
     + sg A * sumf (allE S) (fun e => if Bool.eqb (xA S x) A then dot L (fun p => hC x (y e) p * z x p) (D e (s (esrc S e))) else 0))).
  - rewrite (sumf_add K Kr), (sumf_scal K Kr), (sumf_swap K Kr). f_equal. f_equal. apply (sumf_ext K). intros e He.
    unfold Cz. destruct (Bool.eqb_spec (eA S e) A) as [HA|HA].
    + rewrite (dot_sum_l S K Kr P). apply (sumf_ext K). intros x Hx.
      destruct (Bool.eqb_spec (xA S x) A) as [HAx|HAx].
      * apply (sumf_ext K). intros p _. rewrite (rc_sym _ _ _ _ _ _ R x (y e) p Hx (in_y e He)). reflexivity.
      * symmetry. apply (sumf_zero K Kr). intros p _.
        destruct (rc_dom _ _ _ _ _ _ R (y e) x (in_y e He) Hx) as [Z|[HH _]]; [rewrite Z; ring|].
        rewrite xA_y in HH by exact He. congruence.
    + apply (sumf_zero K Kr). intros x Hx. destruct (Bool.eqb_spec (xA S x) A) as [HAx|HAx]; [|reflexivity].
      apply (sumf_zero K Kr). intros p _.
      destruct (rc_dom _ _ _ _ _ _ R x (y e) Hx (in_y e He)) as [Z|[HH _]]; [rewrite Z; ring|].
      rewrite xA_y in HH by exact He. congruence.
  - intros x Hx. unfold StagPhys.hs. destruct (Bool.eqb_spec (xA S x) A) as [HA|HA].
    + rewrite (dot_dmask_r S K Kr P) by (apply Hz, Hx). rewrite HA.
      rewrite dot_plus_r.
      rewrite (dot_ext2 (z x) (z x) (fun p => sumf (incE S x) (fun e => c x e p * D e (s (esrc S e)) p))
         (fun p => sumf (allE S) (fun e => hC x (y e) p * D e (s (esrc S e)) p))).
      * rewrite (dot_sum_r S K Kr P).
        rewrite (sumf_ext K (allE S) (fun e => dot L (z x) (fun p => hC x (y e) p * D e (s (esrc S e)) p))
           (fun e => dot L (fun p => hC x (y e) p * z x p) (D e (s (esrc S e))))); [ring|].
        intros e _. apply (sumf_ext K). intros p _. ring.
      * intros p. reflexivity.
      * intros p. unfold incE. rewrite (sumf_filter_if K Kr). apply (sumf_ext K). intros e He.
        rewrite <- (rc_coe _ _ _ _ _ _ R x e p Hx He). destruct (inc S x e); ring.
    + rewrite (sumf_zero K Kr (allE S)); [ring|]. intros e _. reflexivity.
Qed.

Lemma pr_swap A z s : msup z -> msup s -> pr (zs A z) s = pr z (hs (negb A) s).
Proof.
  intros Hz Hs. rewrite pr_zs_l, pr_hs_r by assumption. f_equal.
  rewrite (sumf_ext K (allE S) (fun e => if Bool.eqb (eA S e) (negb A) then dot L (Cz z (y e)) (D e (s (esrc S e))) else 0)
    (fun e => - (if Bool.eqb (eA S (mate e)) A then G z s (mate e) else 0))).
  - rewrite (sumf_opp K Kr), <- (sumf_map K mate (allE S) (fun e => if Bool.eqb (eA S e) A then G z s e else 0)).
    rewrite (sumf_perm K Kr _ _ (fun e => if Bool.eqb (eA S e) A then G z s e else 0) (rc_perm _ _ _ _ _ _ R)).
    unfold sg. destruct A; cbn [negb]; ring.
  - intros e He. rewrite (rc_A _ _ _ _ _ _ R) by exact He.
    assert (E : Bool.eqb (negb (eA S e)) A = Bool.eqb (eA S e) (negb A)) by (destruct (eA S e), A; reflexivity). rewrite E.
    destruct (Bool.eqb (eA S e) (negb A)); [|ring].
    rewrite (der_sbp S K Kr P).
    + unfold G. rewrite (rc_inv _ _ _ _ _ _ R), der_mate by exact He. reflexivity.
    + apply (fsup_supp S K P (xh S (y e))), Cz_sup; [exact Hz|apply in_y, He].
    + apply (fsup_supp S K P (xh S (esrc S e))), Hs, (ok_srcin S nd Sok e He).
Qed.
Lemma pr_zrun n z s : msup z -> msup s -> pr (zrun n z) s = pr z (mrun n s).
Proof.
  intros Hz. revert s. induction n as [|n IH]; intros s Hs; [reflexivity|].
  rewrite mrun_S_in. cbn [zrun]. unfold zms.
  rewrite (pr_swap false), (pr_swap true) by (try apply zs_sup; try apply (hs_sup S K P); try apply zrun_sup; assumption).
  apply IH. apply (hs_sup S K P), (hs_sup S K P), Hs.
Qed.

(** ** Responses to impulses *)
Notation ip := (impulse S K shape).
Definition okl (ch : sC S) (l : Z) : Prop := forall x, inX x -> cin S ch x = true -> dom S K P (xh S x) (unidx shape l) = true.
(** Value at [l] of the variables of kind [ch]. *)
Definition rd (ch : sC S) (l : Z) (m : mst) : K := sumf (cinX S ch) (fun x => m x (unidx shape l)).
Definition dl (ch : sC S) : nat := if cA S ch then 1 else 0.

Lemma ip_sup ch l : okl ch l -> msup (ip ch l).
Proof.
  intros H x Hx p Hp. unfold impulse. destruct (cin S ch x) eqn:E; [|reflexivity].
  destruct (pt_eq_dec (unidx shape l) p) as [<-|]; [|reflexivity]. rewrite (H x Hx E) in Hp. discriminate Hp.
Qed.
Lemma ip_half ch l x p : In ch (allC S) -> inX x -> xA S x <> cA S ch -> ip ch l x p = 0.
Proof.
  intros Hc Hx HA. unfold impulse. destruct (cin S ch x) eqn:E; [|reflexivity].
  exfalso. apply HA, (ok_cin S nd Sok ch x Hc Hx E).
Qed.
Lemma rd_ext ch l m m' : meq m m' -> rd ch l m = rd ch l m'.
Proof. intros H. apply (sumf_ext K). intros x Hx. unfold cinX in Hx. apply filter_In in Hx. apply H, Hx. Qed.
Lemma rd_scal ch l k m : rd ch l (fun x p => k * m x p) = k * rd ch l m.
Proof. apply (sumf_scal K Kr). Qed.
Lemma rd_up ch l m : okl ch l -> rd ch l m = up (ip ch l) m.
Proof.
  intros H. unfold rd, up, cinX. rewrite (sumf_filter_if K Kr). apply (sumf_ext K). intros x Hx.
  unfold impulse, dot. destruct (cin S ch x) eqn:E.
  - rewrite (sumf_single K Kr L (unidx shape l)).
    + destruct (pt_eq_dec (unidx shape l) (unidx shape l)); [ring|congruence].
    + apply NoDup_spts.
    + apply In_spts, (dom_array S K P (xh S x)), H; assumption.
    + intros p _ Hp. destruct (pt_eq_dec (unidx shape l) p); [congruence|ring].
  - symmetry. apply (sumf_zero K Kr). intros p _. ring.
Qed.
Lemma up_scal_l k z s : up (fun x p => k * z x p) s = k * up z s.
Proof.
  unfold up. rewrite <- (sumf_scal K Kr). apply (sumf_ext K). intros x _. unfold dot. rewrite <- (sumf_scal K Kr).
  apply (sumf_ext K). intros p _. ring.
Qed.
Lemma sg_sg A : sg A * sg A = 1. Proof. unfold sg. destruct A; ring. Qed.
Lemma pr_ip_r ch l z : In ch (allC S) -> pr z (ip ch l) = sg (cA S ch) * up (ip ch l) z.
Proof.
  intros Hc. rewrite up_comm. unfold pr, up. rewrite <- (sumf_scal K Kr). apply (sumf_ext K). intros x Hx.
  destruct (Bool.bool_dec (xA S x) (cA S ch)) as [->|HA]; [reflexivity|].
  assert (Z : dot L (z x) (ip ch l x) = 0).
  { apply (sumf_zero K Kr). intros p _. rewrite (ip_half ch l x p Hc Hx HA). ring. }
  rewrite Z. ring.
Qed.
Lemma pr_ip_l ch l z : In ch (allC S) -> pr (ip ch l) z = sg (cA S ch) * up (ip ch l) z.
Proof.
  intros Hc. rewrite <- pr_ip_r by exact Hc. unfold pr. apply (sumf_ext K). intros x _. f_equal. apply (dot_comm K Kr).
Qed.

(** The moduli multiply an impulse by a number. *)
Definition eig (ch : sC S) (l : Z) (al : K) : Prop := meq (Cz (ip ch l)) (fun x p => al * ip ch l x p).

Lemma imp_sym c1 l1 a1 c2 l2 a2 n : In c1 (allC S) -> In c2 (allC S) -> okl c1 l1 -> okl c2 l2 -> eig c1 l1 a1 -> eig c2 l2 a2 ->
  a1 * rd c2 l2 (mrun n (ip c1 l1)) = sg (cA S c1) * sg (cA S c2) * (a2 * rd c1 l1 (mrun n (ip c2 l2))).
Proof.
  intros H1 H2 O1 O2 E1 E2. rewrite <- rd_scal.
  rewrite (rd_ext c2 l2 _ (Cz (zrun n (ip c1 l1)))).
  - rewrite rd_up by exact O2. rewrite up_C.
    rewrite (up_ext _ (fun x p => a2 * ip c2 l2 x p) _ (zrun n (ip c1 l1)) E2) by apply meq_refl.
    rewrite up_scal_l. rewrite (rd_up c1 l1) by exact O1.
    assert (Q : pr (zrun n (ip c1 l1)) (ip c2 l2) = pr (ip c1 l1) (mrun n (ip c2 l2))) by (apply pr_zrun; apply ip_sup; assumption).
    rewrite pr_ip_r in Q by exact H2. rewrite pr_ip_l in Q by exact H1.
    transitivity (a2 * ((sg (cA S c2) * sg (cA S c2)) * up (ip c2 l2) (zrun n (ip c1 l1)))); [rewrite sg_sg; ring|].
    transitivity (sg (cA S c2) * a2 * (sg (cA S c2) * up (ip c2 l2) (zrun n (ip c1 l1)))); [ring|]. rewrite Q. ring.
  - apply meq_sym. eapply meq_trans; [apply Cz_zrun|]. eapply meq_trans; [apply (mrun_ext S K P Sok), E1|].
    apply (mrun_scal S K Kr P Sok).
Qed.
Lemma ip_other c1 l1 c2 l2 : In c1 (allC S) -> In c2 (allC S) -> cA S c1 <> cA S c2 -> rd c2 l2 (ip c1 l1) = 0.
Proof.
  intros H1 H2 HA. apply (sumf_zero K Kr). intros x Hx. unfold cinX in Hx. apply filter_In in Hx. destruct Hx as [Hx Hc].
  apply ip_half; [exact H1|exact Hx|]. rewrite (ok_cin S nd Sok c2 x H2 Hx Hc). congruence.
Qed.

(** The first half step does nothing to an impulse of its own variables. *)
Lemma hs_own A m : msup m -> (forall x p, inX x -> xA S x <> A -> m x p = 0) -> meq (hs A m) m.
Proof.
  intros Hm Hz x p Hx. unfold StagPhys.hs. destruct (Bool.eqb_spec (xA S x) A) as [HA|HA]; [|reflexivity].
  unfold dmask. destruct (dom S K P (xh S x) p) eqn:E; [|symmetry; apply Hm; assumption].
  rewrite (sumf_zero K Kr); [ring|]. intros e He. apply In_incE in He. destruct He as [He Hi].
  pose proof (ok_inc S nd Sok x e Hx He Hi) as [HE _]. pose proof (ok_half S nd Sok e He) as HH.
  assert (Z : forall q, m (esrc S e) q = 0).
  { intros q. apply Hz; [apply (ok_srcin S nd Sok e He)|]. rewrite HH, <- HE, HA. destruct A; discriminate. }
  rewrite (der_ext S K P e _ (fun q => 0 * 0 + 0 * 0)) by (intros q; rewrite Z; ring).
  rewrite (der_lc S K Kr P 0 0 e (fun _ => 0) (fun _ => 0)). ring.
Qed.
Definition Jp (ch : sC S) (m : mst) : mst := if cA S ch then hs false m else m.
Lemma Jp_ip ch l : In ch (allC S) -> okl ch l -> meq (Jp ch (ip ch l)) (mrun (dl ch) (ip ch l)).
Proof.
  intros Hc Ho. unfold Jp, dl. destruct (cA S ch) eqn:E; [|apply meq_refl].
  cbn [StagPhys.mrun]. unfold StagPhys.ms. apply (hs_ext S K P Sok). apply meq_sym, hs_own; [apply ip_sup, Ho|].
  intros x p Hx HA. apply ip_half; congruence.
Qed.
Lemma mrun_plus n m z : mrun (n + m) z = mrun n (mrun m z).
Proof. induction n; [reflexivity|]. cbn [Nat.add StagPhys.mrun]. rewrite IHn. reflexivity. Qed.

(** ** Runs with one source *)
Section Drive.
Variable c1 : sC S.
Variable l1 : Z.
Variable f : Z -> sC S -> list K.
Variable q : Z -> K.
Hypothesis Hc1 : In c1 (allC S).
Hypothesis Hl1 : okl c1 l1.
Hypothesis Hinj : forall t x p, (0 <= t)%Z -> inX x ->
  sumf (cinC S x) (fun ch => srcf S K P (sp_src P ch) (f t ch) p) = q t * ip c1 l1 x p.

Lemma drive_step t s : (0 <= t)%Z -> meq (mn (sstep S K P c (f t) s)) (fun x p => ms (mn s) x p + q t * Jp c1 (ip c1 l1) x p).
Proof.
  intros Ht. unfold sstep, Jp.
  assert (H : forall A s, meq (mn (hstep S K P A c (f t) s)) (fun x p => hs A (mn s) x p + (if Bool.eqb A (cA S c1) then q t else 0) * ip c1 l1 x p)).
  { intros A s0 x p Hx. rewrite (hstep_hs S K Kr P pw Sok Hgeo HN) by exact Hx. f_equal.
    destruct (Bool.eqb_spec (xA S x) A) as [HA|HA].
    - rewrite (Hinj t x p Ht Hx). destruct (Bool.eqb_spec A (cA S c1)) as [HB|HB]; [reflexivity|].
      rewrite (ip_half c1 l1 x p Hc1 Hx) by congruence. ring.
    - destruct (Bool.eqb_spec A (cA S c1)) as [HB|HB]; [|ring]. rewrite (ip_half c1 l1 x p Hc1 Hx) by congruence. ring. }
  eapply meq_trans; [apply H|]. intros x p Hx. unfold StagPhys.ms.
  rewrite (hs_ext S K P Sok c false _ _ (H true s) x p Hx).
  rewrite (hs_lin S K Kr P c false _ _ _ x p Hx). destruct (cA S c1); cbn [Bool.eqb]; ring.
Qed.
Lemma drive n s : meq (mn s) (mzero S K) ->
  meq (mn (sstate S K P (fun _ => c) f n 0 s))
      (fun x p => sumf (seq 0 n) (fun i => q (Z.of_nat i) * mrun (n - 1 - i + dl c1) (ip c1 l1) x p)).
Proof.
  intros Hs. induction n as [|n IH]; [exact Hs|].
  rewrite sstate_last, Z.add_0_l. eapply meq_trans; [apply drive_step; lia|].
  intros x p Hx. rewrite (ms_ext S K P Sok c _ _ IH x p Hx).
  rewrite (ms_sum S K Kr P Sok c (seq 0 n) (fun i => q (Z.of_nat i)) (fun i => mrun (n - 1 - i + dl c1) (ip c1 l1)) x p Hx).
  rewrite seq_S, (sumf_app K Kr). cbn [sumf Nat.add]. f_equal.
  - apply (sumf_ext K). intros i Hi. apply in_seq in Hi. f_equal.
    replace (Datatypes.S n - 1 - i + dl c1)%nat with (Datatypes.S (n - 1 - i + dl c1)) by lia. reflexivity.
  - rewrite (Jp_ip c1 l1 Hc1 Hl1 x p Hx). replace (Datatypes.S n - 1 - n + dl c1)%nat with (dl c1) by lia. ring.
Qed.
Lemma drive_rd n s ch l : meq (mn s) (mzero S K) ->
  rd ch l (mn (sstate S K P (fun _ => c) f n 0 s)) =
  sumf (seq 0 n) (fun i => q (Z.of_nat i) * rd ch l (mrun (n - 1 - i + dl c1) (ip c1 l1))).
Proof.
  intros Hs. rewrite (rd_ext ch l _ _ (drive n s Hs)). unfold rd. rewrite (sumf_swap K Kr).
  apply (sumf_ext K). intros i _. rewrite (sumf_scal K Kr). reflexivity.
Qed.
End Drive.
End Recip.
