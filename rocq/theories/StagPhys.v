(** * Staggered-grid systems without PML: time reversal and reciprocity (proofs). *)
From Coq Require Import List ZArith QArith Ring Ring_theory Lia Bool Permutation.
From Verif Require Import Ops Sums Grid Stencil DualNum ScalarModel ScalarRefine ScalarForward ScalarAdjoint Loop
  Stag StagAdj StagKernel StagCell StagRefine StagGrad StagEqs StagRun StagEnergy.
Import ListNotations.
Local Open Scope K_scope.

Local Arguments der : simpl never.
Local Arguments der' : simpl never.
Local Arguments dmask : simpl never.
Local Arguments srcf : simpl never.
Local Arguments gat : simpl never.
Local Arguments term : simpl never.
Local Arguments nmem : simpl never.
Local Arguments injs : simpl never.

(** The same problem with other source and receiver locations. *)
Definition with_lists {S : sys} {K : ops} (P : spar S K) (src rec : sC S -> list Z) : spar S K :=
  mkspar (sp_acc P) (sp_shape P) (sp_rd P) (sp_a P) (sp_b P) src rec.

Section Main.
Variable S : sys.
Variable K : ops.
Hypothesis Kr : is_ring K.
Add Ring KRing : Kr.
Variable P : spar S K.
Variable pw : nat -> Z * Z.
Notation shape := (sp_shape P).
Notation fd := (fd_pad (sp_acc P)).
Notation nd := (length shape).
Notation L := (spts S K P).
Hypothesis Sok : sys_ok S nd.
Hypothesis Hgeo : sgeom S K P pw.
Hypothesis HN : no_layers nd pw.
Variable c : coe S K.

Notation mst := (sX S -> field K).
Notation D := (der S K P).
Notation dm := (dmask S K P).
Notation inX x := (In x (allX S)).
Notation inE e := (In e (allE S)).

Lemma nmem_none s e p : inE e -> nmem S K P s e p = 0.
Proof.
  intros He. unfold nmem, dmask. destruct (dom S K P (eh S e) p) eqn:E; [|reflexivity].
  apply updated_dom in E. pose proof (ok_dim S nd Sok e He) as Hd.
  destruct (no_prof S K P pw Hgeo HN (eh S e) (edim S e) p Hd E) as [Ha Hb]. unfold ea, eb. rewrite Ha, Hb. ring.
Qed.
Lemma term_none s e p : inE e -> term S K P s e p = D e (mn s (esrc S e)) p.
Proof. intros He. unfold term. rewrite nmem_none by exact He. ring. Qed.

(** Half step and step of the main variables alone. *)
Definition hs (A : bool) (m : mst) : mst := fun x =>
  if Bool.eqb (xA S x) A then dm (xh S x) (fun p => m x p + sumf (incE S x) (fun e => c x e p * D e (m (esrc S e)) p)) else m x.
Definition ms (m : mst) : mst := hs false (hs true m).
Fixpoint mrun (n : nat) (m : mst) : mst := match n with O => m | Datatypes.S n' => ms (mrun n' m) end.

Definition meq (m m' : mst) : Prop := forall x p, inX x -> m x p = m' x p.
Definition msup (m : mst) : Prop := forall x, inX x -> fsup S K P (xh S x) (m x).

Lemma meq_refl m : meq m m. Proof. intros x p _. reflexivity. Qed.
Lemma meq_sym m m' : meq m m' -> meq m' m. Proof. intros H x p Hx. symmetry. apply H, Hx. Qed.
Lemma meq_trans a b d : meq a b -> meq b d -> meq a d. Proof. intros H H' x p Hx. rewrite H, H' by exact Hx. reflexivity. Qed.
Lemma msup_ext m m' : meq m m' -> msup m -> msup m'.
Proof. intros H H' x Hx p Hp. rewrite <- (H x p Hx). apply H'; assumption. Qed.

Lemma In_incE x e : In e (incE S x) -> inE e /\ inc S x e = true.
Proof. unfold incE. rewrite filter_In. auto. Qed.

Lemma hs_ext A m m' : meq m m' -> meq (hs A m) (hs A m').
Proof.
  intros H x p Hx. unfold hs. destruct (Bool.eqb (xA S x) A); [|apply H, Hx].
  unfold dmask. destruct (dom S K P (xh S x) p); [|reflexivity]. rewrite (H x p Hx). f_equal.
  apply (sumf_ext K). intros e He. apply In_incE in He. destruct He as [He _]. f_equal.
  apply der_ext. intros q. apply H, (ok_srcin S nd Sok e He).
Qed.
Lemma hs_sup A m : msup m -> msup (hs A m).
Proof.
  intros H x Hx. unfold hs. destruct (Bool.eqb (xA S x) A); [apply fsup_dmask|apply H, Hx].
Qed.
Lemma ms_ext m m' : meq m m' -> meq (ms m) (ms m').
Proof. intros H. apply hs_ext, hs_ext, H. Qed.
Lemma mrun_ext n m m' : meq m m' -> meq (mrun n m) (mrun n m').
Proof. intros H. induction n; cbn [mrun]; [exact H|]. apply ms_ext, IHn. Qed.
Lemma mrun_sup n m : msup m -> msup (mrun n m).
Proof. intros H. induction n; cbn [mrun]; [exact H|]. apply hs_sup, hs_sup, IHn. Qed.
Lemma mrun_S_in n m : mrun (Datatypes.S n) m = mrun n (ms m).
Proof. induction n; [reflexivity|]. cbn [mrun] in *. rewrite IHn. reflexivity. Qed.

(** The half step of the full state. *)
Lemma hstep_hs A f s x p : inX x ->
  mn (hstep S K P A c f s) x p =
  hs A (mn s) x p + (if Bool.eqb (xA S x) A then sumf (cinC S x) (fun ch => srcf S K P (sp_src P ch) (f ch) p) else 0).
Proof.
  intros Hx. cbn [hstep mn]. unfold hs. destruct (Bool.eqb (xA S x) A); [|ring]. unfold injs. f_equal.
  unfold dmask. destruct (dom S K P (xh S x) p); [|reflexivity]. f_equal.
  apply (sumf_ext K). intros e He. apply In_incE in He. destruct He as [He _]. rewrite term_none by exact He. reflexivity.
Qed.

(** ** Linearity *)
Lemma hs_lin A k m m' : meq (hs A (fun x p => m x p + k * m' x p)) (fun x p => hs A m x p + k * hs A m' x p).
Proof.
  intros x p Hx. unfold hs. destruct (Bool.eqb (xA S x) A); [|reflexivity].
  unfold dmask. destruct (dom S K P (xh S x) p); [|ring].
  rewrite (sumf_ext K (incE S x) _ (fun e => c x e p * D e (m (esrc S e)) p + k * (c x e p * D e (m' (esrc S e)) p))).
  - rewrite (sumf_add K Kr), (sumf_scal K Kr). ring.
  - intros e _. rewrite (der_ext S K P e _ (fun q => 1 * m (esrc S e) q + k * m' (esrc S e) q)) by (intros q; ring).
    rewrite (der_lc S K Kr P). ring.
Qed.
Definition mzero : mst := fun _ _ => 0.
Lemma hs_zero A : meq (hs A mzero) mzero.
Proof.
  intros x p Hx. unfold hs, mzero. destruct (Bool.eqb (xA S x) A); [|reflexivity].
  unfold dmask. destruct (dom S K P (xh S x) p); [|reflexivity].
  rewrite (sumf_zero K Kr); [ring|]. intros e _.
  rewrite (der_ext S K P e _ (fun q => 0 * 0 + 0 * 0)) by (intros q; ring).
  rewrite (der_lc S K Kr P 0 0 e (fun _ => 0) (fun _ => 0)). ring.
Qed.
Lemma ms_lin k m m' : meq (ms (fun x p => m x p + k * m' x p)) (fun x p => ms m x p + k * ms m' x p).
Proof. unfold ms. eapply meq_trans; [apply hs_ext, hs_lin|]. apply hs_lin. Qed.
Lemma ms_zero : meq (ms mzero) mzero.
Proof. unfold ms. eapply meq_trans; [apply hs_ext, hs_zero|]. apply hs_zero. Qed.
Lemma hs_scal A k m : meq (hs A (fun x p => k * m x p)) (fun x p => k * hs A m x p).
Proof.
  eapply meq_trans; [apply (hs_ext A _ (fun x p => mzero x p + k * m x p)); intros x p _; unfold mzero; ring|].
  eapply meq_trans; [apply hs_lin|]. intros x p Hx. rewrite (hs_zero A x p Hx). unfold mzero. ring.
Qed.
Lemma ms_scal k m : meq (ms (fun x p => k * m x p)) (fun x p => k * ms m x p).
Proof. unfold ms. eapply meq_trans; [apply hs_ext, hs_scal|]. apply hs_scal. Qed.
Lemma mrun_scal n k m : meq (mrun n (fun x p => k * m x p)) (fun x p => k * mrun n m x p).
Proof.
  induction n; cbn [mrun]; [apply meq_refl|]. eapply meq_trans; [apply ms_ext, IHn|]. apply ms_scal.
Qed.
Lemma ms_sum {T} (l : list T) (k : T -> K) (m : T -> mst) :
  meq (ms (fun x p => sumf l (fun i => k i * m i x p))) (fun x p => sumf l (fun i => k i * ms (m i) x p)).
Proof.
  induction l as [|i l IH]; [exact ms_zero|].
  eapply meq_trans; [apply (ms_ext _ (fun x p => sumf l (fun i => k i * m i x p) + k i * m i x p)); intros x p _; cbn; ring|].
  eapply meq_trans; [apply ms_lin|]. intros x p Hx. rewrite (IH x p Hx). cbn. ring.
Qed.

(** ** Time reversal *)
Definition neg (m : mst) : mst := fun x p => if xA S x then - m x p else m x p.
Lemma neg_ext m m' : meq m m' -> meq (neg m) (neg m').
Proof. intros H x p Hx. unfold neg. rewrite (H x p Hx). reflexivity. Qed.
Lemma neg_neg m : meq (neg (neg m)) m.
Proof. intros x p _. unfold neg. destruct (xA S x); ring. Qed.
Lemma neg_sup m : msup m -> msup (neg m).
Proof. intros H x Hx p Hp. unfold neg. rewrite (H x Hx p Hp). destruct (xA S x); ring. Qed.

Lemma hs_src A m x e p : inX x -> xA S x = A -> In e (incE S x) -> D e (hs A m (esrc S e)) p = D e (m (esrc S e)) p.
Proof.
  intros Hx HA He. apply In_incE in He. destruct He as [He Hi]. apply der_ext. intros q.
  pose proof (ok_inc S nd Sok x e Hx He Hi) as [HE _]. pose proof (ok_half S nd Sok e He) as HH.
  unfold hs. rewrite HH, <- HE, HA. destruct A; reflexivity.
Qed.
Lemma neg_src A m x e p : inX x -> xA S x = A -> In e (incE S x) ->
  D e (neg m (esrc S e)) p = (if A then 1 else - (1)) * D e (m (esrc S e)) p.
Proof.
  intros Hx HA He. apply In_incE in He. destruct He as [He Hi].
  pose proof (ok_inc S nd Sok x e Hx He Hi) as [HE _]. pose proof (ok_half S nd Sok e He) as HH.
  rewrite (der_ext S K P e _ (fun q => (if A then 1 else - (1)) * m (esrc S e) q + 0 * m (esrc S e) q)).
  - rewrite (der_lc S K Kr P). ring.
  - intros q. unfold neg. rewrite HH, <- HE, HA. destruct A; cbn; ring.
Qed.
(** A half step is undone by the same half step on the state with reversed velocities. *)
Lemma rev_half A m : msup m -> meq (hs A (neg (hs A m))) (neg m).
Proof.
  intros H x p Hx. unfold hs at 1. destruct (Bool.eqb_spec (xA S x) A) as [HA|HA].
  2:{ unfold neg, hs. destruct (Bool.eqb_spec (xA S x) A); [contradiction|reflexivity]. }
  unfold dmask. destruct (dom S K P (xh S x) p) eqn:E.
  2:{ symmetry. apply (neg_sup m H x Hx p E). }
  rewrite (sumf_ext K (incE S x) _ (fun e => (if A then 1 else - (1)) * (c x e p * D e (m (esrc S e)) p))).
  - rewrite (sumf_scal K Kr). unfold neg, hs. rewrite HA, eqb_reflx. unfold dmask. rewrite E. destruct A; ring.
  - intros e He. rewrite (neg_src A _ x e p Hx HA He), (hs_src A m x e p Hx HA He). ring.
Qed.
Lemma rev_step m : msup m -> meq (ms (neg (hs true (ms m)))) (neg (hs true m)).
Proof.
  intros H. unfold ms at 1. eapply meq_trans; [apply hs_ext, rev_half, hs_sup, hs_sup, H|].
  unfold ms. apply rev_half, hs_sup, H.
Qed.
Lemma rev_run n m : msup m -> meq (mrun n (neg (hs true (mrun n m)))) (neg (hs true m)).
Proof.
  revert m. induction n as [|n IH]; intros m H; [apply meq_refl|].
  eapply meq_trans; [rewrite mrun_S_in; apply mrun_ext; cbn [mrun]; apply rev_step, mrun_sup, H|]. apply IH, H.
Qed.

(** States without sources. *)
Lemma sstep_ms f s : (forall ch, In ch (allC S) -> Forall (fun a => a = 0) (f ch)) -> meq (mn (sstep S K P c f s)) (ms (mn s)).
Proof.
  intros Hf. assert (Z : forall A s, meq (mn (hstep S K P A c f s)) (hs A (mn s))).
  { intros A s0 x p Hx. rewrite hstep_hs by exact Hx. destruct (Bool.eqb (xA S x) A); [|ring].
    rewrite (sumf_zero K Kr); [ring|]. intros ch Hch. unfold cinC in Hch. apply filter_In in Hch. destruct Hch as [Hch _].
    unfold srcf. apply (sumf_zero K Kr). intros [l a] Hin. apply in_combine_r in Hin.
    pose proof (proj1 (Forall_forall _ _) (Hf ch Hch) a Hin) as ->. cbn [fst snd]. destruct (_ && _); reflexivity. }
  unfold sstep, ms. eapply meq_trans; [apply Z|]. apply hs_ext, Z.
Qed.
Lemma sstate_mrun f n t s : (forall u ch, In ch (allC S) -> Forall (fun a => a = 0) (f u ch)) ->
  meq (mn (sstate S K P (fun _ => c) f n t s)) (mrun n (mn s)).
Proof.
  intros Hf. revert t s. induction n as [|n IH]; intros t s; cbn [sstate]; [apply meq_refl|].
  eapply meq_trans; [apply IH|]. rewrite mrun_S_in. apply mrun_ext, sstep_ms. intros ch Hch. apply Hf, Hch.
Qed.
End Main.
