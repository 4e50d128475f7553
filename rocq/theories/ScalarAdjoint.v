(** * The backward run is the adjoint of the derivative of the forward run.

    The derivative is taken with dual numbers: the forward model is executed over
    [dual K]; the eps part of the results is the directional derivative. *)
From Coq Require Import List ZArith QArith Ring Ring_theory Lia Bool.
From Verif Require Import Ops Sums Grid Stencil DualNum ScalarModel ScalarRefine ScalarForward.
Import ListNotations.
Local Open Scope K_scope.

(** Constant parameters lifted to dual numbers (no derivative with respect to them). *)
Definition dpar {K : ops} (P : par K) : par (dual K) :=
  mkpar (p_acc P) (p_shape P) (fun d => dconst (p_rd P d)) (fun d => dconst (p_rd2 P d))
        (fun d y => dconst (p_a P d y)) (fun d y => dconst (p_b P d y))
        (fun d y => dconst (p_db P d y)) (dconst (p_dt2 P)) (p_src P) (p_rec P).

(** Real and eps parts of fields, states, lists. *)
Definition fre {K : ops} (f : field (dual K)) : field K := fun p => fst (f p).
Definition fep {K : ops} (f : field (dual K)) : field K := fun p => snd (f p).
Definition sre {K : ops} (s : st (dual K)) : st K :=
  mkst K (fre (s_wfc _ s)) (fre (s_wfp _ s)) (fun d => fre (s_psi _ s d)) (fun d => fre (s_zeta _ s d)).
Definition sep {K : ops} (s : st (dual K)) : st K :=
  mkst K (fep (s_wfc _ s)) (fep (s_wfp _ s)) (fun d => fep (s_psi _ s d)) (fun d => fep (s_zeta _ s d)).
Definition lre {K : ops} (l : list (dual K)) : list K := map fst l.
Definition lep {K : ops} (l : list (dual K)) : list K := map snd l.

(** Inner product of lists (truncated to the shorter). *)
Definition ldot {K : ops} (a b : list K) : K :=
  sumf (combine a b) (fun xy => fst xy * snd xy).

(** Pointwise equality of states. *)
Definition steq {K : ops} (n : nat) (s s' : st K) : Prop :=
  (forall p, s_wfc K s p = s_wfc K s' p) /\ (forall p, s_wfp K s p = s_wfp K s' p) /\
  (forall d p, (d < n)%nat -> s_psi K s d p = s_psi K s' d p) /\
  (forall d p, (d < n)%nat -> s_zeta K s d p = s_zeta K s' d p).

Local Arguments d1 : simpl never.
Local Arguments d2 : simpl never.
Local Arguments tmpf : simpl never.
Local Arguments wsum : simpl never.
Local Arguments inject : simpl never.
Local Arguments mask : simpl never.
Local Arguments gather : simpl never.

Section Adj.
Variable K : ops.
Hypothesis Kr : is_ring K.
Add Ring KRing : Kr.
Variable P : par K.
Notation shape := (p_shape P).
Notation inint p := (interior K P p = true).
Notation I := (ipts K P).
Notation DP := (dpar P).
Notation nd := (length shape).

(** ** Extensionality *)
Lemma d1_ext d (f g : field K) p : (forall q, f q = g q) -> d1 K P d f p = d1 K P d g p.
Proof. intros H. unfold d1, D1. apply DIFF1_ext. intros; apply H. Qed.
Lemma d2_ext d (f g : field K) p : (forall q, f q = g q) -> d2 K P d f p = d2 K P d g p.
Proof. intros H. unfold d2, D2. apply DIFF2_ext. intros; apply H. Qed.

Lemma tmpf_ext (w w' psi psi' : field K) d p :
  (forall q, w q = w' q) -> (forall q, psi q = psi' q) ->
  tmpf K P w psi d p = tmpf K P w' psi' d p.
Proof.
  intros H1 H2. unfold tmpf. rewrite (d2_ext d w w'), (d1_ext d w w') by auto.
  rewrite (d1_ext d (fun q => pa K P d q * psi q) (fun q => pa K P d q * psi' q)); [reflexivity|].
  intros q. rewrite H2. reflexivity.
Qed.

Lemma wsum_ext s s' p : steq nd s s' -> wsum K P s p = wsum K P s' p.
Proof.
  intros (H1 & H2 & H3 & H4). apply sumf_ext. intros d Hd. apply in_seq in Hd.
  rewrite (tmpf_ext (s_wfc K s) (s_wfc K s') (s_psi K s d) (s_psi K s' d)); auto.
  - rewrite H4 by lia. reflexivity.
  - intros q. apply H3. lia.
Qed.

Lemma mask_ext (f g : field K) p : f p = g p -> mask K P f p = mask K P g p.
Proof. intros H. unfold mask. rewrite H. reflexivity. Qed.
Lemma inject_ext locs amps (f g : field K) p : f p = g p -> inject K P locs amps f p = inject K P locs amps g p.
Proof. intros H. unfold inject. rewrite H. reflexivity. Qed.

Lemma step_ext v v' ft s s' :
  (forall p, v p = v' p) -> steq nd s s' -> steq nd (step K P v ft s) (step K P v' ft s').
Proof.
  intros Hv Hs. pose proof Hs as (H1 & H2 & H3 & H4). repeat split; cbn.
  - intros p. apply inject_ext, mask_ext. rewrite Hv, (wsum_ext s s') by auto.
    rewrite H1, H2. reflexivity.
  - exact H1.
  - intros d p Hd. apply mask_ext. rewrite (d1_ext d _ (s_wfc K s')), H3 by auto. reflexivity.
  - intros d p Hd. apply mask_ext.
    rewrite (tmpf_ext _ (s_wfc K s') _ (s_psi K s' d)), H4 by auto. reflexivity.
Qed.

Lemma gather_ext locs (f g : field K) : (forall p, f p = g p) -> gather K P locs f = gather K P locs g.
Proof. intros H. apply map_ext. intros l. destruct (0 <=? l)%Z; auto. Qed.

Lemma steq_refl n (s : st K) : steq n s s.
Proof. repeat split. Qed.
Lemma steq_sym n (s s' : st K) : steq n s s' -> steq n s' s.
Proof. intros (H1 & H2 & H3 & H4). repeat split; intros; symmetry; auto. Qed.
Lemma steq_trans n (s s' s'' : st K) : steq n s s' -> steq n s' s'' -> steq n s s''.
Proof.
  intros (H1 & H2 & H3 & H4) (G1 & G2 & G3 & G4).
  split; [|split; [|split]]; intros.
  - rewrite H1. apply G1.
  - rewrite H2. apply G2.
  - rewrite H3 by assumption. apply G3; assumption.
  - rewrite H4 by assumption. apply G4; assumption.
Qed.

Lemma state_ext v v' f n t s s' :
  (forall u p, v u p = v' u p) -> steq nd s s' ->
  steq nd (state K P v f n t s) (state K P v' f n t s').
Proof.
  intros Hv. revert t s s'. induction n as [|n IH]; intros t s s' Hs; [exact Hs|].
  cbn [state]. apply IH. apply step_ext; auto.
Qed.

(** ** The derivative of one step *)

(** Tangent of [step]: [s] is the state, [ds] its perturbation. *)
Definition tstep (v dv : field K) (dft : list K) (s ds : st K) : st K :=
  mkst K (inject K P (p_src P) dft
       (mask K P (fun p => v p * v p * p_dt2 P * wsum K P ds p
                           + dv p * (two * v p * p_dt2 P * wsum K P s p)
                           + two * s_wfc K ds p - s_wfp K ds p)))
     (s_wfc K ds)
     (fun d => mask K P (fun p => pb K P d p * d1 K P d (s_wfc K ds) p + pa K P d p * s_psi K ds d p))
     (fun d => mask K P (fun p => pb K P d p * tmpf K P (s_wfc K ds) (s_psi K ds d) d p
                                  + pa K P d p * s_zeta K ds d p)).

Lemma fst_d1 d (f : field (dual K)) p : fst (d1 (dual K) DP d f p) = d1 K P d (fre f) p.
Proof. apply fst_DIFF1. Qed.
Lemma snd_d1 d (f : field (dual K)) p : snd (d1 (dual K) DP d f p) = d1 K P d (fep f) p.
Proof. apply (snd_DIFF1 K Kr). Qed.
Lemma fst_d2 d (f : field (dual K)) p : fst (d2 (dual K) DP d f p) = d2 K P d (fre f) p.
Proof. apply fst_DIFF2. Qed.
Lemma snd_d2 d (f : field (dual K)) p : snd (d2 (dual K) DP d f p) = d2 K P d (fep f) p.
Proof. apply (snd_DIFF2 K Kr). Qed.

Lemma fst_tmpf (w psi : field (dual K)) d p :
  fst (tmpf (dual K) DP w psi d p) = tmpf K P (fre w) (fre psi) d p.
Proof. unfold tmpf. cbn. rewrite !fst_d1, fst_d2. reflexivity. Qed.
Lemma snd_tmpf (w psi : field (dual K)) d p :
  snd (tmpf (dual K) DP w psi d p) = tmpf K P (fep w) (fep psi) d p.
Proof.
  unfold tmpf. cbn. rewrite !snd_d1, snd_d2.
  rewrite (d1_ext d (fep (fun q => pa (dual K) DP d q * psi q)) (fun q => pa K P d q * fep psi q)).
  - unfold pb, pdb. ring.
  - intros q. unfold fep, pa. cbn. ring.
Qed.

Lemma fst_wsum (s : st (dual K)) p : fst (wsum (dual K) DP s p) = wsum K P (sre s) p.
Proof.
  unfold wsum. rewrite fst_sumf. apply sumf_ext. intros d _. cbn. rewrite fst_tmpf. reflexivity.
Qed.
Lemma snd_wsum (s : st (dual K)) p : snd (wsum (dual K) DP s p) = wsum K P (sep s) p.
Proof.
  unfold wsum. rewrite snd_sumf. apply sumf_ext. intros d _. cbn. rewrite snd_tmpf.
  unfold pa, pb, fep. ring.
Qed.

Lemma interior_DP p : interior (dual K) DP p = interior K P p.
Proof. reflexivity. Qed.

Lemma fst_mask (f : field (dual K)) p : fst (mask (dual K) DP f p) = mask K P (fre f) p.
Proof. unfold mask. rewrite interior_DP. destruct (interior K P p); reflexivity. Qed.
Lemma snd_mask (f : field (dual K)) p : snd (mask (dual K) DP f p) = mask K P (fep f) p.
Proof. unfold mask. rewrite interior_DP. destruct (interior K P p); reflexivity. Qed.

Lemma sumf_combine_map {A B C : Type} (g : B -> C) (l : list A) (m : list B) (h : A * C -> K) :
  sumf (combine l (map g m)) h = sumf (combine l m) (fun ab => h (fst ab, g (snd ab))).
Proof.
  revert m; induction l as [|a l IH]; intros [|b m]; cbn; auto. rewrite IH. reflexivity.
Qed.

Lemma fst_inject locs (amps : list (dual K)) (f : field (dual K)) p :
  fst (inject (dual K) DP locs amps f p) = inject K P locs (lre amps) (fre f) p.
Proof.
  unfold inject. cbn [fst oadd dual]. rewrite fst_sumf. unfold lre. rewrite sumf_combine_map.
  f_equal. apply sumf_ext. intros [l x] _. cbn. destruct (_ && _); reflexivity.
Qed.
Lemma snd_inject locs (amps : list (dual K)) (f : field (dual K)) p :
  snd (inject (dual K) DP locs amps f p) = inject K P locs (lep amps) (fep f) p.
Proof.
  unfold inject. cbn [snd oadd dual]. rewrite snd_sumf. unfold lep. rewrite sumf_combine_map.
  f_equal. apply sumf_ext. intros [l x] _. cbn. destruct (_ && _); reflexivity.
Qed.

Lemma sre_step (v : field (dual K)) ft s :
  steq nd (sre (step (dual K) DP v ft s)) (step K P (fre v) (lre ft) (sre s)).
Proof.
  repeat split; cbn; unfold fre at 1.
  - intros p. rewrite fst_inject. apply inject_ext. unfold fre at 1. rewrite fst_mask. apply mask_ext.
    unfold fre at 1. cbn. rewrite fst_wsum. reflexivity.
  - intros d p Hd. rewrite fst_mask. apply mask_ext. unfold fre at 1. cbn. rewrite fst_d1. reflexivity.
  - intros d p Hd. rewrite fst_mask. apply mask_ext. unfold fre at 1. cbn. rewrite fst_tmpf. reflexivity.
Qed.

Lemma sep_step (v : field (dual K)) ft s :
  steq nd (sep (step (dual K) DP v ft s)) (tstep (fre v) (fep v) (lep ft) (sre s) (sep s)).
Proof.
  repeat split; cbn; unfold fep at 1.
  - intros p. rewrite snd_inject. apply inject_ext. unfold fep at 1. rewrite snd_mask. apply mask_ext.
    unfold fep at 1. cbn. rewrite snd_wsum, fst_wsum. unfold fre, fep, two. ring.
  - intros d p Hd. rewrite snd_mask. apply mask_ext. unfold fep at 1. cbn. rewrite snd_d1.
    unfold pb, pa, fep. ring.
  - intros d p Hd. rewrite snd_mask. apply mask_ext. unfold fep at 1. cbn. rewrite snd_tmpf.
    unfold pb, pa, fep. ring.
Qed.

Lemma sre_state (v : Z -> field (dual K)) f n t s :
  steq nd (sre (state (dual K) DP v f n t s)) (state K P (fun u => fre (v u)) (fun u => lre (f u)) n t (sre s)).
Proof.
  revert t s. induction n as [|n IH]; intros t s; [apply steq_refl|].
  cbn [state]. eapply steq_trans; [apply IH|]. apply state_ext; [reflexivity|]. apply sre_step.
Qed.

Lemma lep_gather locs (f : field (dual K)) :
  lep (gather (dual K) DP locs f) = gather K P locs (fep f).
Proof. unfold lep, gather. rewrite map_map. apply map_ext. intros l. destruct (0 <=? l)%Z; reflexivity. Qed.
Lemma lre_gather locs (f : field (dual K)) :
  lre (gather (dual K) DP locs f) = gather K P locs (fre f).
Proof. unfold lre, gather. rewrite map_map. apply map_ext. intros l. destruct (0 <=? l)%Z; reflexivity. Qed.

(** ** Supports *)

Definition fsupp (f : field K) : Prop := forall p, interior K P p = false -> f p = 0.
Definition ssupp (s : st K) : Prop :=
  fsupp (s_wfc K s) /\ fsupp (s_wfp K s) /\
  (forall d, (d < nd)%nat -> fsupp (s_psi K s d)) /\ (forall d, (d < nd)%nat -> fsupp (s_zeta K s d)).

Lemma In_ipts p : In p I <-> inint p.
Proof. apply In_box_pts. Qed.
Lemma fsupp_supp f : fsupp f -> supp I f.
Proof.
  intros H p Hp. apply H. destruct (interior K P p) eqn:E; [|reflexivity].
  exfalso. apply Hp, In_ipts, E.
Qed.
Lemma NoDup_ipts : NoDup I.
Proof. apply NoDup_box_pts. Qed.
Lemma fsupp_mask f : fsupp (mask K P f).
Proof. intros p Hp. apply mask_out, Hp. Qed.
Lemma fsupp_mul (g f : field K) : fsupp f -> fsupp (fun p => g p * f p).
Proof. intros H p Hp. rewrite H by exact Hp. ring. Qed.
Lemma fsupp_add (g f : field K) : fsupp f -> fsupp g -> fsupp (fun p => f p + g p).
Proof. intros H H' p Hp. rewrite H, H' by exact Hp. ring. Qed.
Lemma fsupp_inject locs amps f : Forall (loc_ok K P) locs -> fsupp f -> fsupp (inject K P locs amps f).
Proof. intros Hl H p Hp. rewrite (inject_out K Kr P) by auto. apply H, Hp. Qed.

Lemma ssupp_step v ft s : Forall (loc_ok K P) (p_src P) -> ssupp s -> ssupp (step K P v ft s).
Proof.
  intros Hl (H1 & H2 & H3 & H4). repeat split; cbn; intros; auto using fsupp_inject, fsupp_mask.
Qed.
Lemma ssupp_bstep v2 gr s : Forall (loc_ok K P) (p_rec P) -> ssupp s -> ssupp (bstep K P v2 gr s).
Proof.
  intros Hl (H1 & H2 & H3 & H4). repeat split; cbn; intros; auto using fsupp_inject, fsupp_mask.
Qed.
Lemma ssupp_tstep v dv dft s ds : Forall (loc_ok K P) (p_src P) -> ssupp ds -> ssupp (tstep v dv dft s ds).
Proof.
  intros Hl (H1 & H2 & H3 & H4). repeat split; cbn; intros; auto using fsupp_inject, fsupp_mask.
Qed.
Lemma ssupp_steq s s' : steq nd s s' -> ssupp s -> ssupp s'.
Proof.
  intros (E1 & E2 & E3 & E4) (H1 & H2 & H3 & H4).
  split; [|split; [|split]].
  - intros p Hp. rewrite <- E1. apply H1, Hp.
  - intros p Hp. rewrite <- E2. apply H2, Hp.
  - intros d Hd p Hp. rewrite <- E3 by exact Hd. apply H3; auto.
  - intros d Hd p Hp. rewrite <- E4 by exact Hd. apply H4; auto.
Qed.

(** ** Pairings *)

(** Cotangent (kernel sign convention) against a perturbation. *)
Definition pair (c s : st K) : K :=
  dot I (s_wfc K c) (s_wfc K s) - dot I (s_wfp K c) (s_wfp K s)
  + sumf (dims K P) (fun d => dot I (s_psi K c d) (s_psi K s d) + dot I (s_zeta K c d) (s_zeta K s d)).

Lemma pair_ext c s s' : steq nd s s' -> pair c s = pair c s'.
Proof.
  intros (E1 & E2 & E3 & E4). unfold pair. f_equal.
  - f_equal; apply (dot_ext K); auto.
  - apply sumf_ext. intros d Hd. apply in_seq in Hd.
    f_equal; apply (dot_ext K); intros; auto; [apply E3|apply E4]; lia.
Qed.

Lemma dot_mask_r (f g : field K) : dot I f (mask K P g) = dot I f g.
Proof. apply (dot_ext K); [reflexivity|]. intros p Hp. apply mask_in, In_ipts, Hp. Qed.
Lemma dot_mask_l (f g : field K) : dot I (mask K P f) g = dot I f g.
Proof. apply (dot_ext K); [|reflexivity]. intros p Hp. apply mask_in, In_ipts, Hp. Qed.

Lemma dot_inject_r locs amps (c f : field K) :
  Forall (loc_ok K P) locs ->
  dot I c (inject K P locs amps f) = dot I c f + ldot (gather K P locs c) amps.
Proof.
  intros Hl. unfold inject. rewrite (dot_add_r K Kr). f_equal.
  unfold dot, ldot, gather.
  rewrite (sumf_ext K I _ (fun p => sumf (combine locs amps) (fun la => c p *
     (if (0 <=? fst la)%Z && (if pt_eq_dec (unidx shape (fst la)) p then true else false) then snd la else 0)))).
  2:{ intros p _. rewrite (sumf_scal K Kr). reflexivity. }
  rewrite (sumf_swap K Kr).
  revert amps. induction Hl as [|l ls Hl1 Hl2 IH]; intros [|x xs]; cbn [combine map sumf]; auto.
  rewrite IH. f_equal. cbn [fst snd].
  destruct (Z.leb_spec 0 l) as [H0|H0]; cbn [andb].
  - destruct (loc_ok_idx K P l Hl1 H0) as (q & Hq & _ & Eu). rewrite Eu.
    rewrite (sumf_single K Kr I q).
    + destruct (pt_eq_dec q q); [reflexivity|congruence].
    + apply NoDup_ipts.
    + apply In_ipts, Hq.
    + intros p _ Hp. destruct (pt_eq_dec q p); [congruence|ring].
  - rewrite (sumf_zero K Kr); [ring|]. intros; ring.
Qed.

Lemma ldot_comm (a b : list K) : ldot a b = ldot b a.
Proof.
  unfold ldot. revert b; induction a as [|x a IH]; intros [|y b]; cbn; auto.
  rewrite IH. ring.
Qed.

Lemma dot_inject_l locs amps (c f : field K) :
  Forall (loc_ok K P) locs ->
  dot I (inject K P locs amps c) f = dot I c f + ldot amps (gather K P locs f).
Proof.
  intros Hl. rewrite (dot_comm K Kr), dot_inject_r by exact Hl.
  rewrite (dot_comm K Kr I f c), ldot_comm. reflexivity.
Qed.

(** ** One step *)

Lemma adj_dim (X psi' zeta' w psi zeta : field K) d :
  fsupp X -> fsupp psi' -> fsupp zeta' -> fsupp w -> fsupp psi ->
  let T := fun p => (1 + pb K P d p) * X p + pb K P d p * zeta' p in
  let tmp := tmpf K P w psi d in
  dot I X (fun p => (1 + pb K P d p) * tmp p + pa K P d p * zeta p)
  + (dot I psi' (fun p => pb K P d p * d1 K P d w p + pa K P d p * psi p)
     + dot I zeta' (fun p => pb K P d p * tmp p + pa K P d p * zeta p))
  = dot I (fun p => - d1 K P d (fun q => pdb K P d q * T q + pb K P d q * psi' q) p
                    + d2 K P d (fun q => (1 + pb K P d q) * T q) p) w
    + (dot I (fun p => (- pa K P d p) * d1 K P d T p + pa K P d p * psi' p) psi
       + dot I (fun p => pa K P d p * X p + pa K P d p * zeta' p) zeta).
Proof.
  intros HX Hpsi' Hz' Hw Hpsi T tmp.
  set (a := pa K P d) in *. set (b := pb K P d) in *. set (db := pdb K P d) in *.
  assert (HT : fsupp T).
  { intros p Hp. unfold T. rewrite HX, Hz' by exact Hp. ring. }
  set (U1 := fun q => db q * T q + b q * psi' q).
  set (U2 := fun q => (1 + b q) * T q).
  assert (HU1 : fsupp U1).
  { intros p Hp. unfold U1. rewrite HT, Hpsi' by exact Hp. ring. }
  assert (HU2 : fsupp U2).
  { intros p Hp. unfold U2. rewrite HT by exact Hp. ring. }
  assert (Hap : fsupp (fun q => a q * psi q)) by (apply fsupp_mul; exact Hpsi).
  (* summation by parts *)
  pose proof (D1_sbp K Kr I (p_acc P) (p_rd P d) d U1 w NoDup_ipts
                (fsupp_supp _ HU1) (fsupp_supp _ Hw)) as S1.
  pose proof (D2_sbp K Kr I (p_acc P) (p_rd2 P d) d U2 w NoDup_ipts
                (fsupp_supp _ HU2) (fsupp_supp _ Hw)) as S2.
  pose proof (D1_sbp K Kr I (p_acc P) (p_rd P d) d T _ NoDup_ipts
                (fsupp_supp _ HT) (fsupp_supp _ Hap)) as S3.
  change (dot I U1 (d1 K P d w) = - dot I (d1 K P d U1) w) in S1.
  change (dot I U2 (d2 K P d w) = dot I (d2 K P d U2) w) in S2.
  change (dot I T (d1 K P d (fun q => a q * psi q)) = - dot I (d1 K P d T) (fun q => a q * psi q)) in S3.
  assert (L : dot I X (fun p => (1 + b p) * tmp p + a p * zeta p)
     + (dot I psi' (fun p => b p * d1 K P d w p + a p * psi p)
        + dot I zeta' (fun p => b p * tmp p + a p * zeta p))
     = dot I U1 (d1 K P d w) + dot I U2 (d2 K P d w) + dot I T (d1 K P d (fun q => a q * psi q))
       + dot I (fun p => a p * psi' p) psi
       + dot I (fun p => a p * X p + a p * zeta' p) zeta).
  { unfold dot. rewrite <- !(sumf_add K Kr). apply sumf_ext. intros p _.
    unfold U1, U2, T, tmp, tmpf. fold a b db. ring. }
  rewrite L, S1, S2, S3. unfold dot.
  rewrite <- !(sumf_opp K Kr), <- !(sumf_add K Kr). apply sumf_ext. intros p _. ring.
Qed.

Lemma adj_step v dv dft gr s ds c v2 :
  Forall (loc_ok K P) (p_src P) -> Forall (loc_ok K P) (p_rec P) ->
  ssupp ds -> ssupp c ->
  (forall p, inint p -> v2 p = v p * v p * p_dt2 P) ->
  pair c (tstep v dv dft s ds) + ldot gr (gather K P (p_rec P) (s_wfc K ds))
  = pair (bstep K P v2 gr c) ds
    + dot I (fun p => s_wfc K c p * (two * v p * p_dt2 P * wsum K P s p)) dv
    + ldot (gather K P (p_src P) (s_wfc K c)) dft.
Proof.
  intros Hsrc Hrec Hds Hc Hv2.
  destruct Hds as (D1 & D2 & D3 & D4). destruct Hc as (C1 & C2 & C3 & C4).
  unfold pair. cbn [tstep bstep s_wfc s_wfp s_psi s_zeta].
  rewrite dot_inject_r, dot_inject_l by assumption.
  rewrite dot_mask_r, dot_mask_l.
  set (X := fun p => v2 p * s_wfc K c p).
  assert (HX : fsupp X) by (apply fsupp_mul; exact C1).
  (* separate the wavefield terms from the sums over dimensions *)
  assert (E1 : dot I (s_wfc K c) (fun p => v p * v p * p_dt2 P * wsum K P ds p
               + dv p * (two * v p * p_dt2 P * wsum K P s p) + two * s_wfc K ds p - s_wfp K ds p)
     = sumf (dims K P) (fun d => dot I X (fun p => (1 + pb K P d p) * tmpf K P (s_wfc K ds) (s_psi K ds d) d p
                                            + pa K P d p * s_zeta K ds d p))
       + dot I (fun p => s_wfc K c p * (two * v p * p_dt2 P * wsum K P s p)) dv
       + (dot I (fun p => two * s_wfc K c p) (s_wfc K ds) - dot I (s_wfc K c) (s_wfp K ds))).
  { unfold dot at 2. rewrite (sumf_swap K Kr). unfold dot.
    rewrite <- !(sumf_add K Kr), <- (sumf_sub K Kr), <- (sumf_add K Kr). apply sumf_ext. intros p Hp.
    rewrite (sumf_scal K Kr). fold (wsum K P ds p). unfold X.
    rewrite (Hv2 p) by (apply In_ipts; exact Hp). ring. }
  rewrite E1. clear E1.
  assert (E2 : dot I (fun p => sumf (dims K P) (fun d =>
        - d1 K P d (ut1 K P v2 (s_wfc K c) (s_psi K c d) (s_zeta K c d) d) p
        + d2 K P d (ut2 K P v2 (s_wfc K c) (s_zeta K c d) d) p)
        + two * s_wfc K c p - s_wfp K c p) (s_wfc K ds)
     = sumf (dims K P) (fun d => dot I (fun p =>
        - d1 K P d (ut1 K P v2 (s_wfc K c) (s_psi K c d) (s_zeta K c d) d) p
        + d2 K P d (ut2 K P v2 (s_wfc K c) (s_zeta K c d) d) p) (s_wfc K ds))
       + (dot I (fun p => two * s_wfc K c p) (s_wfc K ds) - dot I (s_wfp K c) (s_wfc K ds))).
  { unfold dot at 2. rewrite (sumf_swap K Kr). unfold dot.
    rewrite <- (sumf_sub K Kr), <- (sumf_add K Kr). apply sumf_ext. intros p Hp.
    rewrite (sumf_scal_r K Kr). ring. }
  rewrite E2. clear E2.
  assert (E3 : sumf (dims K P) (fun d => dot I X (fun p => (1 + pb K P d p) * tmpf K P (s_wfc K ds) (s_psi K ds d) d p
                                            + pa K P d p * s_zeta K ds d p))
     + sumf (dims K P) (fun d =>
         dot I (s_psi K c d) (mask K P (fun p => pb K P d p * d1 K P d (s_wfc K ds) p + pa K P d p * s_psi K ds d p))
         + dot I (s_zeta K c d) (mask K P (fun p => pb K P d p * tmpf K P (s_wfc K ds) (s_psi K ds d) d p
                                  + pa K P d p * s_zeta K ds d p)))
     = sumf (dims K P) (fun d => dot I (fun p =>
        - d1 K P d (ut1 K P v2 (s_wfc K c) (s_psi K c d) (s_zeta K c d) d) p
        + d2 K P d (ut2 K P v2 (s_wfc K c) (s_zeta K c d) d) p) (s_wfc K ds))
     + sumf (dims K P) (fun d =>
         dot I (mask K P (fun p => (- pa K P d p) * d1 K P d (psiterm K P v2 (s_wfc K c) (s_zeta K c d) d) p
                                + pa K P d p * s_psi K c d p)) (s_psi K ds d)
         + dot I (mask K P (fun p => pa K P d p * (v2 p * s_wfc K c p) + pa K P d p * s_zeta K c d p)) (s_zeta K ds d))).
  { rewrite <- !(sumf_add K Kr). apply sumf_ext. intros d Hd. apply in_seq in Hd.
    rewrite !dot_mask_r, !dot_mask_l.
    apply (adj_dim X (s_psi K c d) (s_zeta K c d) (s_wfc K ds) (s_psi K ds d) (s_zeta K ds d) d);
      auto; [apply C3|apply C4|apply D3]; lia. }
  match type of E3 with ?a + ?b = ?c + ?d =>
    replace a with (c + d - b) by (rewrite <- E3; ring) end.
  ring.
Qed.

(** ** The whole run *)

Definition sumk (n : nat) (g : nat -> K) : K := sumf (seq 0 n) g.

Lemma sumk_S n g : sumk (S n) g = g 0%nat + sumk n (fun k => g (S k)).
Proof.
  unfold sumk. cbn [seq sumf]. f_equal. rewrite <- seq_shift, (sumf_map K). reflexivity.
Qed.

(** Amplitudes recorded by the dual run and gradients of the backward run at step [t+k]. *)
Lemma lep_rec (s : st (dual K)) : lep (rec_amps (dual K) DP s) = gather K P (p_rec P) (s_wfc K (sep s)).
Proof. apply lep_gather. Qed.

Lemma ssupp_bst v2 gr n t c : Forall (loc_ok K P) (p_rec P) -> ssupp c -> ssupp (bst K P v2 gr n t c).
Proof.
  intros Hl Hc. revert t. induction n as [|n IH]; intros t; cbn; [exact Hc|].
  apply (ssupp_bstep v2 _ _ Hl). apply IH.
Qed.

(** The general identity: the wavespeed perturbation may differ from step to step. *)
Theorem scalar_adjoint :
  Forall (loc_ok K P) (p_src P) -> Forall (loc_ok K P) (p_rec P) ->
  forall (v : Z -> field (dual K)) (vre : field K) (f : Z -> list (dual K)) (gr : Z -> list K)
         (v2 : field K) (n : nat) (t : Z) (s : st (dual K)) (c : st K),
  ssupp (sep s) -> ssupp c ->
  (forall u p, fre (v u) p = vre p) ->
  (forall p, inint p -> v2 p = vre p * vre p * p_dt2 P) ->
  pair c (sep (state (dual K) DP v f n t s))
  + sumk n (fun k => ldot (gr (t + Z.of_nat k)%Z)
                          (lep (rec_amps (dual K) DP (state (dual K) DP v f k t s))))
  = pair (bst K P v2 gr n t c) (sep s)
    + sumk n (fun k => ldot (gather K P (p_src P)
                               (s_wfc K (bst K P v2 gr (n - 1 - k) (t + Z.of_nat k + 1)%Z c)))
                            (lep (f (t + Z.of_nat k)%Z)))
    + sumk n (fun k => dot I (fun p =>
          s_wfc K (bst K P v2 gr (n - 1 - k) (t + Z.of_nat k + 1)%Z c) p
          * (two * vre p * p_dt2 P * wsum K P (sre (state (dual K) DP v f k t s)) p))
          (fep (v (t + Z.of_nat k)%Z))).
Proof.
  intros Hsrc Hrec v vre f gr v2 n t s c Hs Hc Hv Hv2. revert t s Hs.
  induction n as [|n IH]; intros t s Hs.
  - unfold sumk. cbn. ring.
  - specialize (IH (t + 1)%Z (step (dual K) DP (v t) (f t) s)).
    assert (Hs1 : ssupp (sep (step (dual K) DP (v t) (f t) s))).
    { eapply ssupp_steq; [apply steq_sym, sep_step|]. apply ssupp_tstep; auto. }
    specialize (IH Hs1).
    rewrite !sumk_S. cbn [state bst].
    replace (S n - 1 - 0)%nat with n by lia.
    replace (t + Z.of_nat 0)%Z with t by lia.
    set (c1 := bst K P v2 gr n (t + 1) c) in *.
    assert (Hc1 : ssupp c1) by (apply ssupp_bst; auto).
    set (A1 := sumk n (fun k => ldot (gr (t + 1 + Z.of_nat k)%Z) _)) in IH.
    set (A2 := sumk n (fun k => ldot (gather K P _ _) _)) in IH.
    set (A3 := sumk n (fun k => dot I _ _)) in IH.
    match goal with |- _ + (_ + ?x) = _ + (_ + ?y) + (_ + ?z) =>
      replace x with A1; [replace y with A2; [replace z with A3|]|] end.
    2-4: apply sumf_ext; intros k Hk; apply in_seq in Hk;
         replace (t + Z.of_nat (S k))%Z with (t + 1 + Z.of_nat k)%Z by lia;
         try replace (S n - 1 - S k)%nat with (n - 1 - k)%nat by lia; reflexivity.
    pose proof (adj_step (fre (v t)) (fep (v t)) (lep (f t)) (gr t) (sre s) (sep s) c1 v2
                  Hsrc Hrec Hs Hc1) as A.
    rewrite <- (pair_ext c1 _ _ (sep_step (v t) (f t) s)) in A.
    rewrite lep_rec.
    assert (E3 : dot I (fun p => s_wfc K c1 p * (two * vre p * p_dt2 P * wsum K P (sre s) p)) (fep (v t))
       = dot I (fun p => s_wfc K c1 p *
            (two * fre (v t) p * p_dt2 P * wsum K P (sre s) p)) (fep (v t))).
    { apply (dot_ext K); [|reflexivity]. intros p Hp. rewrite Hv. reflexivity. }
    rewrite E3.
    match goal with |- ?a + (?b + ?c) = _ =>
      replace (a + (b + c)) with ((a + c) + b) by ring end.
    rewrite IH.
    match type of A with _ -> ?a + ?b = ?c =>
      replace a with (c - b) by (rewrite <- A; [ring|intros p Hp; rewrite Hv; auto]) end.
    ring.
Qed.

End Adj.
