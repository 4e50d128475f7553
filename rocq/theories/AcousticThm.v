(** * Acoustic propagator: the instance satisfies the laws of [StagCell.v] (proofs). *)
From Coq Require Import List ZArith QArith Ring Ring_theory Lia Bool Permutation.
From Verif Require Import Ops Sums Grid Stencil DualNum ScalarModel ScalarRefine ScalarAdjoint ScalarApi
  Stag StagAdj StagKernel StagCell StagRefine StagGrad AcousticModel.
Import ListNotations.
Local Open Scope K_scope.

Lemma In_ac_allX nd x : In x (ac_allX nd) <-> match x with XP => True | XV d => (d < nd)%nat end.
Proof.
  unfold ac_allX. cbn [In]. split.
  - intros [<-|H]; [exact I|]. apply in_map_iff in H. destruct H as (d & <- & Hd). apply in_seq in Hd. lia.
  - destruct x as [|d]; intros H; [left; reflexivity|right]. apply in_map_iff. exists d. split; [reflexivity|]. apply in_seq. lia.
Qed.
Lemma In_ac_allE nd e : In e (allE (ac_sys nd)) <-> match e with EV d => (d < nd)%nat | EP d => (d < nd)%nat end.
Proof.
  cbn [allE ac_sys]. rewrite in_app_iff, !in_map_iff. split.
  - intros [(d & <- & Hd)|(d & <- & Hd)]; apply in_seq in Hd; lia.
  - destruct e as [d|d]; intros H; [left|right]; exists d; (split; [reflexivity|apply in_seq; lia]).
Qed.

Lemma NoDup_map_i {A B} (f : A -> B) l : (forall a b, f a = f b -> a = b) -> NoDup l -> NoDup (map f l).
Proof.
  intros Hf H. induction H as [|a l Ha Hl IH]; cbn; constructor; [|exact IH].
  intros E. apply in_map_iff in E. destruct E as (b & Eb & Hb). apply Hf in Eb. subst b. contradiction.
Qed.
Lemma NoDup_ac_allE nd : NoDup (map EV (seq 0 nd) ++ map EP (seq 0 nd)).
Proof.
  apply NoDup_app.
  - apply NoDup_map_i; [congruence|apply seq_NoDup].
  - apply NoDup_map_i; [congruence|apply seq_NoDup].
  - intros e H1 H2. apply in_map_iff in H1, H2. destruct H1 as (a & <- & _), H2 as (b & E & _). congruence.
Qed.
Lemma NoDup_ac_allX nd : NoDup (ac_allX nd).
Proof.
  constructor; [|apply NoDup_map_i; [congruence|apply seq_NoDup]].
  intros H. apply in_map_iff in H. destruct H as (d & E & _). congruence.
Qed.

Lemma ac_sys_ok nd : sys_ok (ac_sys nd) nd.
Proof.
  split; intros; cbn [sX sE sC allX allE allC esrcb esrc edim xh eh inc xA eA cin cA ac_sys] in *.
  - apply NoDup_ac_allX.
  - destruct (aX_dec (ac_esrc e) x); split; congruence.
  - apply (In_ac_allE nd) in H. apply In_ac_allX. destruct e; cbn; auto.
  - apply (In_ac_allE nd) in H. destruct e; exact H.
  - destruct e; reflexivity.
  - destruct e; cbn; rewrite Nat.eqb_refl; reflexivity.
  - destruct e as [k|k]; cbn in *; [symmetry|]; apply Nat.eqb_neq; assumption.
  - destruct x as [|k], e as [j|j]; cbn in *; try discriminate; [auto|]. apply Nat.eqb_eq in H1. subst. auto.
  - destruct (aX_dec c x); [subst; reflexivity|discriminate].
Qed.

Lemma flat_map_sing {A B} (f : A -> B) l : flat_map (fun a => [f a]) l = map f l.
Proof. induction l; cbn; [|rewrite IHl]; reflexivity. Qed.
Lemma flat_map_map {A B C} (f : B -> list C) (g : A -> B) l : flat_map f (map g l) = flat_map (fun a => f (g a)) l.
Proof. induction l; cbn; [|rewrite IHl]; reflexivity. Qed.

Lemma ac_kern_ok nd : kern_ok (ac_sys nd) (ac_kern nd) nd.
Proof.
  assert (HB : forall g, In g (kgrp (ac_kern nd) true) -> exists d, (d < nd)%nat /\
     g = @mkgrp (ac_sys nd) aM aM (fun e => Nat.eqb e d) [EV d] [XV d] [MB d] [MB d]).
  { cbn [kgrp ac_kern]. intros g H. apply in_map_iff in H. destruct H as (d & <- & Hd). apply in_seq in Hd.
    exists d. split; [lia|reflexivity]. }
  assert (HK : forall g, In g (kgrp (ac_kern nd) false) ->
     g = @mkgrp (ac_sys nd) aM aM (fun _ => false) (map EP (seq 0 nd)) [XP] [MK] [MK]).
  { cbn [kgrp ac_kern In]. intros g [<-|[]]. reflexivity. }
  split.
  - cbn [kgrp ac_kern]. rewrite flat_map_app, flat_map_map. cbn [g_X flat_map app]. rewrite flat_map_sing.
    apply (Permutation_cons_append (map XV (seq 0 nd)) XP).
  - cbn [kgrp ac_kern allE ac_sys]. rewrite flat_map_app, flat_map_map. cbn [g_E flat_map app].
    rewrite flat_map_sing, app_nil_r. reflexivity.
  - apply NoDup_ac_allE.
  - cbn [kgrp ac_kern]. rewrite flat_map_app, flat_map_map. cbn [g_Q flat_map app]. rewrite flat_map_sing.
    apply (Permutation_NoDup (Permutation_cons_append (map MB (seq 0 nd)) MK)). constructor.
    + intros H. apply in_map_iff in H. destruct H as (d & E & _). congruence.
    + apply NoDup_map_i; [congruence|apply seq_NoDup].
  - cbn [kgrp ac_kern]. rewrite flat_map_app, flat_map_map. cbn [g_M flat_map app]. rewrite flat_map_sing.
    apply (Permutation_NoDup (Permutation_cons_append (map MB (seq 0 nd)) MK)). constructor.
    + intros H. apply in_map_iff in H. destruct H as (d & E & _). congruence.
    + apply NoDup_map_i; [congruence|apply seq_NoDup].
  - intros [] g Hg; [apply HB in Hg; destruct Hg as (d & _ & ->)|apply HK in Hg; subst g]; discriminate.
  - intros [] g x Hg Hx; [apply HB in Hg; destruct Hg as (d & _ & ->)|apply HK in Hg; subst g];
      destruct Hx as [<-|[]]; split; reflexivity.
  - intros [] g e Hg He; [apply HB in Hg; destruct Hg as (d & _ & ->); destruct He as [<-|[]]|apply HK in Hg; subst g];
      [split; reflexivity|]. cbn [g_E] in He. apply in_map_iff in He. destruct He as (k & <- & _). split; reflexivity.
  - intros [] g x e Hg Hx He Hi; [apply HB in Hg; destruct Hg as (d & _ & ->)|apply HK in Hg; subst g];
      destruct Hx as [<-|[]]; destruct e as [k|k]; cbn in Hi; try discriminate.
    + apply Nat.eqb_eq in Hi. subst k. left. reflexivity.
    + apply (In_ac_allE nd) in He. cbn [g_E]. apply in_map_iff. exists k. split; [reflexivity|apply in_seq; lia].
  - intros [] g x e Hg He Hx Hi; [apply HB in Hg; destruct Hg as (d & _ & ->)|apply HK in Hg; subst g].
    + destruct He as [<-|[]]. destruct x as [|k]; cbn in Hi; [discriminate|]. apply Nat.eqb_eq in Hi. subst k. left. reflexivity.
    + cbn [g_E] in He. apply in_map_iff in He. destruct He as (k & <- & _). destruct x; cbn in Hi; [left; reflexivity|discriminate].
Qed.

(** Terms used by a wavefield, wavefields using a term. *)
Lemma filter_true {A} (f : A -> bool) l : (forall a, In a l -> f a = true) -> filter f l = l.
Proof. induction l as [|a l IH]; intros H; cbn; [reflexivity|]. rewrite H by (left; reflexivity). rewrite IH; [reflexivity|]. intros; apply H; right; assumption. Qed.
Lemma filter_false {A} (f : A -> bool) l : (forall a, In a l -> f a = false) -> filter f l = [].
Proof. induction l as [|a l IH]; intros H; cbn; [reflexivity|]. rewrite H by (left; reflexivity). apply IH. intros; apply H; right; assumption. Qed.
Lemma filter_eqb_seq d n : (d < n)%nat -> filter (Nat.eqb d) (seq 0 n) = [d].
Proof.
  intros H. replace n with (d + (1 + (n - d - 1)))%nat by lia. rewrite !seq_app, !filter_app.
  rewrite (filter_false _ (seq 0 d)) by (intros a Ha; apply in_seq in Ha; apply Nat.eqb_neq; lia).
  cbn [seq filter app Nat.add]. rewrite Nat.eqb_refl. cbn [app]. f_equal.
  apply filter_false. intros a Ha. apply in_seq in Ha. apply Nat.eqb_neq. lia.
Qed.
Lemma filter_map {A B} (f : A -> B) (h : B -> bool) l : filter h (map f l) = map f (filter (fun a => h (f a)) l).
Proof. induction l as [|a l IH]; cbn; [reflexivity|]. rewrite IH. destruct (h (f a)); reflexivity. Qed.

Lemma ac_incE_P nd : incE (ac_sys nd) XP = map EP (seq 0 nd).
Proof.
  unfold incE. cbn [allE inc ac_sys]. rewrite filter_app, filter_false, filter_true; [reflexivity| |];
    intros a Ha; apply in_map_iff in Ha; destruct Ha as (d & <- & _); reflexivity.
Qed.
Lemma ac_incE_V nd d : (d < nd)%nat -> incE (ac_sys nd) (XV d) = [EV d].
Proof.
  intros H. unfold incE. cbn [allE inc ac_sys]. rewrite filter_app, filter_map.
  rewrite (filter_false _ (map EP _)), app_nil_r
    by (intros a Ha; apply in_map_iff in Ha; destruct Ha as (k & <- & _); reflexivity).
  change (fun a => ac_inc (XV d) (EV a)) with (Nat.eqb d). rewrite filter_eqb_seq by exact H. reflexivity.
Qed.
Lemma ac_incX_P nd d : incX (ac_sys nd) (EP d) = [XP].
Proof.
  unfold incX. cbn [allX inc ac_sys ac_allX filter ac_inc]. f_equal. apply filter_false.
  intros a Ha. apply in_map_iff in Ha. destruct Ha as (k & <- & _). reflexivity.
Qed.
Lemma ac_incX_V nd d : (d < nd)%nat -> incX (ac_sys nd) (EV d) = [XV d].
Proof.
  intros H. unfold incX. cbn [allX inc ac_sys ac_allX filter ac_inc]. rewrite filter_map.
  rewrite (filter_ext _ (Nat.eqb d)) by (intros; apply Nat.eqb_sym). rewrite filter_eqb_seq by exact H. reflexivity.
Qed.

(** Coefficients of the terms. *)
Definition ac_kc {K : ops} (dt : K) (kb : aM -> arr K) (x : aX) (e : aE) : arr K := fun i =>
  match x, e with
  | XP, EP _ => - dt * kb MK i
  | XV d, EV _ => - dt * kb (MB d) i
  | _, _ => 0
  end.

Section Num.
Variable nd : nat.
Variable K : ops.
Hypothesis Kr : is_ring K.
Add Ring KRing : Kr.
Variable dt : K.
Variable kb : aM -> arr K.

Lemma ac_div_sum T : ac_div nd K T = sumf (map EP (seq 0 nd)) T.
Proof.
  unfold ac_div. assert (G : forall l z, fold_left (fun s d => s + T (EP d)) l z = z + sumf (map EP l) T).
  { induction l as [|d l IH]; intros z; cbn [fold_left map sumf]; [ring|]. rewrite IH. ring. }
  rewrite G. ring.
Qed.

Lemma ac_num_ok : num_ok (ac_sys nd) (ac_kern nd) K (ac_num nd K dt kb) (ac_kc dt kb).
Proof.
  assert (HB : forall g, In g (kgrp (ac_kern nd) true) -> exists d, (d < nd)%nat /\
     g = @mkgrp (ac_sys nd) aM aM (fun e => Nat.eqb e d) [EV d] [XV d] [MB d] [MB d]).
  { cbn [kgrp ac_kern]. intros g H. apply in_map_iff in H. destruct H as (d & <- & Hd). apply in_seq in Hd.
    exists d. split; [lia|reflexivity]. }
  assert (HK : forall g, In g (kgrp (ac_kern nd) false) ->
     g = @mkgrp (ac_sys nd) aM aM (fun _ => false) (map EP (seq 0 nd)) [XP] [MK] [MK]).
  { cbn [kgrp ac_kern In]. intros g [<-|[]]. reflexivity. }
  split; cbn [n_inc n_sto n_tb n_tbp n_mem n_gm ac_num].
  - intros [] g x T i Hg Hx; [apply HB in Hg; destruct Hg as (d & Hd & ->)|apply HK in Hg; subst g]; destruct Hx as [<-|[]].
    + rewrite ac_incE_V by exact Hd. cbn [sumf ac_ninc ac_kc]. ring.
    + rewrite ac_incE_P. cbn [ac_ninc]. rewrite ac_div_sum.
      rewrite (sumf_ext K _ (fun e => ac_kc dt kb XP e i * T e) (fun e => (- dt * kb MK i) * T e)).
      * rewrite (sumf_scal K Kr). ring.
      * intros e He. apply in_map_iff in He. destruct He as (k & <- & _). reflexivity.
  - intros [] g q T T' Hg Hq E; [apply HB in Hg; destruct Hg as (d & Hd & ->)|apply HK in Hg; subst g];
      destruct Hq as [<-|[]]; cbn [ac_nsto].
    + apply E. left. reflexivity.
    + rewrite !ac_div_sum. apply (sumf_ext K). exact E.
  - intros e Y i He. apply In_ac_allE in He. destruct e as [d|d].
    + rewrite ac_incX_V by exact He. cbn [sumf ac_ntb ac_kc]. ring.
    + rewrite ac_incX_P. cbn [sumf ac_ntb ac_kc]. ring.
  - intros [d|d] b m Y i _; cbn [ac_ntb ac_ntbp]; ring.
  - intros [d|d] a m Y i _; cbn [ac_ntb ac_nmem]; ring.
  - intros [] g k Y Y' Q Q' r Hg Hk EY EQ; [apply HB in Hg; destruct Hg as (d & Hd & ->)|apply HK in Hg; subst g];
      destruct Hk as [<-|[]]; cbn [ac_ngm]; rewrite EY, EQ by (left; reflexivity); reflexivity.
Qed.
End Num.

(** ** What the caller of [AcousticForwardFunc] sees. *)
Section User.
Variable nd : nat.
Variable K : ops.
Variable P : spar (ac_sys nd) K.
Notation shape := (sp_shape P).
Notation fd := (fd_pad (sp_acc P)).
(** Returned wavefields: cells [fd .. n - fd] of every dimension. *)
Definition pdot (a b : field K) : K := sumf (box_pts (map (fun n => (fd, n - (fd - 1))%Z) shape)) (fun p => a p * b p).
(** Pressure, velocities, [phi], [psi]. *)
Definition ac_udot (a b : sst (ac_sys nd) K) : K :=
  pdot (mn a XP) (mn b XP)
  + sumf (seq 0 nd) (fun d => pdot (mn a (XV d)) (mn b (XV d)))
  + sumf (seq 0 nd) (fun d => pdot (me a (EP d)) (me b (EP d)))
  + sumf (seq 0 nd) (fun d => pdot (me a (EV d)) (me b (EV d))).
(** Amplitudes of all kinds over the time steps. *)
Definition ac_rdot (nt : Z) (a b : Z -> aX -> list K) : K :=
  sumf (zrange 0 nt) (fun t => ldot (a t XP) (b t XP) + sumf (seq 0 nd) (fun d => ldot (a t (XV d)) (b t (XV d)))).
(** Models: all cells of the padded arrays. *)
Definition ac_mdot (a b : aM -> arr K) : K :=
  adot (prodZ shape) (a MK) (b MK) + sumf (seq 0 nd) (fun d => adot (prodZ shape) (a (MB d)) (b (MB d))).
End User.

Section Grad.
Variable nd : nat.
Variable K : ops.
Hypothesis Kr : is_ring K.
Add Ring KRing2 : Kr.
Variable P : spar (ac_sys nd) K.
Variable pw : nat -> Z * Z.
Notation S := (ac_sys nd).
Notation N := (ac_kern nd).
Notation dK := (dual K).
Notation DP := (dspar P).
Hypothesis Hnd : length (sp_shape P) = nd.
Hypothesis Hsrc : locs_ok S K P (sp_src P).
Hypothesis Hrec : locs_ok S K P (sp_rec P).
Hypothesis Hgeo : sgeom S K P pw.

Lemma udots_ac a b : udots S K P a b = ac_udot nd K P a b.
Proof.
  unfold udots, ac_udot, dot, pdot. cbn [allX allE ac_sys ac_allX sumf]. rewrite (sumf_app K Kr), !(sumf_map K).
  rewrite !(sumf_ext K (seq 0 nd) (fun a0 => sumf (cpts _ _ _) _) _ (fun d _ => sumf_cpts S K Kr P _)).
  rewrite (sumf_cpts S K Kr P). unfold upts. ring.
Qed.
Lemma rdot_ac nt a b : rdot S K nt a b = ac_rdot nd K nt a b.
Proof.
  unfold rdot, ac_rdot, cdot. apply (sumf_ext K). intros t _. cbn [allC ac_sys ac_allX sumf]. rewrite (sumf_map K). reflexivity.
Qed.
Lemma mdot_ac a b : mdot S N K P a b = ac_mdot nd K P a b.
Proof.
  unfold mdot, ac_mdot, allM. cbn [kgrp ac_kern]. rewrite flat_map_app, flat_map_map. cbn [g_M flat_map app].
  rewrite flat_map_sing, (sumf_app K Kr), (sumf_map K). cbn [sumf].
  rewrite (adot_spts S K Kr P pw Hgeo).
  rewrite (sumf_ext K (seq 0 nd) (fun d => adot _ _ _) _ (fun d _ => adot_spts S K Kr P pw Hgeo _ _)). ring.
Qed.

Definition ac_fvis (A : bool) vis : Prop := Permutation (svisits S N K P (fpml_b S K P pw) (fpml_e S K P pw) A) vis.
Definition ac_bvis (A : bool) vis : Prop := Permutation (svisits S N K P (bpml_b S K P pw) (bpml_e S K P pw) A) vis.

Lemma acoustic_duality (dt : K) (kbD : aM -> arr dK) (fD : krec S dK) (u : sst S dK) (g : sst S K) (gr : krec S K)
    sr nt visDA visDB visFA visFB visBA visBB cbD cbF cbB kgD bgD kg bg store0D store0 :
  sroom S K P pw -> oq K (inject_Z 1) = 1 ->
  (forall k i, ac_flag kg bg k = false -> snd (kbD k i) = 0) ->
  ac_fvis true visDA -> ac_fvis false visDB -> ac_fvis true visFA -> ac_fvis false visFB ->
  ac_bvis true visBA -> ac_bvis false visBB ->
  nt_ok nt sr cbD -> nt_ok nt sr cbF -> nt_ok nt sr cbB ->
  exists uD rD stD uK rK stK g' gf gm,
    acoustic_forward nd dK DP pw (dconst dt) kbD visDA visDB kgD bgD sr fD nt cbD store0D u = Some (uD, rD, stD) /\
    acoustic_forward nd K P pw dt (fun k => are (kbD k)) visFA visFB kg bg sr (fun t c => lre (fD t c)) nt cbF store0 (ssre u)
      = Some (uK, rK, stK) /\
    acoustic_backward nd K P pw dt (fun k => are (kbD k)) visBA visBB kg bg sr gr nt cbB stK g = Some (g', gf, gm) /\
    sseq S K uK (ssre uD) /\ (forall t c, In c (allC S) -> rK t c = lre (rD t c)) /\
    (sr = 1%Z \/ (forall k i, snd (kbD k i) = 0) ->
     ac_udot nd K P g (ssep uD) + ac_rdot nd K nt gr (fun t c => lep (rD t c))
     = ac_udot nd K P g' (ssep u) + ac_rdot nd K nt gf (fun t c => lep (fD t c))
       + ac_mdot nd K P gm (fun k => aep (kbD k))).
Proof.
  intros Hroom H1 Hfl VDA VDB VFA VFB VBA VBB ND NF NB.
  assert (Sok : sys_ok S (length (sp_shape P))) by (rewrite Hnd; apply ac_sys_ok).
  assert (Hk : kern_ok S N (length (sp_shape P))) by (rewrite Hnd; apply ac_kern_ok).
  set (kcD := ac_kc (K := dK) (dconst dt) kbD).
  assert (HuD : num_ok S N dK (ac_num nd dK (dconst dt) kbD) kcD) by (apply ac_num_ok, dual_is_ring, Kr).
  assert (Hu : num_ok S N K (ac_num nd K dt (fun k => are (kbD k))) (fun x e i => fst (kcD x e i))).
  { assert (G : forall x e i, fst (kcD x e i) = ac_kc dt (fun k => are (kbD k)) x e i).
    { intros [|d] [j|j] i; reflexivity. }
    destruct (ac_num_ok nd K Kr dt (fun k => are (kbD k))) as [A1 A2 A3 A4 A5 A6]. split; auto.
    - intros A g0 x T i Hg Hx. rewrite (A1 A g0 x T i Hg Hx). apply (sumf_ext K). intros e _. rewrite G. reflexivity.
    - intros e Y i He. rewrite (A3 e Y i He). apply (sumf_ext K). intros x _. rewrite G. reflexivity. }
  destruct (stag_duality S N K Kr P (ac_num nd K dt (fun k => are (kbD k))) (ac_num nd dK (dconst dt) kbD) kcD pw
     Sok Hk Hu HuD Hsrc Hrec Hgeo Hroom fD u g gr sr nt visDA visDB visFA visFB visBA visBB cbD cbF cbB
     (ac_flag kgD bgD) (ac_flag kg bg) (ac_flag kg bg) store0D store0 (fun k => aep (kbD k)))
     as (uD & rD & stD & uK & rK & stK & g' & gf & gm & E1 & E2 & E3 & E4 & E5 & E6); auto.
  - unfold ofZ. rewrite H1. intros [] h Y T i Hh; cbn [kgrp ac_kern] in Hh.
    + apply in_map_iff in Hh. destruct Hh as (d & <- & Hd). apply in_seq in Hd. cbn [g_X g_M sumf].
      rewrite ac_incE_V by lia. cbn [sumf n_gm n_sto ac_num ac_ngm ac_nsto]. unfold kcD, aep. cbn. ring.
    + destruct Hh as [<-|[]]. cbn [g_X g_M sumf]. rewrite ac_incE_P. cbn [n_gm n_sto ac_num ac_ngm ac_nsto].
      rewrite (ac_div_sum nd K Kr).
      rewrite (sumf_ext K _ (fun e => Y XP * T e * snd (kcD XP e i)) (fun e => (- dt * Y XP * snd (kbD MK i)) * T e)).
      * rewrite (sumf_scal K Kr). unfold aep. change (sE (ac_sys nd)) with aE. ring.
      * intros e He. apply in_map_iff in He. destruct He as (j & <- & _). unfold kcD. cbn. ring.
  - intros [] h k q Hh Hk0 Hf Hq; cbn [kgrp ac_kern] in Hh.
    + apply in_map_iff in Hh. destruct Hh as (d & <- & Hd). destruct Hk0 as [<-|[]]. destruct Hq as [<-|[]]. exact Hf.
    + destruct Hh as [<-|[]]. destruct Hk0 as [<-|[]]. destruct Hq as [<-|[]]. exact Hf.
  - intros k i _ Hf. exact (Hfl k i Hf).
  - exists uD, rD, stD, uK, rK, stK, g', gf, gm. repeat (split; [assumption|]).
    intros Hsr. rewrite <- !udots_ac, <- !rdot_ac, <- mdot_ac. apply E6.
    destruct Hsr as [Hsr|Hsr]; [left; exact Hsr|right]. intros; apply Hsr.
Qed.
End Grad.

Section GradUser.
Variable nd : nat.
Variable K : ops.
Hypothesis Kr : is_ring K.
Add Ring KRingGU : Kr.
Variable P : spar (ac_sys nd) K.
Variable pw : nat -> Z * Z.

Lemma acoustic_gradient_exact :
  length (sp_shape P) = nd -> locs_ok (ac_sys nd) K P (sp_src P) -> locs_ok (ac_sys nd) K P (sp_rec P) ->
  sgeom (ac_sys nd) K P pw -> sroom (ac_sys nd) K P pw -> oq K (inject_Z 1) = 1 ->
  forall (dt : K) (kbD : aM -> arr (dual K)) (fD : krec (ac_sys nd) (dual K)) (u : sst (ac_sys nd) (dual K))
    (g : sst (ac_sys nd) K) (gr : krec (ac_sys nd) K)
    nt visDA visDB visFA visFB visBA visBB cbD cbF cbB kgD bgD kg bg store0D store0,
  (kg = false -> forall i, snd (kbD MK i) = 0) -> (bg = false -> forall d i, snd (kbD (MB d) i) = 0) ->
  ac_fvis nd K P pw true visDA -> ac_fvis nd K P pw false visDB -> ac_fvis nd K P pw true visFA -> ac_fvis nd K P pw false visFB ->
  ac_bvis nd K P pw true visBA -> ac_bvis nd K P pw false visBB ->
  nt_ok nt 1 cbD -> nt_ok nt 1 cbF -> nt_ok nt 1 cbB ->
  exists uD rD stD uK rK stK g' gf gm,
    acoustic_forward nd (dual K) (dspar P) pw (dconst dt) kbD visDA visDB kgD bgD 1 fD nt cbD store0D u = Some (uD, rD, stD) /\
    acoustic_forward nd K P pw dt (fun k => are (kbD k)) visFA visFB kg bg 1 (fun t c => lre (fD t c)) nt cbF store0 (ssre u)
      = Some (uK, rK, stK) /\
    acoustic_backward nd K P pw dt (fun k => are (kbD k)) visBA visBB kg bg 1 gr nt cbB stK g = Some (g', gf, gm) /\
    sseq (ac_sys nd) K uK (ssre uD) /\ (forall t c, In c (ac_allX nd) -> rK t c = lre (rD t c)) /\
    ac_udot nd K P g (ssep uD) + ac_rdot nd K nt gr (fun t c => lep (rD t c))
    = ac_udot nd K P g' (ssep u) + ac_rdot nd K nt gf (fun t c => lep (fD t c))
      + ac_mdot nd K P gm (fun k => aep (kbD k)).
Proof.
  intros Hnd Hsrc Hrec Hgeo Hroom H1 dt kbD fD u g gr nt visDA visDB visFA visFB visBA visBB cbD cbF cbB kgD bgD kg bg store0D store0
    Hk Hb VDA VDB VFA VFB VBA VBB ND NF NB.
  destruct (acoustic_duality nd K Kr P pw Hnd Hsrc Hrec Hgeo dt kbD fD u g gr 1 nt visDA visDB visFA visFB visBA visBB cbD cbF cbB
     kgD bgD kg bg store0D store0) as (uD & rD & stD & uK & rK & stK & g' & gf & gm & E1 & E2 & E3 & E4 & E5 & E6); auto.
  - intros [|d] i; cbn; auto.
  - exists uD, rD, stD, uK, rK, stK, g', gf, gm. do 5 (split; [assumption|]). apply E6. left. reflexivity.
Qed.

Lemma acoustic_linear_gradient :
  length (sp_shape P) = nd -> locs_ok (ac_sys nd) K P (sp_src P) -> locs_ok (ac_sys nd) K P (sp_rec P) ->
  sgeom (ac_sys nd) K P pw -> sroom (ac_sys nd) K P pw -> oq K (inject_Z 1) = 1 ->
  forall (dt : K) (kb : aM -> arr K) (fD : krec (ac_sys nd) (dual K)) (u : sst (ac_sys nd) (dual K))
    (g : sst (ac_sys nd) K) (gr : krec (ac_sys nd) K)
    sr nt visDA visDB visFA visFB visBA visBB cbD cbF cbB kgD bgD kg bg store0D store0,
  ac_fvis nd K P pw true visDA -> ac_fvis nd K P pw false visDB -> ac_fvis nd K P pw true visFA -> ac_fvis nd K P pw false visFB ->
  ac_bvis nd K P pw true visBA -> ac_bvis nd K P pw false visBB ->
  nt_ok nt sr cbD -> nt_ok nt sr cbF -> nt_ok nt sr cbB ->
  exists uD rD stD uK rK stK g' gf gm,
    acoustic_forward nd (dual K) (dspar P) pw (dconst dt) (fun k i => dconst (kb k i)) visDA visDB kgD bgD sr fD nt cbD store0D u
      = Some (uD, rD, stD) /\
    acoustic_forward nd K P pw dt kb visFA visFB kg bg sr (fun t c => lre (fD t c)) nt cbF store0 (ssre u) = Some (uK, rK, stK) /\
    acoustic_backward nd K P pw dt kb visBA visBB kg bg sr gr nt cbB stK g = Some (g', gf, gm) /\
    ac_udot nd K P g (ssep uD) + ac_rdot nd K nt gr (fun t c => lep (rD t c))
    = ac_udot nd K P g' (ssep u) + ac_rdot nd K nt gf (fun t c => lep (fD t c)).
Proof.
  intros Hnd Hsrc Hrec Hgeo Hroom H1 dt kb fD u g gr sr nt visDA visDB visFA visFB visBA visBB cbD cbF cbB kgD bgD kg bg store0D store0
    VDA VDB VFA VFB VBA VBB ND NF NB.
  destruct (acoustic_duality nd K Kr P pw Hnd Hsrc Hrec Hgeo dt (fun k i => dconst (kb k i)) fD u g gr sr nt visDA visDB visFA visFB visBA visBB
     cbD cbF cbB kgD bgD kg bg store0D store0) as (uD & rD & stD & uK & rK & stK & g' & gf & gm & E1 & E2 & E3 & E4 & E5 & E6); auto.
  exists uD, rD, stD, uK, rK, stK, g', gf, gm. split; [exact E1|]. split; [exact E2|]. split; [exact E3|].
  rewrite E6 by (right; reflexivity).
  assert (Z : ac_mdot nd K P gm (fun k => aep (fun i => dconst (kb k i))) = 0).
  { unfold ac_mdot. assert (A : forall n (a : arr K) k, adot n a (aep (fun i => dconst (kb k i))) = 0).
    { intros. unfold adot. apply (sumf_zero K Kr). intros. unfold aep, dconst. cbn. ring. }
    rewrite A, (sumf_zero K Kr) by (intros; apply A). ring. }
  rewrite Z. ring.
Qed.
End GradUser.
