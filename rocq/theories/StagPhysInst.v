(** * Time reversal and reciprocity for the acoustic and elastic propagators (proofs). *)
From Coq Require Import List ZArith QArith Ring Ring_theory Lia Bool Permutation.
From Verif Require Import Ops Sums Grid Stencil DualNum ScalarModel ScalarRefine ScalarForward ScalarAdjoint ScalarMore Loop
  Stag StagAdj StagKernel StagCell StagRefine StagGrad StagPy AcousticModel AcousticThm ElasticModel ElasticThm StagEqs StagRun StagRunInst
  StagEnergy StagPhys StagRecip StagPhysRun.
Import ListNotations.
Local Open Scope K_scope.

(** Equality of kinds of sources. *)
Definition ac_ceq (a b : aX) : bool := if aX_dec a b then true else false.
Definition eC_dec (a b : eC) : {a = b} + {a <> b}. Proof. decide equality; apply Nat.eq_dec. Defined.
Definition el_ceq (a b : eC) : bool := if eC_dec a b then true else false.
Lemma ac_ceq_spec a b : ac_ceq a b = true <-> a = b.
Proof. unfold ac_ceq. destruct (aX_dec a b); split; congruence. Qed.
Lemma el_ceq_spec a b : el_ceq a b = true <-> a = b.
Proof. unfold el_ceq. destruct (eC_dec a b); split; congruence. Qed.

(** A single source (or receiver) of kind [c] in the cell with index [l], and its amplitudes. *)
Definition ac_at (c : aX) (l : Z) : aX -> list Z := one_loc ac_ceq c l.
Definition ac_samp {K : ops} (c : aX) (s : Z -> K) (t : Z) : aX -> list K := one_amp ac_ceq c s t.
Definition el_at (c : eC) (l : Z) : eC -> list Z := one_loc el_ceq c l.
Definition el_samp {K : ops} (c : eC) (s : Z -> K) (t : Z) : eC -> list K := one_amp el_ceq c s t.

Lemma masked_pos l : (0 <= l)%Z -> py_masked l = l.
Proof. intros H. unfold py_masked. destruct (Z.eqb_spec l IGNORE) as [E|]; [unfold IGNORE in E; lia|reflexivity]. Qed.

(** ** Acoustic *)
Definition ac_mate (e : aE) : aE := match e with EV d => EP d | EP d => EV d end.
Definition ac_hC {K : ops} (shape : list Z) (dt : K) (kb : aM -> arr K) (x w : aX) : field K := fun p =>
  if ac_ceq x w then - dt * kb (ac_model x) (idx shape p) else 0.

Section Ac.
Variable nd : nat.
Variable K : ops.
Hypothesis Kr : is_ring K.
Add Ring KRing : Kr.
Lemma ac_recip (P : spar (ac_sys nd) K) dt kb : length (sp_shape P) = nd ->
  recip_ok (ac_sys nd) K (length (sp_shape P)) (ccoe (ac_sys nd) K P (ac_kc dt kb)) ac_mate (ac_hC (sp_shape P) dt kb).
Proof.
  intros Hnd.
  assert (IE : forall e, In e (allE (ac_sys nd)) <-> (ac_edim e < nd)%nat).
  { intros e. cbn [allE ac_sys]. rewrite in_app_iff, !in_map_iff. split.
    - intros [(d & <- & H)|(d & <- & H)]; apply in_seq in H; cbn; lia.
    - destruct e as [d|d]; cbn; intros H; [left|right]; exists d; split; auto; apply in_seq; lia. }
  constructor.
  - intros e. rewrite !IE. destruct e; exact (fun H => H).
  - intros [d|d] _; reflexivity.
  - intros [d|d] _; reflexivity.
  - intros [d|d] _; cbn; rewrite Nat.eqb_refl; reflexivity.
  - intros [d|d] _; reflexivity.
  - cbn [allE ac_sys]. rewrite map_app, !map_map. cbn [ac_mate]. apply Permutation_app_comm.
  - intros x e p Hx He. unfold ac_hC, ccoe, ac_ceq. cbn [inc esrc ac_sys].
    destruct x as [|a], e as [b|b]; cbn [ac_inc ac_mate ac_esrc ac_kc ac_model].
    + destruct (aX_dec XP (XV b)); [discriminate|reflexivity].
    + destruct (aX_dec XP XP); [reflexivity|congruence].
    + destruct (aX_dec (XV a) (XV b)) as [E|E], (Nat.eqb_spec a b); try congruence; reflexivity.
    + destruct (aX_dec (XV a) XP); [discriminate|reflexivity].
  - intros x w p _ _. unfold ac_hC, ac_ceq. destruct (aX_dec x w) as [->|]; [destruct (aX_dec w w); congruence|].
    destruct (aX_dec w x); congruence.
  - intros x w _ _. destruct (aX_dec x w) as [->|Hne]; [right; auto|]. left. intros p. unfold ac_hC, ac_ceq.
    destruct (aX_dec x w); [contradiction|reflexivity].
Qed.
Lemma ac_eig (P : spar (ac_sys nd) K) dt kb c l : length (sp_shape P) = nd ->
  In c (ac_allX nd) -> (0 <= l)%Z -> sloc_ok (ac_sys nd) K P c l ->
  eig (ac_sys nd) K P (ac_hC (sp_shape P) dt kb) c l (- dt * kb (ac_model c) l).
Proof.
  intros Hnd Hc Hl [H|(q & -> & Hq & _)]; [lia|]. pose proof (unidx_idx _ _ Hq) as Hi.
  intros x p Hx. unfold Cz. rewrite (sumf_single K Kr (allX (ac_sys nd)) c).
  - unfold impulse, ac_hC, ac_ceq. cbn [cin ac_sys]. rewrite Hi.
    destruct (aX_dec c c) as [_|]; [|congruence]. destruct (aX_dec x c) as [->|Hne].
    + destruct (aX_dec c c); [|congruence]. destruct (pt_eq_dec q p) as [->|]; ring.
    + destruct (aX_dec c x); [congruence|]. ring.
  - apply NoDup_ac_allX.
  - exact Hc.
  - intros w _ Hw. unfold impulse. cbn [cin ac_sys]. destruct (aX_dec c w); [congruence|].
    ring.
Qed.

Variable P : spar (ac_sys nd) K.
Variable pw : nat -> Z * Z.
Hypothesis Hnd : length (sp_shape P) = nd.
Hypothesis Hg : sgeom (ac_sys nd) K P pw.
Hypothesis HN : no_layers nd pw.
Variable dt : K.
Variable kb : aM -> arr K.
Let HN' : no_layers (length (sp_shape P)) pw. Proof. rewrite Hnd. exact HN. Qed.

Lemma ac_prep_one c l s t ch : (0 <= l)%Z ->
  ac_prep dt kb (ac_at c l) (ac_samp c s t) ch = one_amp ac_ceq c (fun t => s t * kb (ac_model c) l * dt) t ch.
Proof.
  intros Hl. unfold ac_prep, ac_at, ac_samp, one_loc, one_amp. destruct (ac_ceq ch c) eqn:E; [|reflexivity].
  apply ac_ceq_spec in E. subst ch. cbn [combine map fst snd]. rewrite masked_pos by exact Hl. reflexivity.
Qed.

Lemma acoustic_recip_gen c1 c2 l1 l2 (s : Z -> K) nt sr vA1 vB1 vA2 vB2 kg1 bg1 kg2 bg2 cb1 cb2 st1 st2 U1 R1 S1 U2 R2 S2 :
  In c1 (ac_allX nd) -> In c2 (ac_allX nd) ->
  (0 <= l1)%Z -> sloc_ok (ac_sys nd) K P c1 l1 -> (0 <= l2)%Z -> sloc_ok (ac_sys nd) K P c2 l2 ->
  ac_fvis nd K P pw true vA1 -> ac_fvis nd K P pw false vB1 -> ac_fvis nd K P pw true vA2 -> ac_fvis nd K P pw false vB2 ->
  nt_ok nt sr cb1 -> nt_ok nt sr cb2 ->
  acoustic_forward nd K (with_lists P (ac_at c1 l1) (ac_at c2 l2)) pw dt kb vA1 vB1 kg1 bg1 sr
    (fun t => ac_prep dt kb (ac_at c1 l1) (ac_samp c1 s t)) nt cb1 st1 (rest (ac_sys nd) K) = Some (U1, R1, S1) ->
  acoustic_forward nd K (with_lists P (ac_at c2 l2) (ac_at c1 l1)) pw dt kb vA2 vB2 kg2 bg2 sr
    (fun t => ac_prep dt kb (ac_at c2 l2) (ac_samp c2 s t)) nt cb2 st2 (rest (ac_sys nd) K) = Some (U2, R2, S2) ->
  (ac_xA c1 = ac_xA c2 -> forall t, R1 t c2 = R2 t c1) /\
  (ac_xA c1 = false -> ac_xA c2 = true -> forall t, (0 <= t)%Z -> (t + 1 < nsteps nt sr)%Z ->
     R1 (t + 1)%Z c2 = map (oopp K) (R2 t c1)).
Proof.
  intros H1 H2 L1 O1 L2 O2 HA1 HB1 HA2 HB2 N1 N2 E1 E2. ac_oks.
  destruct (stag_reciprocity (ac_sys nd) (ac_kern nd) K Kr P (ac_num nd K dt kb) (ac_kc dt kb) pw Sok Hk (ac_num_ok nd K Kr dt kb) Hg HN'
     ac_ceq ac_ceq_spec (NoDup_ac_allX nd) ac_mate (ac_hC (sp_shape P) dt kb) (ac_recip P dt kb Hnd)
     c1 c2 l1 l2 (- dt * kb (ac_model c1) l1) (- dt * kb (ac_model c2) l2) 1 1
     (fun t => s t * kb (ac_model c1) l1 * dt) (fun t => s t * kb (ac_model c2) l2 * dt) (fun t => - s t)
     H1 H2 L1 L2 O1 O2 (ac_eig P dt kb c1 l1 Hnd H1 L1 O1) (ac_eig P dt kb c2 l2 Hnd H2 L2 O2)
     ltac:(intros t; cbv beta; ring) ltac:(intros t; cbv beta; ring) _ _ nt sr vA1 vB1 vA2 vB2 (ac_flag kg1 bg1) (ac_flag kg2 bg2) cb1 cb2 st1 st2
     U1 R1 S1 U2 R2 S2 HA1 HB1 HA2 HB2 N1 N2
     (fun t ch => ac_prep_one c1 l1 s t ch L1) (fun t ch => ac_prep_one c2 l2 s t ch L2) E1 E2) as [Q1 Q2].
  assert (M1 : forall l : list K, map (omul K 1) l = l) by (intros l; rewrite <- (map_id l) at 2; apply map_ext; intros a; ring).
  assert (M2 : forall l : list K, map (fun r => - (1 * r)) l = map (oopp K) l) by (intros l; apply map_ext; intros a; ring).
  split.
  - intros HA t. specialize (Q1 HA t). rewrite !M1 in Q1. exact Q1.
  - intros HA HB t T0 T1. specialize (Q2 HA HB t T0 T1). rewrite M1, M2 in Q2. exact Q2.
Qed.

Lemma upd_v d p : updated P (Nat.eqb d) p <-> updated P (xh (ac_sys nd) (XV d)) p.
Proof. apply updated_ext. intros e _. apply Nat.eqb_sym. Qed.

Lemma acoustic_time_reversal : locs_ok (ac_sys nd) K P (sp_src P) -> locs_ok (ac_sys nd) K P (sp_rec P) ->
  forall n (u x : sst (ac_sys nd) K) (f1 f2 f3 f4 : Z -> aX -> list K) vA1 vB1 vA2 vB2 vA3 vB3 vA4 vB4 kg1 bg1 kg2 bg2 kg3 bg3 kg4 bg4 cb1 cb2 cb3 cb4 st1 st2 st3 st4
    U1 R1 S1 U2 R2 S2 U3 R3 S3 U4 R4 S4,
  ac_fvis nd K P pw true vA1 -> ac_fvis nd K P pw false vB1 -> ac_fvis nd K P pw true vA2 -> ac_fvis nd K P pw false vB2 ->
  ac_fvis nd K P pw true vA3 -> ac_fvis nd K P pw false vB3 -> ac_fvis nd K P pw true vA4 -> ac_fvis nd K P pw false vB4 ->
  nt_ok n 1 cb1 -> nt_ok (n + 1) 1 cb2 -> nt_ok 1 1 cb3 -> nt_ok n 1 cb4 ->
  (forall t c, In c (ac_allX nd) -> Forall (fun a => a = 0) (f1 t c) /\ Forall (fun a => a = 0) (f2 t c) /\
     Forall (fun a => a = 0) (f3 t c) /\ Forall (fun a => a = 0) (f4 t c)) ->
  acoustic_forward nd K P pw dt kb vA1 vB1 kg1 bg1 1 f1 n cb1 st1 u = Some (U1, R1, S1) ->
  acoustic_forward nd K P pw dt kb vA2 vB2 kg2 bg2 1 f2 (n + 1) cb2 st2 u = Some (U2, R2, S2) ->
  acoustic_forward nd K P pw dt kb vA3 vB3 kg3 bg3 1 f3 1 cb3 st3 u = Some (U3, R3, S3) ->
  (forall p, updated P (fun _ => false) p -> mn x XP p = mn U1 XP p) ->
  (forall d p, (d < nd)%nat -> updated P (Nat.eqb d) p -> mn x (XV d) p = - mn U2 (XV d) p) ->
  acoustic_forward nd K P pw dt kb vA4 vB4 kg4 bg4 1 f4 n cb4 st4 x = Some (U4, R4, S4) ->
  (forall p, updated P (fun _ => false) p -> mn U4 XP p = mn u XP p) /\
  (forall d p, (d < nd)%nat -> updated P (Nat.eqb d) p -> mn U4 (XV d) p = - mn U3 (XV d) p).
Proof.
  intros Hs Hr n u x f1 f2 f3 f4 vA1 vB1 vA2 vB2 vA3 vB3 vA4 vB4 kg1 bg1 kg2 bg2 kg3 bg3 kg4 bg4 cb1 cb2 cb3 cb4 st1 st2 st3 st4
    U1 R1 S1 U2 R2 S2 U3 R3 S3 U4 R4 S4 HA1 HB1 HA2 HB2 HA3 HB3 HA4 HB4 N1 N2 N3 N4 HZ E1 E2 E3 X1 X2 E4. ac_oks.
  assert (XI : forall d, (d < nd)%nat -> In (XV d) (ac_allX nd)) by (intros d Hd; right; apply in_map, in_seq; lia).
  pose proof (stag_time_reversal (ac_sys nd) (ac_kern nd) K Kr P (ac_num nd K dt kb) (ac_kc dt kb) pw Sok Hk (ac_num_ok nd K Kr dt kb) Hg HN' Hs Hr
    n u x f1 f2 f3 f4 vA1 vB1 vA2 vB2 vA3 vB3 vA4 vB4 (ac_flag kg1 bg1) (ac_flag kg2 bg2) (ac_flag kg3 bg3) (ac_flag kg4 bg4) cb1 cb2 cb3 cb4 st1 st2 st3 st4
    U1 R1 S1 U2 R2 S2 U3 R3 S3 U4 R4 S4 HA1 HB1 HA2 HB2 HA3 HB3 HA4 HB4 N1 N2 N3 N4
    (fun t c H => proj1 (HZ t c H)) (fun t c H => proj1 (proj2 (HZ t c H))) (fun t c H => proj1 (proj2 (proj2 (HZ t c H)))) (fun t c H => proj2 (proj2 (proj2 (HZ t c H))))
    E1 E2 E3 E4) as Q.
  assert (X : forall v p, In v (ac_allX nd) -> updated P (xh (ac_sys nd) v) p ->
     mn x v p = if xA (ac_sys nd) v then - mn U2 v p else mn U1 v p).
  { intros [|d] p Hv Hp; [exact (X1 p Hp)|]. apply In_ac_allX in Hv. apply X2; [exact Hv|]. apply upd_v, Hp. }
  specialize (Q X). split.
  - intros p Hp. exact (Q XP p (or_introl eq_refl) Hp).
  - intros d p Hd Hp. exact (Q (XV d) p (XI d Hd) (proj1 (upd_v d p) Hp)).
Qed.
End Ac.

(** ** Elastic *)
Definition el_mate (e : eE) : eE := match e with DS d j => DV d j | DV d j => DS d j end.
(** Moduli: symmetric, the normal stresses coupled by [lamb]. *)
Definition el_hC {K : ops} (shape : list Z) (dt : K) (md : eM -> arr K) (x w : eX) : field K := fun p =>
  let m k := md k (idx shape p) in
  match x, w with
  | VL d, VL d' => if Nat.eqb d d' then m (EB d) * dt else 0
  | Sg i j, Sg k l =>
      if Nat.eqb i j then (if Nat.eqb k l then dt * (m ML + (if Nat.eqb k i then two * m MMU else 0)) else 0)
      else if Nat.eqb i k && Nat.eqb j l then dt * m (MS i j) else 0
  | _, _ => 0
  end.
(** [nd * lamb + 2 * mu]. *)
Definition el_kappa {K : ops} (nd : nat) (md : eM -> arr K) (l : Z) : K := sumf (seq 0 nd) (fun _ => md ML l) + two * md MMU l.

Lemma In_el_allC nd c : In c (el_allC nd) <-> match c with CV d => (d < nd)%nat | CP => True end.
Proof.
  unfold el_allC. rewrite in_app_iff, in_map_iff. cbn. destruct c as [d|]; split; auto.
  - intros [(e & E & H)|[H|[]]]; [|discriminate]. injection E as <-. apply in_seq in H. lia.
  - intros H. left. exists d. split; [reflexivity|]. apply in_seq. lia.
Qed.
Lemma NoDup_el_allC nd : NoDup (el_allC nd).
Proof.
  unfold el_allC. apply (Permutation_NoDup (Permutation_cons_append (map CV (seq 0 nd)) CP)). constructor.
  - rewrite in_map_iff. intros (d & E & _). discriminate E.
  - apply NoDup_map_i; [congruence|apply seq_NoDup].
Qed.

Section El.
Variable nd : nat.
Variable K : ops.
Hypothesis Kr : is_ring K.
Add Ring KRing2 : Kr.

Lemma el_recip (P : spar (el_sys nd) K) dt md : length (sp_shape P) = nd ->
  recip_ok (el_sys nd) K (length (sp_shape P)) (ccoe (el_sys nd) K P (el_kc dt md)) el_mate (el_hC (sp_shape P) dt md).
Proof.
  intros Hnd.
  assert (MI : forall e, In e (el_allE nd) -> In (el_mate e) (el_allE nd)).
  { intros e. rewrite !In_el_allE. destruct e; exact (fun H => H). }
  constructor.
  - exact MI.
  - intros [d j|d j] _; reflexivity.
  - intros [d j|d j] _; reflexivity.
  - intros [d j|d j] _; cbn; rewrite Nat.eqb_refl, orb_true_r, andb_true_r, (Nat.eqb_sym j d); [reflexivity|].
    rewrite negb_involutive. reflexivity.
  - intros [d j|d j] _; reflexivity.
  - cbn [allE el_sys]. apply NoDup_Permutation.
    + apply NoDup_map_i; [|apply NoDup_el_allE]. intros [a b|a b] [a' b'|a' b'] E; cbn in E; congruence.
    + apply NoDup_el_allE.
    + intros e. rewrite in_map_iff. split.
      * intros (e' & <- & H). apply MI, H.
      * intros H. exists (el_mate e). split; [destruct e; reflexivity|apply MI, H].
  - intros x e p Hx He. cbn [allX allE el_sys] in Hx, He. apply In_el_allX in Hx. apply In_el_allE in He.
    unfold el_hC, ccoe. cbn [inc esrc el_sys].
    destruct x as [a|a b], e as [i j|i j]; cbn [el_inc el_mate el_esrc el_kc ElasticModel.sg]; try reflexivity.
    unfold ElasticModel.sg. destruct (Nat.eqb_spec a b) as [Hab|Hab].
    + destruct (Nat.eqb_spec i j) as [Hij|Hij].
      * subst j. rewrite Nat.min_id, Nat.max_id, Nat.eqb_refl. reflexivity.
      * destruct (Nat.eqb_spec (Nat.min i j) (Nat.max i j)); [lia|reflexivity].
    + assert (E : (Nat.eqb i a && Nat.eqb j b || Nat.eqb i b && Nat.eqb j a)
                  = (Nat.eqb a (Nat.min i j) && Nat.eqb b (Nat.max i j))).
      { apply eq_true_iff_eq. rewrite orb_true_iff, !andb_true_iff, !Nat.eqb_eq. lia. }
      rewrite E. destruct (_ && _); reflexivity.
  - intros x w p _ _. unfold el_hC. destruct x as [a|a b], w as [i|i j]; try reflexivity.
    + rewrite (Nat.eqb_sym i a). destruct (Nat.eqb_spec a i) as [->|]; reflexivity.
    + destruct (Nat.eqb_spec a b) as [->|Hab], (Nat.eqb_spec i j) as [->|Hij].
      * rewrite (Nat.eqb_sym j b). reflexivity.
      * destruct (Nat.eqb_spec i b), (Nat.eqb_spec j b); cbn [andb]; try reflexivity. congruence.
      * destruct (Nat.eqb_spec a j), (Nat.eqb_spec b j); cbn [andb]; try reflexivity. congruence.
      * rewrite (Nat.eqb_sym i a), (Nat.eqb_sym j b).
        destruct (Nat.eqb_spec a i) as [->|], (Nat.eqb_spec b j) as [->|]; reflexivity.
  - intros x w _ _. unfold el_hC. cbn [xA xh el_sys]. destruct x as [a|a b], w as [i|i j]; try (left; reflexivity).
    + destruct (Nat.eqb_spec a i) as [->|]; [right; auto|left; reflexivity].
    + destruct (Nat.eqb_spec a b) as [->|Hab].
      * destruct (Nat.eqb_spec i j) as [->|Hij]; [|left; reflexivity]. right. split; [reflexivity|].
        intros d _. cbn. rewrite !Nat.eqb_refl. reflexivity.
      * destruct (Nat.eqb_spec a i) as [->|], (Nat.eqb_spec b j) as [->|]; cbn [andb]; try (left; reflexivity). right; auto.
Qed.

Definition el_al (dt : K) (md : eM -> arr K) (c : eC) (l : Z) : K :=
  match c with CV d => md (EB d) l * dt | CP => dt * el_kappa nd md l end.

Lemma el_sum_normal (g : eX -> K) : sumf (el_allX nd) (fun w => if el_cin CP w then g w else 0) = sumf (seq 0 nd) (fun k => g (Sg k k)).
Proof.
  unfold el_allX. rewrite !(sumf_app K Kr), !sumf_map.
  rewrite (sumf_zero K Kr (seq 0 nd) (fun x => if el_cin CP (VL x) then g (VL x) else 0)) by (intros; reflexivity).
  rewrite (sumf_zero K Kr (pairs nd)).
  - rewrite (sumf_ext K (seq 0 nd) (fun x => if el_cin CP (Sg x x) then g (Sg x x) else 0) (fun k => g (Sg k k))); [ring|].
    intros k _. cbn. rewrite Nat.eqb_refl. reflexivity.
  - intros [i j] Hq. apply In_pairs in Hq. cbn. destruct (Nat.eqb_spec i j); [lia|reflexivity].
Qed.
Lemma el_eig (P : spar (el_sys nd) K) dt md c l : length (sp_shape P) = nd ->
  In c (el_allC nd) -> (0 <= l)%Z -> sloc_ok (el_sys nd) K P c l ->
  eig (el_sys nd) K P (el_hC (sp_shape P) dt md) c l (el_al dt md c l).
Proof.
  intros Hnd Hc Hl [H|(q & -> & Hq & _)]; [lia|]. pose proof (unidx_idx _ _ Hq) as Hi.
  intros x p Hx. unfold Cz, impulse. rewrite Hi. cbn [cin allX el_sys] in *. apply In_el_allX in Hx.
  destruct (pt_eq_dec q p) as [->|Hne].
  2:{ rewrite (sumf_zero K Kr); [destruct (el_cin c x); ring|]. intros w _. destruct (el_cin c w); ring. }
  destruct c as [d|]; cbn [el_al].
  - apply In_el_allC in Hc.
    rewrite (sumf_single K Kr (el_allX nd) (VL d)).
    + cbn [el_cin]. rewrite Nat.eqb_refl. unfold el_hC. destruct x as [a|a b]; cbn [el_cin]; [|ring].
      rewrite (Nat.eqb_sym d a). destruct (Nat.eqb_spec a d) as [->|]; ring.
    + apply NoDup_el_allX.
    + apply In_el_allX. exact Hc.
    + intros w _ Hw. destruct w as [a|a b]; cbn [el_cin]; [|ring]. destruct (Nat.eqb_spec d a) as [->|]; [congruence|ring].
  - rewrite (sumf_ext K (el_allX nd) _ (fun w => if el_cin CP w then el_hC (sp_shape P) dt md x w p else 0))
      by (intros w _; destruct (el_cin CP w); ring).
    rewrite el_sum_normal. unfold el_hC. destruct x as [a|a b]; cbn [el_cin].
    + rewrite (sumf_zero K Kr) by (intros; reflexivity). ring.
    + destruct (Nat.eqb_spec a b) as [->|Hab].
      * rewrite (sumf_ext K (seq 0 nd) _ (fun k => dt * md ML (idx (sp_shape P) p) + (if Nat.eqb k b then dt * (two * md MMU (idx (sp_shape P) p)) else 0))).
        -- rewrite (sumf_add K Kr), (sumf_scal K Kr).
           rewrite (sumf_single K Kr (seq 0 nd) b (fun k => if Nat.eqb k b then dt * (two * md MMU (idx (sp_shape P) p)) else 0)).
           ++ rewrite Nat.eqb_refl. unfold el_kappa. ring.
           ++ apply seq_NoDup.
           ++ apply in_seq. lia.
           ++ intros k _ Hk. destruct (Nat.eqb_spec k b); [congruence|reflexivity].
        -- intros k _. rewrite Nat.eqb_refl. destruct (Nat.eqb k b); ring.
      * rewrite (sumf_zero K Kr); [ring|]. intros k _. destruct (Nat.eqb_spec a k) as [->|], (Nat.eqb_spec b k) as [->|]; cbn [andb]; congruence.
Qed.

Variable P : spar (el_sys nd) K.
Variable pw : nat -> Z * Z.
Hypothesis Hnd : length (sp_shape P) = nd.
Hypothesis Hnd0 : (0 < nd)%nat.
Hypothesis Hg : sgeom (el_sys nd) K P pw.
Hypothesis HN : no_layers nd pw.
Variable dt : K.
Variable md : eM -> arr K.
Let HN' : no_layers (length (sp_shape P)) pw. Proof. rewrite Hnd. exact HN. Qed.

Definition el_q (s : Z -> K) (c : eC) (l : Z) (t : Z) : K := match c with CV d => s t * md (EB d) l * dt | CP => - s t * dt end.
Definition el_be (c : eC) (l : Z) : K := match c with CV d => 1 | CP => - el_kappa nd md l end.
Lemma el_prep_one c l s t ch : (0 <= l)%Z ->
  el_prep dt md (el_at c l) (el_samp c s t) ch = one_amp el_ceq c (el_q s c l) t ch.
Proof.
  intros Hl. unfold el_prep, el_at, el_samp, one_loc, one_amp, el_q. destruct (el_ceq ch c) eqn:E; [|reflexivity].
  apply el_ceq_spec in E. subst ch. cbn [combine map fst snd]. rewrite masked_pos by exact Hl. destruct c; reflexivity.
Qed.
Lemma el_be_al s c l t : el_be c l * el_q s c l t = el_al dt md c l * s t.
Proof. destruct c as [d|]; cbn [el_be el_q el_al]; ring. Qed.

Lemma elastic_recip_gen c1 c2 l1 l2 (s : Z -> K) nt sr vA1 vB1 vA2 vB2 lg1 mg1 bg1 lg2 mg2 bg2 cb1 cb2 st1 st2 U1 R1 S1 U2 R2 S2 :
  In c1 (el_allC nd) -> In c2 (el_allC nd) ->
  (0 <= l1)%Z -> sloc_ok (el_sys nd) K P c1 l1 -> (0 <= l2)%Z -> sloc_ok (el_sys nd) K P c2 l2 ->
  el_fvis nd K P pw true vA1 -> el_fvis nd K P pw false vB1 -> el_fvis nd K P pw true vA2 -> el_fvis nd K P pw false vB2 ->
  nt_ok nt sr cb1 -> nt_ok nt sr cb2 ->
  elastic_forward nd K (with_lists P (el_at c1 l1) (el_at c2 l2)) pw dt md vA1 vB1 lg1 mg1 bg1 sr
    (fun t => el_prep dt md (el_at c1 l1) (el_samp c1 s t)) nt cb1 st1 (rest (el_sys nd) K) = Some (U1, R1, S1) ->
  elastic_forward nd K (with_lists P (el_at c2 l2) (el_at c1 l1)) pw dt md vA2 vB2 lg2 mg2 bg2 sr
    (fun t => el_prep dt md (el_at c2 l2) (el_samp c2 s t)) nt cb2 st2 (rest (el_sys nd) K) = Some (U2, R2, S2) ->
  (el_cA c1 = el_cA c2 -> forall t, map (omul K (el_be c1 l1)) (R1 t c2) = map (omul K (el_be c2 l2)) (R2 t c1)) /\
  (el_cA c1 = false -> el_cA c2 = true -> forall t, (0 <= t)%Z -> (t + 1 < nsteps nt sr)%Z ->
     map (omul K (el_be c1 l1)) (R1 (t + 1)%Z c2) = map (fun r => - (el_be c2 l2 * r)) (R2 t c1)).
Proof.
  intros H1 H2 L1 O1 L2 O2 HA1 HB1 HA2 HB2 N1 N2 E1 E2. el_oks.
  exact (stag_reciprocity (el_sys nd) (el_kern nd) K Kr P (el_num nd K dt md) (el_kc dt md) pw Sok Hk (el_num_ok nd K Kr dt md) Hg HN'
     el_ceq el_ceq_spec (NoDup_el_allC nd) el_mate (el_hC (sp_shape P) dt md) (el_recip P dt md Hnd)
     c1 c2 l1 l2 (el_al dt md c1 l1) (el_al dt md c2 l2) (el_be c1 l1) (el_be c2 l2) (el_q s c1 l1) (el_q s c2 l2) s
     H1 H2 L1 L2 O1 O2 (el_eig P dt md c1 l1 Hnd H1 L1 O1) (el_eig P dt md c2 l2 Hnd H2 L2 O2)
     (el_be_al s c1 l1) (el_be_al s c2 l2) _ _ nt sr vA1 vB1 vA2 vB2 (el_fq lg1 mg1 bg1) (el_fq lg2 mg2 bg2) cb1 cb2 st1 st2
     U1 R1 S1 U2 R2 S2 HA1 HB1 HA2 HB2 N1 N2
     (fun t ch => el_prep_one c1 l1 s t ch L1) (fun t ch => el_prep_one c2 l2 s t ch L2) E1 E2).
Qed.

Lemma eupd_v d p : updated P (on_v d) p <-> updated P (xh (el_sys nd) (VL d)) p.
Proof. apply updated_ext. intros e _. apply Nat.eqb_sym. Qed.
Lemma eupd_s i j p : updated P (on_s i j) p <-> updated P (xh (el_sys nd) (Sg i j)) p.
Proof. apply updated_ext. intros e _. reflexivity. Qed.

Lemma elastic_time_reversal : locs_ok (el_sys nd) K P (sp_src P) -> locs_ok (el_sys nd) K P (sp_rec P) ->
  forall n (u x : sst (el_sys nd) K) (f1 f2 f3 f4 : Z -> eC -> list K) vA1 vB1 vA2 vB2 vA3 vB3 vA4 vB4 lg1 mg1 bg1 lg2 mg2 bg2 lg3 mg3 bg3 lg4 mg4 bg4 cb1 cb2 cb3 cb4 st1 st2 st3 st4
    U1 R1 S1 U2 R2 S2 U3 R3 S3 U4 R4 S4,
  el_fvis nd K P pw true vA1 -> el_fvis nd K P pw false vB1 -> el_fvis nd K P pw true vA2 -> el_fvis nd K P pw false vB2 ->
  el_fvis nd K P pw true vA3 -> el_fvis nd K P pw false vB3 -> el_fvis nd K P pw true vA4 -> el_fvis nd K P pw false vB4 ->
  nt_ok n 1 cb1 -> nt_ok (n + 1) 1 cb2 -> nt_ok 1 1 cb3 -> nt_ok n 1 cb4 ->
  (forall t c, In c (el_allC nd) -> Forall (fun a => a = 0) (f1 t c) /\ Forall (fun a => a = 0) (f2 t c) /\
     Forall (fun a => a = 0) (f3 t c) /\ Forall (fun a => a = 0) (f4 t c)) ->
  elastic_forward nd K P pw dt md vA1 vB1 lg1 mg1 bg1 1 f1 n cb1 st1 u = Some (U1, R1, S1) ->
  elastic_forward nd K P pw dt md vA2 vB2 lg2 mg2 bg2 1 f2 (n + 1) cb2 st2 u = Some (U2, R2, S2) ->
  elastic_forward nd K P pw dt md vA3 vB3 lg3 mg3 bg3 1 f3 1 cb3 st3 u = Some (U3, R3, S3) ->
  (forall i j p, (i <= j < nd)%nat -> updated P (on_s i j) p -> mn x (Sg i j) p = mn U1 (Sg i j) p) ->
  (forall d p, (d < nd)%nat -> updated P (on_v d) p -> mn x (VL d) p = - mn U2 (VL d) p) ->
  elastic_forward nd K P pw dt md vA4 vB4 lg4 mg4 bg4 1 f4 n cb4 st4 x = Some (U4, R4, S4) ->
  (forall i j p, (i <= j < nd)%nat -> updated P (on_s i j) p -> mn U4 (Sg i j) p = mn u (Sg i j) p) /\
  (forall d p, (d < nd)%nat -> updated P (on_v d) p -> mn U4 (VL d) p = - mn U3 (VL d) p).
Proof.
  intros Hs Hr n u x f1 f2 f3 f4 vA1 vB1 vA2 vB2 vA3 vB3 vA4 vB4 lg1 mg1 bg1 lg2 mg2 bg2 lg3 mg3 bg3 lg4 mg4 bg4 cb1 cb2 cb3 cb4 st1 st2 st3 st4
    U1 R1 S1 U2 R2 S2 U3 R3 S3 U4 R4 S4 HA1 HB1 HA2 HB2 HA3 HB3 HA4 HB4 N1 N2 N3 N4 HZ E1 E2 E3 X1 X2 E4. el_oks.
  pose proof (stag_time_reversal (el_sys nd) (el_kern nd) K Kr P (el_num nd K dt md) (el_kc dt md) pw Sok Hk (el_num_ok nd K Kr dt md) Hg HN' Hs Hr
    n u x f1 f2 f3 f4 vA1 vB1 vA2 vB2 vA3 vB3 vA4 vB4 (el_fq lg1 mg1 bg1) (el_fq lg2 mg2 bg2) (el_fq lg3 mg3 bg3) (el_fq lg4 mg4 bg4) cb1 cb2 cb3 cb4 st1 st2 st3 st4
    U1 R1 S1 U2 R2 S2 U3 R3 S3 U4 R4 S4 HA1 HB1 HA2 HB2 HA3 HB3 HA4 HB4 N1 N2 N3 N4
    (fun t c H => proj1 (HZ t c H)) (fun t c H => proj1 (proj2 (HZ t c H))) (fun t c H => proj1 (proj2 (proj2 (HZ t c H)))) (fun t c H => proj2 (proj2 (proj2 (HZ t c H))))
    E1 E2 E3 E4) as Q.
  assert (X : forall v p, In v (el_allX nd) -> updated P (xh (el_sys nd) v) p ->
     mn x v p = if xA (el_sys nd) v then - mn U2 v p else mn U1 v p).
  { intros [d|i j] p Hv Hp; apply In_el_allX in Hv; [apply X2; [exact Hv|]; apply eupd_v, Hp|apply X1; [exact Hv|]; apply eupd_s, Hp]. }
  specialize (Q X). split.
  - intros i j p Hij Hp. exact (Q (Sg i j) p (proj2 (In_el_allX nd (Sg i j)) Hij) (proj1 (eupd_s i j p) Hp)).
  - intros d p Hd Hp. exact (Q (VL d) p (proj2 (In_el_allX nd (VL d)) Hd) (proj1 (eupd_v d p) Hp)).
Qed.
End El.

(** ** The statements of PropStagPhys *)
Lemma acoustic_reciprocity (nd : nat) (K : ops) (Kr : is_ring K) (P : spar (ac_sys nd) K) (pw : nat -> Z * Z) :
  length (sp_shape P) = nd -> sgeom (ac_sys nd) K P pw -> no_layers nd pw ->
  forall (dt : K) (kb : aM -> arr K) (s : Z -> K) c1 c2 l1 l2 nt sr vA1 vB1 vA2 vB2 kg1 bg1 kg2 bg2 cb1 cb2 st1 st2 U1 R1 S1 U2 R2 S2,
  In c1 (ac_allX nd) -> In c2 (ac_allX nd) -> (c1 = XP <-> c2 = XP) ->
  (0 <= l1)%Z -> sloc_ok (ac_sys nd) K P c1 l1 -> (0 <= l2)%Z -> sloc_ok (ac_sys nd) K P c2 l2 ->
  ac_fvis nd K P pw true vA1 -> ac_fvis nd K P pw false vB1 -> ac_fvis nd K P pw true vA2 -> ac_fvis nd K P pw false vB2 ->
  nt_ok nt sr cb1 -> nt_ok nt sr cb2 ->
  acoustic_forward nd K (with_lists P (ac_at c1 l1) (ac_at c2 l2)) pw dt kb vA1 vB1 kg1 bg1 sr
    (fun t => ac_prep dt kb (ac_at c1 l1) (ac_samp c1 s t)) nt cb1 st1 (rest (ac_sys nd) K) = Some (U1, R1, S1) ->
  acoustic_forward nd K (with_lists P (ac_at c2 l2) (ac_at c1 l1)) pw dt kb vA2 vB2 kg2 bg2 sr
    (fun t => ac_prep dt kb (ac_at c2 l2) (ac_samp c2 s t)) nt cb2 st2 (rest (ac_sys nd) K) = Some (U2, R2, S2) ->
  forall t, R1 t c2 = R2 t c1.
Proof.
  intros Hnd Hg HN dt kb s c1 c2 l1 l2 nt sr vA1 vB1 vA2 vB2 kg1 bg1 kg2 bg2 cb1 cb2 st1 st2 U1 R1 S1 U2 R2 S2 H1 H2 Hc L1 O1 L2 O2 HA1 HB1 HA2 HB2 N1 N2 E1 E2.
  apply (proj1 (acoustic_recip_gen nd K Kr P pw Hnd Hg HN dt kb c1 c2 l1 l2 s nt sr vA1 vB1 vA2 vB2 kg1 bg1 kg2 bg2 cb1 cb2 st1 st2 U1 R1 S1 U2 R2 S2 H1 H2 L1 O1 L2 O2 HA1 HB1 HA2 HB2 N1 N2 E1 E2)).
  destruct c1, c2; try reflexivity; destruct Hc as [Hc Hc']; [specialize (Hc eq_refl)|specialize (Hc' eq_refl)]; discriminate.
Qed.
Lemma acoustic_reciprocity_mixed (nd : nat) (K : ops) (Kr : is_ring K) (P : spar (ac_sys nd) K) (pw : nat -> Z * Z) :
  length (sp_shape P) = nd -> sgeom (ac_sys nd) K P pw -> no_layers nd pw ->
  forall (dt : K) (kb : aM -> arr K) (s : Z -> K) d l1 l2 nt sr vA1 vB1 vA2 vB2 kg1 bg1 kg2 bg2 cb1 cb2 st1 st2 U1 R1 S1 U2 R2 S2,
  (d < nd)%nat ->
  (0 <= l1)%Z -> sloc_ok (ac_sys nd) K P XP l1 -> (0 <= l2)%Z -> sloc_ok (ac_sys nd) K P (XV d) l2 ->
  ac_fvis nd K P pw true vA1 -> ac_fvis nd K P pw false vB1 -> ac_fvis nd K P pw true vA2 -> ac_fvis nd K P pw false vB2 ->
  nt_ok nt sr cb1 -> nt_ok nt sr cb2 ->
  acoustic_forward nd K (with_lists P (ac_at XP l1) (ac_at (XV d) l2)) pw dt kb vA1 vB1 kg1 bg1 sr
    (fun t => ac_prep dt kb (ac_at XP l1) (ac_samp XP s t)) nt cb1 st1 (rest (ac_sys nd) K) = Some (U1, R1, S1) ->
  acoustic_forward nd K (with_lists P (ac_at (XV d) l2) (ac_at XP l1)) pw dt kb vA2 vB2 kg2 bg2 sr
    (fun t => ac_prep dt kb (ac_at (XV d) l2) (ac_samp (XV d) s t)) nt cb2 st2 (rest (ac_sys nd) K) = Some (U2, R2, S2) ->
  forall t, (0 <= t)%Z -> (t + 1 < nsteps nt sr)%Z -> R1 (t + 1)%Z (XV d) = map (oopp K) (R2 t XP).
Proof.
  intros Hnd Hg HN dt kb s d l1 l2 nt sr vA1 vB1 vA2 vB2 kg1 bg1 kg2 bg2 cb1 cb2 st1 st2 U1 R1 S1 U2 R2 S2 Hd L1 O1 L2 O2 HA1 HB1 HA2 HB2 N1 N2 E1 E2.
  apply (proj2 (acoustic_recip_gen nd K Kr P pw Hnd Hg HN dt kb XP (XV d) l1 l2 s nt sr vA1 vB1 vA2 vB2 kg1 bg1 kg2 bg2 cb1 cb2 st1 st2 U1 R1 S1 U2 R2 S2
    (proj2 (In_ac_allX nd XP) I) (proj2 (In_ac_allX nd (XV d)) Hd) L1 O1 L2 O2 HA1 HB1 HA2 HB2 N1 N2 E1 E2)); reflexivity.
Qed.

Section ElFinal.
Variable nd : nat.
Variable K : ops.
Hypothesis Kr : is_ring K.
Add Ring KRing3 : Kr.
Variable P : spar (el_sys nd) K.
Variable pw : nat -> Z * Z.
Hypothesis Hnd : length (sp_shape P) = nd.
Hypothesis Hnd0 : (0 < nd)%nat.
Hypothesis Hg : sgeom (el_sys nd) K P pw.
Hypothesis HN : no_layers nd pw.
Variable dt : K.
Variable md : eM -> arr K.

Lemma elastic_force_reciprocity (s : Z -> K) i j l1 l2 nt sr vA1 vB1 vA2 vB2 lg1 mg1 bg1 lg2 mg2 bg2 cb1 cb2 st1 st2 U1 R1 S1 U2 R2 S2 :
  (i < nd)%nat -> (j < nd)%nat ->
  (0 <= l1)%Z -> sloc_ok (el_sys nd) K P (CV i) l1 -> (0 <= l2)%Z -> sloc_ok (el_sys nd) K P (CV j) l2 ->
  el_fvis nd K P pw true vA1 -> el_fvis nd K P pw false vB1 -> el_fvis nd K P pw true vA2 -> el_fvis nd K P pw false vB2 ->
  nt_ok nt sr cb1 -> nt_ok nt sr cb2 ->
  elastic_forward nd K (with_lists P (el_at (CV i) l1) (el_at (CV j) l2)) pw dt md vA1 vB1 lg1 mg1 bg1 sr
    (fun t => el_prep dt md (el_at (CV i) l1) (el_samp (CV i) s t)) nt cb1 st1 (rest (el_sys nd) K) = Some (U1, R1, S1) ->
  elastic_forward nd K (with_lists P (el_at (CV j) l2) (el_at (CV i) l1)) pw dt md vA2 vB2 lg2 mg2 bg2 sr
    (fun t => el_prep dt md (el_at (CV j) l2) (el_samp (CV j) s t)) nt cb2 st2 (rest (el_sys nd) K) = Some (U2, R2, S2) ->
  forall t, R1 t (CV j) = R2 t (CV i).
Proof.
  intros Hi Hj L1 O1 L2 O2 HA1 HB1 HA2 HB2 N1 N2 E1 E2 t.
  pose proof (proj1 (elastic_recip_gen nd K Kr P pw Hnd Hnd0 Hg HN dt md (CV i) (CV j) l1 l2 s nt sr vA1 vB1 vA2 vB2 lg1 mg1 bg1 lg2 mg2 bg2 cb1 cb2 st1 st2 U1 R1 S1 U2 R2 S2
    (proj2 (In_el_allC nd (CV i)) Hi) (proj2 (In_el_allC nd (CV j)) Hj) L1 O1 L2 O2 HA1 HB1 HA2 HB2 N1 N2 E1 E2) eq_refl t) as Q.
  cbn [el_be] in Q.
  assert (M1 : forall l : list K, map (omul K 1) l = l) by (intros l; rewrite <- (map_id l) at 2; apply map_ext; intros a; ring).
  rewrite !M1 in Q. exact Q.
Qed.
Lemma elastic_pressure_reciprocity (s : Z -> K) l1 l2 nt sr vA1 vB1 vA2 vB2 lg1 mg1 bg1 lg2 mg2 bg2 cb1 cb2 st1 st2 U1 R1 S1 U2 R2 S2 :
  (0 <= l1)%Z -> sloc_ok (el_sys nd) K P CP l1 -> (0 <= l2)%Z -> sloc_ok (el_sys nd) K P CP l2 ->
  el_fvis nd K P pw true vA1 -> el_fvis nd K P pw false vB1 -> el_fvis nd K P pw true vA2 -> el_fvis nd K P pw false vB2 ->
  nt_ok nt sr cb1 -> nt_ok nt sr cb2 ->
  elastic_forward nd K (with_lists P (el_at CP l1) (el_at CP l2)) pw dt md vA1 vB1 lg1 mg1 bg1 sr
    (fun t => el_prep dt md (el_at CP l1) (el_samp CP s t)) nt cb1 st1 (rest (el_sys nd) K) = Some (U1, R1, S1) ->
  elastic_forward nd K (with_lists P (el_at CP l2) (el_at CP l1)) pw dt md vA2 vB2 lg2 mg2 bg2 sr
    (fun t => el_prep dt md (el_at CP l2) (el_samp CP s t)) nt cb2 st2 (rest (el_sys nd) K) = Some (U2, R2, S2) ->
  forall t, map (omul K (el_kappa nd md l1)) (el_post nd R1 t CP) = map (omul K (el_kappa nd md l2)) (el_post nd R2 t CP).
Proof.
  intros L1 O1 L2 O2 HA1 HB1 HA2 HB2 N1 N2 E1 E2 t.
  pose proof (proj1 (elastic_recip_gen nd K Kr P pw Hnd Hnd0 Hg HN dt md CP CP l1 l2 s nt sr vA1 vB1 vA2 vB2 lg1 mg1 bg1 lg2 mg2 bg2 cb1 cb2 st1 st2 U1 R1 S1 U2 R2 S2
    (proj2 (In_el_allC nd CP) I) (proj2 (In_el_allC nd CP) I) L1 O1 L2 O2 HA1 HB1 HA2 HB2 N1 N2 E1 E2) eq_refl t) as Q.
  cbn [el_be] in Q. cbn [el_post].
  assert (M : forall k (l : list K), map (omul K k) (map (fun x => - x * oq K (1 # Pos.of_nat nd)) l) = map (fun x => x * oq K (1 # Pos.of_nat nd)) (map (omul K (- k)) l)).
  { intros k l. rewrite !map_map. apply map_ext. intros a. ring. }
  rewrite !M, Q. reflexivity.
Qed.
Lemma elastic_reciprocity_mixed (s : Z -> K) d l1 l2 nt sr vA1 vB1 vA2 vB2 lg1 mg1 bg1 lg2 mg2 bg2 cb1 cb2 st1 st2 U1 R1 S1 U2 R2 S2 :
  (d < nd)%nat ->
  (0 <= l1)%Z -> sloc_ok (el_sys nd) K P CP l1 -> (0 <= l2)%Z -> sloc_ok (el_sys nd) K P (CV d) l2 ->
  el_fvis nd K P pw true vA1 -> el_fvis nd K P pw false vB1 -> el_fvis nd K P pw true vA2 -> el_fvis nd K P pw false vB2 ->
  nt_ok nt sr cb1 -> nt_ok nt sr cb2 ->
  elastic_forward nd K (with_lists P (el_at CP l1) (el_at (CV d) l2)) pw dt md vA1 vB1 lg1 mg1 bg1 sr
    (fun t => el_prep dt md (el_at CP l1) (el_samp CP s t)) nt cb1 st1 (rest (el_sys nd) K) = Some (U1, R1, S1) ->
  elastic_forward nd K (with_lists P (el_at (CV d) l2) (el_at CP l1)) pw dt md vA2 vB2 lg2 mg2 bg2 sr
    (fun t => el_prep dt md (el_at (CV d) l2) (el_samp (CV d) s t)) nt cb2 st2 (rest (el_sys nd) K) = Some (U2, R2, S2) ->
  forall t, (0 <= t)%Z -> (t + 1 < nsteps nt sr)%Z -> map (omul K (el_kappa nd md l1)) (R1 (t + 1)%Z (CV d)) = R2 t CP.
Proof.
  intros Hd L1 O1 L2 O2 HA1 HB1 HA2 HB2 N1 N2 E1 E2 t T0 T1.
  pose proof (proj2 (elastic_recip_gen nd K Kr P pw Hnd Hnd0 Hg HN dt md CP (CV d) l1 l2 s nt sr vA1 vB1 vA2 vB2 lg1 mg1 bg1 lg2 mg2 bg2 cb1 cb2 st1 st2 U1 R1 S1 U2 R2 S2
    (proj2 (In_el_allC nd CP) I) (proj2 (In_el_allC nd (CV d)) Hd) L1 O1 L2 O2 HA1 HB1 HA2 HB2 N1 N2 E1 E2) eq_refl eq_refl t T0 T1) as Q.
  cbn [el_be] in Q. apply (f_equal (map (oopp K))) in Q. rewrite !map_map in Q.
  transitivity (map (fun x => - (- el_kappa nd md l1 * x)) (R1 (t + 1)%Z (CV d))); [apply map_ext; intros a; ring|].
  rewrite Q. rewrite <- (map_id (R2 t CP)) at 2. apply map_ext. intros a. ring.
Qed.
End ElFinal.
