(** * Python backend of the elastic propagator and its agreement with the compiled one. *)
From Coq Require Import List ZArith QArith Lia Bool Permutation.
From Verif Require Import Ops Sums Grid Stencil DualNum ScalarModel ScalarRefine ScalarForward ScalarAdjoint ScalarApi
  Stag StagAdj StagKernel StagCell StagRefine StagGrad StagPy AcousticThm ElasticModel ElasticThm.
Import ListNotations.
Local Open Scope K_scope.

Section Model.
Variable nd : nat.
Variable K : ops.
Variable P : spar (el_sys nd) K.
Variable dt : K.
Variable md : eM -> arr K.
Notation S := (el_sys nd).
Notation mdl k p := (md k (idx (sp_shape P) p)).

(** [update_velocities] (elastic.py:1952-2034): derivatives of normal stresses, then for every pair of dimensions those
    of the shear stress, each corrected with its memory variable and added to [sigma_sum] of the velocity. *)
Definition epy_dS (s : sst S K) (i j : nat) : field K :=
  if Nat.eqb i j then py_sdiff S K P true i (mn s (Sg i i))
  else py_sdiff S K P false j (mn s (sg i j)).
Definition epy_mS (s : sst S K) (i j : nat) : field K := fun p =>
  if Nat.eqb i j then sp_a P true i (coord i p) * me s (DS i i) p + sp_b P true i (coord i p) * epy_dS s i i p
  else sp_a P false j (coord j p) * me s (DS i j) p + sp_b P false j (coord j p) * epy_dS s i j p.
Definition epy_sum (s : sst S K) (p : pt) : nat -> K :=
  fold_left (fun sigma_sum q =>
      let '(d1, d2) := q in
      let s1 := fun d => if Nat.eqb d d1 then sigma_sum d + (epy_dS s d1 d2 p + epy_mS s d1 d2 p) else sigma_sum d in
      fun d => if Nat.eqb d d2 then s1 d + (epy_dS s d2 d1 p + epy_mS s d2 d1 p) else s1 d)
    (pairs nd) (fun d => epy_dS s d d p + epy_mS s d d p).
Definition epy_vel (s : sst S K) : sst S K :=
  @mksst S K
    (fun x p => match x with VL d => mn s (VL d) p + mdl (EB d) p * dt * epy_sum s p d | Sg _ _ => mn s x p end)
    (fun e => match e with DS i j => epy_mS s i j | DV _ _ => me s e end).

(** [update_stresses] (elastic.py:2037-2139). *)
Definition epy_dV (s : sst S K) (i j : nat) : field K :=
  if Nat.eqb i j then py_sdiff S K P false i (mn s (VL i)) else py_sdiff S K P true j (mn s (VL i)).
Definition epy_mV (s : sst S K) (i j : nat) : field K := fun p =>
  if Nat.eqb i j then sp_a P false i (coord i p) * me s (DV i i) p + sp_b P false i (coord i p) * epy_dV s i i p
  else sp_a P true j (coord j p) * me s (DV i j) p + sp_b P true j (coord j p) * epy_dV s i j p.
Definition epy_str (s : sst S K) : sst S K :=
  let dv i j p := epy_dV s i j p + epy_mV s i j p in
  @mksst S K
    (fun x p => match x with
      | VL d => mn s (VL d) p
      | Sg i j => if Nat.eqb i j
                  then mn s (Sg i i) p + dt * (mdl ML p * sumf (seq 0 nd) (fun k => dv k k p) + two * mdl MMU p * dv i i p)
                  else mn s (Sg i j) p + dt * mdl (MS i j) p * (dv i j p + dv j i p)
      end)
    (fun e => match e with DS _ _ => me s e | DV i j => epy_mV s i j end).

(** [elastic_python] (elastic.py:2142-2731). *)
Definition elastic_python (pw : nat -> Z * Z) (sr : Z) (f : krec S K) (nt : Z) (u : sst S K) : sst S K * krec S K :=
  sp_python S K P pw false epy_vel epy_str sr f nt u.
End Model.

Section Thm.
Variable nd : nat.
Variable K : ops.
Hypothesis Kr : is_ring K.
Add Ring KRing : Kr.
Variable P : spar (el_sys nd) K.
Variable pw : nat -> Z * Z.
Variable dt : K.
Variable md : eM -> arr K.
Notation S := (el_sys nd).
Notation cc := (ccoe S K P (el_kc dt md)).

Lemma sumf_flat_map {A B} (f : A -> list B) l (g : B -> K) : sumf (flat_map f l) g = sumf l (fun a => sumf (f a) g).
Proof. induction l as [|a l IH]; cbn; [reflexivity|]. rewrite (sumf_app K Kr), IH. reflexivity. Qed.

(** Sum over the pairs containing [d]. *)
Lemma pairs_sum d (F : nat -> K) : (d < nd)%nat ->
  F d + sumf (pairs nd) (fun q => (if Nat.eqb d (fst q) then F (snd q) else 0) + (if Nat.eqb d (snd q) then F (fst q) else 0))
  = sumf (seq 0 nd) F.
Proof.
  intros Hd. set (L := d :: flat_map (fun q => (if Nat.eqb d (fst q) then [snd q] else []) ++ (if Nat.eqb d (snd q) then [fst q] else [])) (pairs nd)).
  transitivity (sumf L F).
  - unfold L. cbn [sumf]. rewrite sumf_flat_map. f_equal. apply (sumf_ext K). intros [i j] _. rewrite (sumf_app K Kr). cbn [fst snd].
    destruct (Nat.eqb d i), (Nat.eqb d j); cbn [sumf]; ring.
  - apply (sumf_perm K Kr). apply NoDup_Permutation; [|apply seq_NoDup|].
    + assert (H : forall i j x, In (i, j) (pairs nd) ->
        In x ((if Nat.eqb d i then [j] else []) ++ (if Nat.eqb d j then [i] else [])) ->
        (i = Nat.min d x /\ j = Nat.max d x /\ d <> x)%nat).
      { intros i j x Hq Hx. apply In_pairs in Hq. destruct (Nat.eqb_spec d i), (Nat.eqb_spec d j); cbn in Hx;
          repeat (destruct Hx as [Hx|Hx]); try contradiction; lia. }
      constructor.
      * intros Hx. apply in_flat_map in Hx. destruct Hx as ([i j] & Hq & Hx). specialize (H i j d Hq Hx). lia.
      * apply NoDup_flat_map_i; [apply NoDup_pairs| |].
        -- intros [i j] Hq. apply In_pairs in Hq. cbn [fst snd]. destruct (Nat.eqb_spec d i), (Nat.eqb_spec d j); cbn; try lia;
             repeat constructor; intros [].
        -- intros [i j] [k l] x Hq Hq' Hx Hx'. pose proof (H i j x Hq Hx). pose proof (H k l x Hq' Hx'). f_equal; lia.
    + intros x. split.
      * intros [<-|Hx]; [apply in_seq; lia|]. apply in_flat_map in Hx. destruct Hx as ([i j] & Hq & Hx). apply In_pairs in Hq. apply in_seq.
        cbn [fst snd] in Hx. destruct (Nat.eqb_spec d i), (Nat.eqb_spec d j); cbn in Hx;
          repeat (destruct Hx as [Hx|Hx]); try contradiction; lia.
      * intros Hx. apply in_seq in Hx. destruct (Nat.eq_dec d x) as [->|Ne]; [left; reflexivity|right]. apply in_flat_map.
        exists (Nat.min d x, Nat.max d x). split; [apply In_pairs; lia|]. cbn [fst snd].
        destruct (Nat.eqb_spec d (Nat.min d x)), (Nat.eqb_spec d (Nat.max d x)); cbn; lia.
Qed.

Lemma epy_sum_eq s p d : (d < nd)%nat ->
  epy_sum nd K P s p d = sumf (seq 0 nd) (fun j => epy_dS nd K P s d j p + epy_mS nd K P s d j p).
Proof.
  intros Hd. rewrite <- (pairs_sum d) by exact Hd. unfold epy_sum.
  match goal with |- context [fold_left ?G (pairs nd) ?z] => set (G0 := G); set (z0 := z) end.
  assert (E : forall l z, fold_left G0 l z d = z d + sumf l (fun q =>
     (if Nat.eqb d (fst q) then epy_dS nd K P s d (snd q) p + epy_mS nd K P s d (snd q) p else 0)
     + (if Nat.eqb d (snd q) then epy_dS nd K P s d (fst q) p + epy_mS nd K P s d (fst q) p else 0))).
  { induction l as [|[i j] l IH]; intros z; cbn [fold_left sumf fst snd]; [ring|]. rewrite IH. unfold G0.
    destruct (Nat.eqb_spec d i) as [<-|]; destruct (Nat.eqb_spec d j) as [<-|]; try rewrite Nat.eqb_refl; try ring. }
  rewrite E. reflexivity.
Qed.

Lemma epy_vel_ok : upd_ok S K P cc true (epy_vel nd K P dt md).
Proof.
  intros s. split.
  - intros x p Hx _. apply In_el_allX in Hx. destruct x as [d|i j]; cbn [xA el_sys el_xA Bool.eqb]; [|reflexivity].
    rewrite (incE_V nd K Kr) by exact Hx. cbn [epy_vel mn]. rewrite epy_sum_eq by exact Hx. f_equal.
    rewrite <- (sumf_scal K Kr). apply (sumf_ext K). intros j _. unfold ccoe. cbn [el_kc me epy_vel el_sys esrc edim eh el_esrc el_edim el_eh].
    f_equal. f_equal. unfold epy_dS. destruct (Nat.eqb_spec d j) as [<-|Ne].
    + rewrite Nat.eqb_refl. unfold sg. rewrite Nat.min_id, Nat.max_id. reflexivity.
    + destruct (Nat.eqb_spec j d); [congruence|]. reflexivity.
  - intros e p He _. apply In_el_allE in He. destruct e as [i j|i j]; cbn [eA el_sys el_eA Bool.eqb]; [|reflexivity].
    unfold eb, ea. cbn [epy_vel me el_sys esrc edim eh el_esrc el_edim el_eh]. unfold epy_mS, epy_dS.
    destruct (Nat.eqb_spec i j) as [<-|Ne].
    + rewrite Nat.eqb_refl. unfold sg. rewrite Nat.min_id, Nat.max_id. ring.
    + destruct (Nat.eqb_spec j i); [congruence|]. ring.
Qed.

Lemma epy_mV_eq s i j p : epy_mV nd K P s i j p = eb S K P (DV i j) p * epy_dV nd K P s i j p + ea S K P (DV i j) p * me s (DV i j) p.
Proof.
  unfold eb, ea, epy_mV. cbn [el_sys edim eh el_edim el_eh]. destruct (Nat.eqb_spec i j) as [<-|Ne]; cbn [negb andb]; [ring|].
  destruct (Nat.eqb_spec j i); [congruence|]. rewrite Nat.eqb_refl. cbn [orb]. ring.
Qed.
Lemma epy_dV_eq s i j p : epy_dV nd K P s i j p = py_sdiff S K P (eh S (DV i j) (edim S (DV i j))) (edim S (DV i j)) (mn s (esrc S (DV i j))) p.
Proof.
  unfold epy_dV. cbn [el_sys esrc edim eh el_esrc el_edim el_eh]. destruct (Nat.eqb_spec i j) as [<-|Ne]; cbn [negb andb]; [reflexivity|].
  destruct (Nat.eqb_spec j i); [congruence|]. rewrite Nat.eqb_refl. reflexivity.
Qed.

Lemma epy_str_ok : upd_ok S K P cc false (epy_str nd K P dt md).
Proof.
  intros s. split.
  - intros x p Hx _. apply In_el_allX in Hx. destruct x as [d|i j]; cbn [xA el_sys el_xA Bool.eqb]; [reflexivity|].
    cbn [epy_str mn]. destruct (Nat.eqb_spec i j) as [<-|Ne].
    + rewrite (incE_N nd K Kr). unfold ccoe. cbn [el_kc epy_str me]. rewrite Nat.eqb_refl.
      set (dv := fun k => epy_dV nd K P s k k p + epy_mV nd K P s k k p).
      set (L := md ML (idx (sp_shape P) p)). set (M := md MMU (idx (sp_shape P) p)).
      rewrite (sumf_ext K (seq 0 nd) (fun l => dt * _ * _) (fun l => dt * L * dv l + (if Nat.eqb l i then dt * two * M * dv l else 0))).
      * rewrite (sumf_add K Kr), (sumf_scal K Kr), (sumf_single K Kr (seq 0 nd) i (fun l => if Nat.eqb l i then _ else 0)).
        -- rewrite Nat.eqb_refl. fold (dv i). ring.
        -- apply seq_NoDup.
        -- apply in_seq. lia.
        -- intros l _ Hl. destruct (Nat.eqb_spec l i); [contradiction|reflexivity].
      * intros l _. unfold dv. rewrite epy_dV_eq. destruct (Nat.eqb l i); ring.
    + rewrite (incE_S nd K Kr) by lia. unfold ccoe. cbn [el_kc epy_str me]. destruct (Nat.eqb_spec i j); [congruence|].
      rewrite <- !epy_dV_eq. ring.
  - intros e p He _. destruct e as [i j|i j]; cbn [eA el_sys el_eA Bool.eqb]; [reflexivity|].
    cbn [epy_str me]. rewrite epy_mV_eq, epy_dV_eq. reflexivity.
Qed.

Lemma elastic_backends_agree :
  length (sp_shape P) = nd -> (0 < nd)%nat -> locs_ok S K P (sp_src P) -> locs_ok S K P (sp_rec P) ->
  ign_ok S (sp_src P) -> ign_ok S (sp_rec P) -> sgeom S K P pw ->
  forall f u nt sr visA visB lg mg bg cb store,
  el_fvis nd K P pw true visA -> el_fvis nd K P pw false visB -> nt_ok nt sr cb ->
  exists U R st U' R',
  elastic_forward nd K P pw dt md visA visB lg mg bg sr f nt cb store u = Some (U, R, st) /\
  elastic_python nd K P dt md pw sr f nt u = (U', R') /\
  sseq S K U U' /\ forall t c, In c (el_allC nd) -> R t c = R' t c.
Proof.
  intros Hnd Hpos Hsrc Hrec Is Ir Hgeo f u nt sr visA visB lg mg bg cb store VA VB Hnt.
  assert (Sok : sys_ok S (length (sp_shape P))) by (rewrite Hnd; apply el_sys_ok).
  assert (Hk : kern_ok S (el_kern nd) (length (sp_shape P))) by (rewrite Hnd; apply el_kern_ok, Hpos).
  destruct (k_fwd_spec S (el_kern nd) K Kr P (el_num nd K dt md) (el_kc dt md) pw Sok Hk (el_num_ok nd K Kr dt md) Hsrc Hrec Hgeo
     visA visB (el_fq lg mg bg) sr f nt cb store u VA VB Hnt) as (u' & r' & st' & E' & A1 & A2 & _).
  pose proof Hnt as (Hs & Hn & _).
  assert (Hm : false = true \/ (0 < length (sp_shape P))%nat) by (right; rewrite Hnd; exact Hpos).
  pose proof (sp_python_spec S K Kr P pw Sok Hsrc Hrec Is Ir Hgeo false Hm (el_kc dt md) _ _ epy_vel_ok epy_str_ok sr f nt u Hs Hn) as B.
  unfold elastic_python. destruct (sp_python S K P pw false _ _ sr f nt u) as [U' R'].
  destruct B as [[BX BE] B2], A1 as [AX AE]. exists u', r', st', U', R'. split; [exact E'|]. split; [reflexivity|]. split; [split|].
  - intros x p Hx. rewrite AX, BX by exact Hx. reflexivity.
  - intros e p He. rewrite AE, BE by exact He. reflexivity.
  - intros t c Hc. rewrite A2, B2 by exact Hc. reflexivity.
Qed.
End Thm.
