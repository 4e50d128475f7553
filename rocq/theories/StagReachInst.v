(** * Finite propagation speed of the acoustic and elastic propagators (proofs). *)
From Coq Require Import List ZArith QArith Ring Ring_theory Lia Bool Permutation.
From Verif Require Import Ops Sums Grid Stencil DualNum ScalarModel ScalarRefine ScalarForward ScalarAdjoint ScalarReach Loop
  Stag StagAdj StagKernel StagCell StagRefine StagGrad AcousticModel AcousticThm ElasticModel ElasticThm StagEqs StagRun StagRunInst StagPhysRun StagReach.
Import ListNotations.
Local Open Scope K_scope.

(** The models used where variable [x] is updated, and the dimensions whose PML profiles are. *)
Definition ac_dims (nd : nat) (x : aX) : list nat := match x with XP => seq 0 nd | XV d => [d] end.
Definition el_mods (x : eX) : list eM := match x with VL d => [EB d] | Sg i j => if Nat.eqb i j then [ML; MMU] else [MS i j] end.
Definition el_dims (nd : nat) (x : eX) : list nat :=
  match x with VL _ => seq 0 nd | Sg i j => if Nat.eqb i j then seq 0 nd else [i; j] end.
(** Where the sources and receivers of a kind are. *)
Definition el_ch (c : eC) : nat -> bool := match c with CV d => el_xh (VL d) | CP => fun _ => false end.
(** The two problems update the same points and use the same profiles there. *)
Definition same_place {S : sys} {K : ops} (P1 P2 : spar S K) (o : pt) (h : nat -> bool) (ds : list nat) (q : pt) : Prop :=
  (updated P1 h q <-> updated P2 h (translate o q)) /\
  (updated P1 h q -> forall d, In d ds ->
     sp_a P1 (h d) d (coord d q) = sp_a P2 (h d) d (coord d (translate o q)) /\
     sp_b P1 (h d) d (coord d q) = sp_b P2 (h d) d (coord d (translate o q))).

Lemma on_way_ext shape w h1 h1' l1 h h' q h2 h2' l2 : (forall d, (d < length shape)%nat -> h1 d = h1' d) ->
  (forall d, (d < length shape)%nat -> h d = h' d) -> (forall d, (d < length shape)%nat -> h2 d = h2' d) ->
  on_way shape w h1 l1 h q h2 l2 -> on_way shape w h1' l1 h' q h2' l2.
Proof.
  intros E1 E E2 [Hl Hd]. split; [exact Hl|].
  rewrite <- (pos_ext h1 h1'), <- (pos_ext h h'), <- (pos_ext h2 h2'); [exact Hd| | |]; rewrite ?unidx_length, ?Hl; assumption.
Qed.
Lemma same_place_dom {S K} (P1 P2 : spar S K) o h ds q : same_place P1 P2 o h ds q -> dom S K P1 h q = dom S K P2 h (translate o q).
Proof. intros [H _]. rewrite !updated_dom in H. apply eq_true_iff_eq. exact H. Qed.
Lemma same_place_e {S K} (P1 P2 : spar S K) o h ds q e : length (sp_shape P2) = length (sp_shape P1) ->
  same_place P1 P2 o h ds q -> (forall d, (d < length (sp_shape P1))%nat -> eh S e d = h d) -> In (edim S e) ds ->
  (edim S e < length (sp_shape P1))%nat -> agree_e S K P1 P2 o e q.
Proof.
  intros Hnd [H H'] Hh Hd Hd'. split.
  - rewrite (dom_ext S K P1 (eh S e) h), (dom_ext S K P2 (eh S e) h) by (rewrite ?Hnd; exact Hh). eapply same_place_dom. split; eassumption.
  - rewrite (dom_ext S K P1 (eh S e) h) by exact Hh. intros Hu. apply updated_dom in Hu. unfold ea, eb. rewrite Hh by exact Hd'. apply H'; assumption.
Qed.

Lemma acoustic_finite_speed (nd : nat) (K : ops) (Kr : is_ring K) (P1 P2 : spar (ac_sys nd) K) (pw1 pw2 : nat -> Z * Z) (o : pt) :
  length (sp_shape P1) = nd -> length (sp_shape P2) = nd -> length o = nd ->
  sgeom (ac_sys nd) K P1 pw1 -> sgeom (ac_sys nd) K P2 pw2 ->
  locs_ok (ac_sys nd) K P1 (sp_src P1) -> locs_ok (ac_sys nd) K P1 (sp_rec P1) ->
  locs_ok (ac_sys nd) K P2 (sp_src P2) -> locs_ok (ac_sys nd) K P2 (sp_rec P2) ->
  sp_acc P2 = sp_acc P1 -> (forall d, sp_rd P2 d = sp_rd P1 d) ->
  (forall c, In c (ac_allX nd) -> Forall2 (same_loc (sp_shape P1) (sp_shape P2) o) (sp_src P1 c) (sp_src P2 c)) ->
  (forall c, In c (ac_allX nd) -> Forall2 (same_loc (sp_shape P1) (sp_shape P2) o) (sp_rec P1 c) (sp_rec P2 c)) ->
  forall (dt : K) (kb1 kb2 : aM -> arr K) f nt sr vA1 vB1 vA2 vB2 kg1 bg1 kg2 bg2 cb1 cb2 st1 st2 U1 R1 S1 U2 R2 S2,
  ac_fvis nd K P1 pw1 true vA1 -> ac_fvis nd K P1 pw1 false vB1 -> ac_fvis nd K P2 pw2 true vA2 -> ac_fvis nd K P2 pw2 false vB2 ->
  nt_ok nt sr cb1 -> nt_ok nt sr cb2 ->
  acoustic_forward nd K P1 pw1 dt kb1 vA1 vB1 kg1 bg1 sr f nt cb1 st1 (rest (ac_sys nd) K) = Some (U1, R1, S1) ->
  acoustic_forward nd K P2 pw2 dt kb2 vA2 vB2 kg2 bg2 sr f nt cb2 st2 (rest (ac_sys nd) K) = Some (U2, R2, S2) ->
  forall t c j, In c (ac_allX nd) ->
  (forall cs l x q, In cs (ac_allX nd) -> In l (sp_src P1 cs) -> (0 <= l)%Z -> In x (ac_allX nd) ->
     on_way (sp_shape P1) (way_steps (ac_xA cs) (ac_xA c) t * (2 * fd_pad (sp_acc P1) - 1)) (ac_xh cs) l (ac_xh x) q (ac_xh c) (nth j (sp_rec P1 c) 0%Z) ->
     same_place P1 P2 o (ac_xh x) (ac_dims nd x) q /\
     (updated P1 (ac_xh x) q -> kb1 (ac_model x) (idx (sp_shape P1) q) = kb2 (ac_model x) (idx (sp_shape P2) (translate o q)))) ->
  nth j (R1 t c) 0 = nth j (R2 t c) 0.
Proof.
  intros Hnd Hnd2 Ho Hg1 Hg2 Hs1 Hr1 Hs2 Hr2 Hacc Hrd Hsrc Hrec dt kb1 kb2 f nt sr vA1 vB1 vA2 vB2 kg1 bg1 kg2 bg2 cb1 cb2 st1 st2 U1 R1 S1 U2 R2 S2
    VA1 VB1 VA2 VB2 N1 N2 E1 E2 t c j Hc H.
  ac_oks. assert (L2 : length (sp_shape P2) = length (sp_shape P1)) by congruence. rewrite L2 in Sok, Hk.
  assert (Cin : forall c x, cin (ac_sys nd) c x = true -> x = c).
  { intros a b Hab. cbn in Hab. destruct (aX_dec a b); [congruence|discriminate]. }
  apply (stag_finite_speed (ac_sys nd) (ac_kern nd) K Kr P1 P2 (ac_num nd K dt kb1) (ac_num nd K dt kb2) (ac_kc dt kb1) (ac_kc dt kb2) pw1 pw2 o
    (eq_trans Ho (eq_sym Hnd)) (eq_trans Hnd2 (eq_sym Hnd)) Hacc Hrd Sok Hk (ac_num_ok nd K Kr dt kb1) (ac_num_ok nd K Kr dt kb2) Hg1 Hg2 Hs1 Hr1 Hs2 Hr2 Hsrc Hrec
    f nt sr vA1 vB1 vA2 vB2 (ac_flag kg1 bg1) (ac_flag kg2 bg2) cb1 cb2 st1 st2 U1 R1 S1 U2 R2 S2); try assumption.
  - intros z ch y l x q Hz Hcz Hch Hy Hcy Hin H0 Hx Hw. apply Cin in Hcz, Hcy. subst z y.
    destruct (H ch l x q Hch Hin H0 Hx Hw) as [G1 G2]. split; [eapply same_place_dom; exact G1|].
    intros Hu e He. apply updated_dom in Hu. specialize (G2 Hu). unfold ccoe, ac_kc. destruct x, e; try reflexivity; cbn in G2; rewrite G2; reflexivity.
  - intros z ch y l e q Hz Hcz Hch Hy Hcy Hin H0 He Hw. apply Cin in Hcz, Hcy. subst z y.
    assert (He' : exists x, In x (ac_allX nd) /\ (forall d, ac_eh e d = ac_xh x d) /\ In (ac_edim e) (ac_dims nd x) /\ (ac_edim e < nd)%nat).
    { cbn in He. apply in_app_or in He. destruct He as [He|He]; apply in_map_iff in He; destruct He as (d & <- & Hd); apply in_seq in Hd.
      - exists (XV d). split; [apply In_ac_allX; lia|]. split; [reflexivity|]. split; [left; reflexivity|cbn; lia].
      - exists XP. split; [left; reflexivity|]. split; [reflexivity|]. split; [apply in_seq; cbn; lia|cbn; lia]. }
    destruct He' as (x & Hx & Hh & Hd & Hlt).
    destruct (H ch l x q Hch Hin H0 Hx) as [G1 G2].
    { eapply on_way_ext; [| | |exact Hw]; intros; try reflexivity. apply Hh. }
    apply (same_place_e P1 P2 o (ac_xh x) (ac_dims nd x) q e); [congruence|exact G1|intros d _; apply Hh|exact Hd|rewrite Hnd; exact Hlt].
Qed.

Lemma elastic_finite_speed (nd : nat) (K : ops) (Kr : is_ring K) (P1 P2 : spar (el_sys nd) K) (pw1 pw2 : nat -> Z * Z) (o : pt) :
  length (sp_shape P1) = nd -> length (sp_shape P2) = nd -> length o = nd -> (0 < nd)%nat ->
  sgeom (el_sys nd) K P1 pw1 -> sgeom (el_sys nd) K P2 pw2 ->
  locs_ok (el_sys nd) K P1 (sp_src P1) -> locs_ok (el_sys nd) K P1 (sp_rec P1) ->
  locs_ok (el_sys nd) K P2 (sp_src P2) -> locs_ok (el_sys nd) K P2 (sp_rec P2) ->
  sp_acc P2 = sp_acc P1 -> (forall d, sp_rd P2 d = sp_rd P1 d) ->
  (forall c, In c (el_allC nd) -> Forall2 (same_loc (sp_shape P1) (sp_shape P2) o) (sp_src P1 c) (sp_src P2 c)) ->
  (forall c, In c (el_allC nd) -> Forall2 (same_loc (sp_shape P1) (sp_shape P2) o) (sp_rec P1 c) (sp_rec P2 c)) ->
  forall (dt : K) (md1 md2 : eM -> arr K) f nt sr vA1 vB1 vA2 vB2 lg1 mg1 bg1 lg2 mg2 bg2 cb1 cb2 st1 st2 U1 R1 S1 U2 R2 S2,
  el_fvis nd K P1 pw1 true vA1 -> el_fvis nd K P1 pw1 false vB1 -> el_fvis nd K P2 pw2 true vA2 -> el_fvis nd K P2 pw2 false vB2 ->
  nt_ok nt sr cb1 -> nt_ok nt sr cb2 ->
  elastic_forward nd K P1 pw1 dt md1 vA1 vB1 lg1 mg1 bg1 sr f nt cb1 st1 (rest (el_sys nd) K) = Some (U1, R1, S1) ->
  elastic_forward nd K P2 pw2 dt md2 vA2 vB2 lg2 mg2 bg2 sr f nt cb2 st2 (rest (el_sys nd) K) = Some (U2, R2, S2) ->
  forall t c j, In c (el_allC nd) ->
  (forall cs l x q, In cs (el_allC nd) -> In l (sp_src P1 cs) -> (0 <= l)%Z -> In x (el_allX nd) ->
     on_way (sp_shape P1) (way_steps (el_cA cs) (el_cA c) t * (2 * fd_pad (sp_acc P1) - 1)) (el_ch cs) l (el_xh x) q (el_ch c) (nth j (sp_rec P1 c) 0%Z) ->
     same_place P1 P2 o (el_xh x) (el_dims nd x) q /\
     (updated P1 (el_xh x) q -> forall k, In k (el_mods x) -> md1 k (idx (sp_shape P1) q) = md2 k (idx (sp_shape P2) (translate o q)))) ->
  nth j (R1 t c) 0 = nth j (R2 t c) 0.
Proof.
  intros Hnd Hnd2 Ho Hnd0 Hg1 Hg2 Hs1 Hr1 Hs2 Hr2 Hacc Hrd Hsrc Hrec dt md1 md2 f nt sr vA1 vB1 vA2 vB2 lg1 mg1 bg1 lg2 mg2 bg2 cb1 cb2 st1 st2 U1 R1 S1 U2 R2 S2
    VA1 VB1 VA2 VB2 N1 N2 E1 E2 t c j Hc H.
  el_oks. assert (L2 : length (sp_shape P2) = length (sp_shape P1)) by congruence. rewrite L2 in Sok, Hk.
  assert (Cin : forall c x, el_cin c x = true -> forall d, el_xh x d = el_ch c d).
  { intros [a|] [b|i k] Hab d; cbn in Hab; try discriminate; apply Nat.eqb_eq in Hab; subst; [reflexivity|]. cbn. rewrite Nat.eqb_refl. reflexivity. }
  apply (stag_finite_speed (el_sys nd) (el_kern nd) K Kr P1 P2 (el_num nd K dt md1) (el_num nd K dt md2) (el_kc dt md1) (el_kc dt md2) pw1 pw2 o
    (eq_trans Ho (eq_sym Hnd)) (eq_trans Hnd2 (eq_sym Hnd)) Hacc Hrd Sok Hk (el_num_ok nd K Kr dt md1) (el_num_ok nd K Kr dt md2) Hg1 Hg2 Hs1 Hr1 Hs2 Hr2 Hsrc Hrec
    f nt sr vA1 vB1 vA2 vB2 (el_fq lg1 mg1 bg1) (el_fq lg2 mg2 bg2) cb1 cb2 st1 st2 U1 R1 S1 U2 R2 S2); try assumption.
  - intros z ch y l x q Hz Hcz Hch Hy Hcy Hin H0 Hx Hw.
    destruct (H ch l x q Hch Hin H0 Hx) as [G1 G2].
    { eapply on_way_ext; [| | |exact Hw]; intros; try reflexivity; cbn; apply Cin; assumption. }
    split; [eapply same_place_dom; exact G1|].
    intros Hu e He. apply updated_dom in Hu. specialize (G2 Hu). unfold ccoe, el_kc. destruct x as [d|i k], e as [a b|a b]; try reflexivity.
    + rewrite (G2 (EB d)) by (left; reflexivity). reflexivity.
    + cbn in G2. destruct (Nat.eqb i k); [|rewrite (G2 (MS i k)) by (left; reflexivity); reflexivity].
      rewrite (G2 ML), (G2 MMU) by (cbn; auto). reflexivity.
  - intros z ch y l e q Hz Hcz Hch Hy Hcy Hin H0 He Hw.
    assert (He' : exists x, In x (el_allX nd) /\ (forall d, el_eh e d = el_xh x d) /\ In (el_edim e) (el_dims nd x) /\ (el_edim e < nd)%nat).
    { apply In_el_allE in He. destruct e as [a b|a b]; destruct He as [Ha Hb].
      - exists (VL a). split; [apply In_el_allX; lia|]. split; [reflexivity|]. split; [apply in_seq; cbn; lia|cbn; lia].
      - exists (sg a b). split; [apply In_el_allX; unfold sg; lia|]. unfold sg. split; [|split; [|cbn; lia]].
        + intros d. cbn. destruct (Nat.le_ge_cases a b) as [L|L].
          * rewrite Nat.min_l, Nat.max_r by lia. reflexivity.
          * rewrite Nat.min_r, Nat.max_l by lia. rewrite (Nat.eqb_sym a b), (orb_comm (Nat.eqb d a)). reflexivity.
        + cbn [el_dims el_edim]. destruct (Nat.eqb_spec (Nat.min a b) (Nat.max a b)); [apply in_seq; lia|].
          destruct (Nat.le_ge_cases a b) as [L|L]; [rewrite Nat.max_r by lia; right; left; reflexivity|rewrite Nat.min_r by lia; left; reflexivity]. }
    destruct He' as (x & Hx & Hh & Hd & Hlt).
    destruct (H ch l x q Hch Hin H0 Hx) as [G1 G2].
    { eapply on_way_ext; [| | |exact Hw]; intros; try (cbn; apply Cin; assumption). apply Hh. }
    apply (same_place_e P1 P2 o (el_xh x) (el_dims nd x) q e); [congruence|exact G1|intros d _; apply Hh|exact Hd|rewrite Hnd; exact Hlt].
Qed.
