(** * The zone where the PML has no effect, in the coordinates of the user's wavefields. *)
From Coq Require Import List ZArith QArith Lia Bool.
From Verif Require Import Ops Sums Grid Stencil ScalarModel ScalarRefine ScalarForward ScalarFunc ScalarMore PyBackend.
Import ListNotations.
Local Open Scope K_scope.

Section User.
Variable K : ops.
Hypothesis Kr : is_ring K.
Variable P : par K.
Variable pw : nat -> Z * Z.

Lemma zone_user q d : In q (upts K P) -> (d < length (p_shape P))%nat ->
  zone K P pw d (topad K P q) = ((fst (pw d) <=? nth d q 0) && (nth d q 0 <? nth d (p_shape P) 0 - 2 * fd_pad (p_acc P) - snd (pw d)))%Z.
Proof.
  intros Hq Hd. apply In_box_pts, inb_length in Hq. unfold ubox in Hq. rewrite map_length in Hq.
  unfold zone. rewrite coord_topad by lia. unfold coord. set (x := nth d q 0%Z). set (n := nth d (p_shape P) 0%Z).
  lia.
Qed.

Lemma forward_zero_user :
  geom_ok K P pw -> Forall (loc_ok K P) (p_src P) -> Forall (loc_ok K P) (p_rec P) ->
  forall (v : arr K) f u sr vis vrg cb st0 U R S,
  (0 < sr)%Z -> cb_ok 0 sr cb -> fvis K P pw vis ->
  scalar_forward K P pw v vis vrg sr f 0 cb st0 u = Some (U, R, S) ->
  forall q, In q (upts K P) ->
    s_wfc K U q = s_wfc K u q /\ s_wfp K U q = s_wfp K u q /\
    forall d, (d < length (p_shape P))%nat ->
      s_psi K U d q = (if ((fst (pw d) <=? nth d q 0) && (nth d q 0 <? nth d (p_shape P) 0 - 2 * fd_pad (p_acc P) - snd (pw d)))%Z then 0 else s_psi K u d q) /\
      s_zeta K U d q = (if ((fst (pw d) <=? nth d q 0) && (nth d q 0 <? nth d (p_shape P) 0 - 2 * fd_pad (p_acc P) - snd (pw d)))%Z then 0 else s_zeta K u d q).
Proof.
  intros Hg H1 H2 v f u sr vis vrg cb st0 U R S Hs Hc Hv E q Hq.
  destruct (forward_zero K Kr P pw Hg H1 H2 v f u sr vis vrg cb st0 U R S Hs Hc Hv E q Hq) as (A & B & C).
  split; [exact A|]. split; [exact B|]. intros d Hd. rewrite <- (zone_user q d Hq Hd). exact (C d Hd).
Qed.

Lemma backends_agree_user :
  geom_ok K P pw -> Forall (loc_ok_py K P) (p_src P) -> Forall (loc_ok_py K P) (p_rec P) ->
  forall (v : arr K) f u nt sr vis vrg cb st0 U R S,
  fvis K P pw vis -> (0 < sr)%Z -> (0 <= nt)%Z -> cb_ok nt sr cb ->
  scalar_forward K P pw v vis vrg sr f nt cb st0 u = Some (U, R, S) ->
  let '(U', R') := scalar_python K P (fun p => v (idx (p_shape P) p)) sr f nt u in
  (forall t, R t = R' t) /\
  (forall q, In q (upts K P) -> s_wfc K U q = s_wfc K U' q /\ s_wfp K U q = s_wfp K U' q) /\
  ((sr <= nt)%Z -> ueq K P U U') /\
  (forall q d, In q (upts K P) -> (d < length (p_shape P))%nat ->
     ((fst (pw d) <=? nth d q 0) && (nth d q 0 <? nth d (p_shape P) 0 - 2 * fd_pad (p_acc P) - snd (pw d)))%Z = false ->
     s_psi K U d q = s_psi K U' d q /\ s_zeta K U d q = s_zeta K U' d q).
Proof.
  intros Hg H1 H2 v f u nt sr vis vrg cb st0 U R S Hv Hs Hn Hc E.
  pose proof (backends_agree K Kr P pw Hg H1 H2 v f u nt sr vis vrg cb st0 U R S Hv Hs Hn Hc E) as X.
  destruct (scalar_python _ _ _ _ _ _ _) as [U' R']. destruct X as (A & B & C & D).
  split; [exact A|]. split; [exact B|]. split; [exact C|].
  intros q d Hq Hd Hz. apply D; [exact Hq|exact Hd|]. rewrite zone_user by assumption. exact Hz.
Qed.
End User.
