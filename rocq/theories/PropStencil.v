(** * Properties C16, C17: order and symmetry of the finite difference stencils. *)
From Coq Require Import List ZArith QArith Qcanon Reals Lia.
From Verif Require Import Ops Sums Grid Stencil StencilOrder ScalarEx.
Import ListNotations.
Local Open Scope K_scope.

(** C16: [samples cs x0 h k] is the value at [x0 + k h] of the polynomial with coefficients [cs];
    [pder] is the formal derivative.  The statements hold in every commutative ring containing
    the rational literals, in particular for rational and real numbers ([Qc_is_qalg],
    [R_is_qalg]).  First derivative on the regular grid. *)
Theorem C16_first (K : ops) (Kr : is_ring K) (Kq : is_qalg K) a (h rd x0 : K) cs :
  h * rd = 1 -> (Z.of_nat (length cs) <= acc_Z a + 1)%Z ->
  DIFF1 a rd (samples cs x0 h) = peval (pder cs) x0.
Proof. exact (order1 K Kr Kq a h rd x0 cs). Qed.
Print Assumptions C16_first.

(** Second derivative on the regular grid: one degree more. *)
Theorem C16_second (K : ops) (Kr : is_ring K) (Kq : is_qalg K) a (h rd2 x0 : K) cs :
  h * h * rd2 = 1 -> (Z.of_nat (length cs) <= acc_Z a + 2)%Z ->
  DIFF2 a rd2 (samples cs x0 h) = peval (pder (pder cs)) x0.
Proof. exact (order2 K Kr Kq a h rd2 x0 cs). Qed.
Print Assumptions C16_second.

(** Staggered grid: [DIFF?1] differentiates at the point half a cell before, [DIFF?H1] half a
    cell after. *)
Theorem C16_staggered (K : ops) (Kr : is_ring K) (Kq : is_qalg K) a (h rd x0 : K) cs :
  h * rd = 1 -> (Z.of_nat (length cs) <= acc_Z a + 1)%Z ->
  SDIFF1 a rd (samples cs x0 h) = peval (pder cs) (x0 - oq K (1#2) * h) /\
  SDIFFH1 a rd (samples cs x0 h) = peval (pder cs) (x0 + oq K (1#2) * h).
Proof.
  exact (fun Hh L => conj (order_int K Kr Kq a h rd x0 cs Hh L) (order_half K Kr Kq a h rd x0 cs Hh L)).
Qed.
Print Assumptions C16_staggered.

(** The degrees cannot be raised. *)
Theorem C16_sharp a :
  DIFF1 (K:=Qc_ops) a (Q2Qc 1) (samples (mono (acc_Z a + 1)) (Q2Qc 0) (Q2Qc 1))
    <> peval (pder (mono (acc_Z a + 1))) (Q2Qc 0) /\
  DIFF2 (K:=Qc_ops) a (Q2Qc 1) (samples (mono (acc_Z a + 2)) (Q2Qc 0) (Q2Qc 1))
    <> peval (pder (pder (mono (acc_Z a + 2)))) (Q2Qc 0) /\
  SDIFF1 (K:=Qc_ops) a (Q2Qc 1) (samples (mono (acc_Z a + 1)) (Q2Qc (1#2)) (Q2Qc 1))
    <> peval (pder (mono (acc_Z a + 1))) (Q2Qc 0) /\
  SDIFFH1 (K:=Qc_ops) a (Q2Qc 1) (samples (mono (acc_Z a + 1)) (Q2Qc (-1#2)) (Q2Qc 1))
    <> peval (pder (mono (acc_Z a + 1))) (Q2Qc 0).
Proof. exact (order_sharp a). Qed.
Print Assumptions C16_sharp.

(** [x^4 - 3 x^3 + 2] at [x0 = 5], spacing 2: first and second derivatives 275 and 210. *)
Example C16_example :
  let cs : list Qc_ops := [qz 2; qz 0; qz 0; qz (-3); qz 1] in
  DIFF1 (K:=Qc_ops) A4 (qq 1 2) (samples cs (qz 5) (qz 2)) = qz 275 /\
  DIFF2 (K:=Qc_ops) A4 (qq 1 4) (samples cs (qz 5) (qz 2)) = qz 210 /\
  SDIFF1 (K:=Qc_ops) A4 (qq 1 2) (samples cs (qz 5) (qz 2)) = qz 112 /\
  SDIFFH1 (K:=Qc_ops) A4 (qq 1 2) (samples cs (qz 5) (qz 2)) = qz 540.
Proof.
  cbv zeta. split; [|split; [|split]].
  - rewrite (C16_first Qc_ops Qc_is_ring Qc_is_qalg); [|apply Qc_is_canon; reflexivity|cbn; lia].
    apply Qc_is_canon; reflexivity.
  - rewrite (C16_second Qc_ops Qc_is_ring Qc_is_qalg); [|apply Qc_is_canon; reflexivity|cbn; lia].
    apply Qc_is_canon; reflexivity.
  - edestruct (C16_staggered Qc_ops Qc_is_ring Qc_is_qalg A4 (qz 2) (qq 1 2)) as [E1 E2];
      [apply Qc_is_canon; reflexivity| |etransitivity; [exact E1|apply Qc_is_canon; reflexivity]]. cbn; lia.
  - edestruct (C16_staggered Qc_ops Qc_is_ring Qc_is_qalg A4 (qz 2) (qq 1 2)) as [E1 E2];
      [apply Qc_is_canon; reflexivity| |etransitivity; [exact E2|apply Qc_is_canon; reflexivity]]. cbn; lia.
Qed.

(** C17: for fields vanishing outside a set [l] of cells (e.g. the computational interior of an
    array of any shape), along any dimension [d]. *)
Theorem C17_symmetry (K : ops) (Kr : is_ring K) (l : list pt) a (rd : K) d (f g : field K) :
  NoDup l -> (forall p, ~ In p l -> f p = 0) -> (forall p, ~ In p l -> g p = 0) ->
  let sum (x y : field K) := sumf l (fun p => x p * y p) in
  sum f (D1 a rd d g) = - sum (D1 a rd d f) g /\
  sum f (D2 a rd d g) = sum (D2 a rd d f) g /\
  sum f (SDH1 a rd d g) = - sum (SD1 a rd d f) g.
Proof.
  exact (fun Hn Hf Hg => conj (D1_sbp K Kr l a rd d f g Hn Hf Hg)
    (conj (D2_sbp K Kr l a rd d f g Hn Hf Hg) (SDH1_sbp K Kr l a rd d f g Hn Hf Hg))).
Qed.
Print Assumptions C17_symmetry.

Definition c17_l : list pt := [[2%Z; 2%Z]; [2%Z; 3%Z]; [3%Z; 2%Z]; [3%Z; 3%Z]].
Definition c17_f (m : Z) : field Qc_ops := fun p =>
  if List.existsb (fun q => if list_eq_dec Z.eq_dec p q then true else false) c17_l
  then qz (match p with [i; j] => m * i + j | _ => 0 end) else qz 0.

Example C17_example :
  sumf (K:=Qc_ops) c17_l (fun p => omul Qc_ops (c17_f 2 p) (D1 (K:=Qc_ops) A4 (qz 3) 1 (c17_f 5) p))
  = oopp Qc_ops (sumf (K:=Qc_ops) c17_l (fun p => omul Qc_ops (D1 (K:=Qc_ops) A4 (qz 3) 1 (c17_f 2) p) (c17_f 5 p))) /\
  sumf (K:=Qc_ops) c17_l (fun p => omul Qc_ops (c17_f 2 p) (D1 (K:=Qc_ops) A4 (qz 3) 1 (c17_f 5) p)) <> qz 0.
Proof.
  split.
  - apply (C17_symmetry Qc_ops Qc_is_ring c17_l A4 (qz 3) 1 (c17_f 2) (c17_f 5)).
    + repeat constructor; cbn; intuition congruence.
    + intros p H. unfold c17_f. match goal with |- context [existsb ?h c17_l] => destruct (existsb h c17_l) eqn:E end; [|reflexivity].
      apply existsb_exists in E. destruct E as (q & Hq & E). destruct list_eq_dec; [subst; tauto|discriminate].
    + intros p H. unfold c17_f. match goal with |- context [existsb ?h c17_l] => destruct (existsb h c17_l) eqn:E end; [|reflexivity].
      apply existsb_exists in E. destruct E as (q & Hq & E). destruct list_eq_dec; [subst; tauto|discriminate].
  - apply nz_spec. vm_compute. reflexivity.
Qed.
