(** * Inputs of the double backward examples. *)
From Coq Require Import List ZArith QArith Qcanon Lia Bool Permutation.
From Verif Require Import Ops Sums Grid Stencil DualNum ScalarModel ScalarFunc ScalarEx BornEx DoubleModel.
Import ListNotations.

(** Upstream gradients of the first pass and their perturbations. *)
Definition exd_gr (t : Z) : list (dual Qc_ops) := [(qz (t + 2), qz t); (qz 7, qz 1); (qz (1 - t), qz 3)].
Definition exd_g : st (dual Qc_ops) :=
  mkst (dual Qc_ops) (fun q => (qz (1 - coord 0 q), qz 2)) (fun q => (qz (coord 0 q), qz (coord 0 q - 1)))
    (fun d q => (qz (2 + coord 0 q), qz 1)) (fun d q => (qz (5 - coord 0 q), qz (coord 0 q))).
(** Directions applied to the first gradients. *)
Definition exd_ggf (t : Z) : list Qc := [qz (2 - t); qz 3].

Definition exd_run (nt sr : Z) (w0 : Z -> arr Qc_ops) : dbl Qc_ops :=
  scalar_double_backward Qc_ops exP expw ex_v exb_scat ex_visF ex_visB true sr ex_F exd_ggf nt w0 (fun _ _ => qz 0)
    ex_U exb_usc ex_gr ex_G.
