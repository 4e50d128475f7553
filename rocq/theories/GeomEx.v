(** * A survey used in the examples: 6 by 7 model, two shots, survey_pad, PML on three sides. *)
From Coq Require Import List ZArith Lia Bool.
From Verif Require Import Grid ScalarModel GeomModel Geom Geom2 SetupModel.
Import ListNotations.
Local Open Scope Z_scope.

Definition gx_m : tens Z := mktens [6; 7] (fun p => 100 + 10 * coord 0 p + coord 1 p).
Definition gx_s : tens Z := mktens [2; 6; 7] (fun p => 1000 * coord 0 p + 10 * coord 1 p + coord 2 p).
Definition gx_src : list (option loct) := [Some (mkloct 2 [[[2; 3]]; [[3; 4]]]); None].
Definition gx_rec : list (option loct) :=
  [Some (mkloct 2 [[[1; 5]; [4; 3]]; [[IGNORE; IGNORE]; [2; 5]]])].
Definition gx_sp : survey_pad := SPlist [Some 0; Some 1; Some 1; None].
Definition gx_fdp : list Z := [2; 2; 2; 2].
Definition gx_pw : list Z := [1; 0; 2; 1].
Definition gx_run := extract_survey 0 [gx_m; gx_s] gx_src gx_rec [] gx_sp None gx_fdp gx_pw
  [Replicate; Constant] 2 2.
Definition gx_E : list (Z * Z) := [(1, 6); (2, 7)].

Lemma gx_some : exists ms s r, gx_run = Some (gx_E, ms, s, r).
Proof.
  destruct gx_run as [[[[E ms] s] r]|] eqn:H.
  - exists ms, s, r. assert (G : match gx_run with Some (E, _, _, _) => E | None => [] end = gx_E) by (vm_compute; reflexivity).
    rewrite H in G. rewrite G. reflexivity.
  - assert (G : match gx_run with Some _ => true | None => false end = true) by (vm_compute; reflexivity).
    rewrite H in G. discriminate.
Qed.

Lemma gx_nonneg : Forall (fun a => 0 <= a) gx_fdp /\ Forall (fun a => 0 <= a) gx_pw.
Proof. split; repeat constructor; lia. Qed.
