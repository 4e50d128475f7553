(** * Snapshots saved and loaded in a second stream: C60.

    [exec]: the executions of the commands that the host issues; [traj]: the state of the forward propagation before a step; [plainB]: the calls of
    the backward propagation, given the snapshot of every stored step. *)
From Coq Require Import List ZArith Lia Bool.
From Verif Require Import StreamModel StreamThm StreamProg StreamEx.
Import ListNotations.
Local Open Scope Z_scope.

(** C60: in every execution of a forward and a backward propagation, with callbacks after any numbers of stored steps, the backward propagation
    gets for each stored step the (compressed) snapshot of that step.  For acoustic and elastic ([everyF]) always; for scalar and scalar_born if
    there is a snapshot in every step, or the number of snapshots so far is odd at the end of every call. *)
Theorem C60_snapshots_partial X D E fwd snap fwd2 comp decomp pre bwd post fin via everyF everyB sr mid ns nb M M' : 1 <= sr ->
  everyF = true \/ sr = 1 \/ (forall k, (0 < k <= length ns)%nat -> Nat.Odd (total (firstn k ns))) ->
  (total nb <= total ns)%nat -> exec (program X D E fwd snap fwd2 comp decomp pre bwd post fin via everyF everyB sr mid ns nb) M M' ->
  mx M' = plainB X D pre bwd post fin sr (fun t => decomp (comp (snap t (traj X fwd fwd2 (mx M) (Z.to_nat t))))) (Z.of_nat (total ns) * sr) nb
            (mid (traj X fwd fwd2 (mx M) (total ns * Z.to_nat sr))) /\
  forall i, 0 <= i < Z.of_nat (total ns) -> ms M' i = comp (snap (i * sr) (traj X fwd fwd2 (mx M) (Z.to_nat (i * sr)))).
Proof. intros Hsr. exact (@program_plain X D E fwd snap fwd2 comp decomp pre bwd post fin via everyF everyB sr Hsr mid ns nb M M'). Qed.
Print Assumptions C60_snapshots_partial.

(** C60: one forward call alone, of any number of steps: when all its commands have run, the state and all snapshots are those of the plain loop. *)
Theorem C60_forward X D E fwd snap fwd2 comp via everyF sr n M M' : 1 <= sr ->
  exec (callF X D E fwd snap fwd2 comp via everyF sr 0 0 n) M M' ->
  mx M' = traj X fwd fwd2 (mx M) n /\
  forall i, 0 <= i -> i * sr < Z.of_nat n -> ms M' i = comp (snap (i * sr) (traj X fwd fwd2 (mx M) (Z.to_nat (i * sr)))).
Proof. intros Hsr. exact (@forward_plain X D E fwd snap fwd2 comp via everyF sr Hsr n M M'). Qed.
Print Assumptions C60_forward.

(** C60: executions exist. *)
Theorem C60_runs X D E fwd snap fwd2 comp decomp pre bwd post fin via everyF everyB sr mid ns nb M :
  exists M', exec (program X D E fwd snap fwd2 comp decomp pre bwd post fin via everyF everyB sr mid ns nb) M M'.
Proof. exact (ex_intro _ _ (exec_seq _ _ M)). Qed.
Print Assumptions C60_runs.

(** C60 is false of scalar and scalar_born with an even number of snapshots, not one in every step: four steps, a snapshot in every second.  The
    forward call ends with a wait for the other buffer, so the last snapshot may be loaded before it is saved. *)
Theorem C60_last_snapshot_refuted : exists M', exec (ex_prog false 2 [2%nat] [2%nat]) ex_mem M' /\ mx M' = 15 /\ ex_plain 2 [2%nat] [2%nat] = 45.
Proof. exact ex_late. Qed.
Print Assumptions C60_last_snapshot_refuted.

(** The same steps with the events of acoustic; and of scalar with three snapshots, in two calls. *)
Example stream_every_example M' : exec (ex_prog true 2 [2%nat] [2%nat]) ex_mem M' -> mx M' = 45.
Proof. intros H. apply C60_snapshots_partial in H; [|lia|left; reflexivity|reflexivity]. destruct H as [-> _]. reflexivity. Qed.
Example stream_odd_example M' : exec (ex_prog false 2 [1; 2]%nat [2; 1]%nat) ex_mem M' -> mx M' = 97 /\ ms M' 2 = 5.
Proof.
  intros H. apply C60_snapshots_partial in H; [|lia| |reflexivity].
  - destruct H as [E1 E2]. rewrite E1. split; [reflexivity|]. rewrite E2 by (cbn; lia). reflexivity.
  - right. right. intros [|[|[|k]]] Hk; cbn in Hk; try lia; [exists O|exists 1%nat]; reflexivity.
Qed.
