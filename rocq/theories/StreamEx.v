(** * An execution of the scalar propagator in which the last snapshot is late. *)
From Coq Require Import List ZArith Lia Bool.
From Verif Require Import StreamModel StreamThm StreamProg.
Import ListNotations.
Local Open Scope Z_scope.

Section Sched.
Variable mem : Type.
Notation cmd := (cmd mem).
Definition streamb (a b : stream) : bool := match a, b with Comp, Comp => true | Stor x, Stor y => Nat.eqb x y | _, _ => false end.
Definition eventb (a b : event) : bool :=
  let '(c, k, i) := a in let '(c', k', i') := b in Nat.eqb c c' && match k, k' with SD, SD | CD, CD => true | _, _ => false end && Bool.eqb i i'.
Definition linkb (x c : cmd) : bool :=
  streamb (stream_of x) (stream_of c) || match x, c with Rec _ e, Wt _ e' => eventb e e' | _, _ => false end.
Lemma linkb_false x c : linkb x c = false -> ~ link x c.
Proof.
  unfold linkb. rewrite orb_false_iff. intros [H1 H2] [L|L].
  - rewrite L in H1. destruct (stream_of c); cbn in H1; [discriminate|]. rewrite Nat.eqb_refl in H1. discriminate.
  - destruct x as [|s e|]; try contradiction. destruct c as [| |s' e']; try contradiction. subst e'. destruct e as [[n k] i]. cbn in H2. rewrite Nat.eqb_refl in H2. destruct k, i; discriminate.
Qed.
(** Runs the commands at the given positions of what is left. *)
Fixpoint schedule (ks : list nat) (L : list cmd) (M : mem) : option mem :=
  match ks with
  | [] => match L with [] => Some M | _ => None end
  | k :: ks' => match skipn k L with
                | c :: post => if forallb (fun x => negb (linkb x c)) (firstn k L) then schedule ks' (firstn k L ++ post) (act c M) else None
                | [] => None
                end
  end.
Lemma schedule_exec : forall ks L M M', schedule ks L M = Some M' -> exec L M M'.
Proof.
  induction ks as [|k ks IH]; intros L M M' H; cbn in H.
  - destruct L; [|discriminate]. injection H as <-. constructor.
  - destruct (skipn k L) as [|c post] eqn:Es; [discriminate|]. destruct (forallb _ _) eqn:Ef; [|discriminate].
    rewrite <- (firstn_skipn k L), Es. apply ex_cmd; [|apply IH, H]. intros x Hx. rewrite forallb_forall in Ef. apply linkb_false. specialize (Ef x Hx). destruct (linkb x c); [discriminate|reflexivity].
Qed.
End Sched.

(** A state that counts the steps and a gradient that adds ten times each snapshot. *)
Definition ex_prog (everyF : bool) (sr : Z) (ns nb : list nat) : list (cmd (mem Z Z Z)) :=
  program Z Z Z (fun _ x => x + 1) (fun _ x => x) (fun _ x => x) (fun d => d) (fun e => e) (fun _ x => x)
    (fun _ y d => match d with Some d => y + 10 * d | None => y end) (fun _ x => x) (fun x => x) false everyF false sr (fun x => x) ns nb.
Definition ex_mem : mem Z Z Z := mkmem Z Z Z 1 0 0 0 (fun _ => 0).
Definition ex_plain (sr : Z) (ns nb : list nat) : Z :=
  plainB Z Z (fun _ x => x) (fun _ y d => match d with Some d => y + 10 * d | None => y end) (fun _ x => x) (fun x => x) sr
    (fun t => traj Z (fun _ x => x + 1) (fun _ x => x) 1 (Z.to_nat t)) (Z.of_nat (total ns) * sr) nb (traj Z (fun _ x => x + 1) (fun _ x => x) 1 (total ns * Z.to_nat sr)).
(** Four steps with a snapshot in every second: the snapshot of step 2 is saved last (positions 15 and 16 of the commands). *)
Definition late : list nat := repeat 0%nat 15 ++ repeat 2%nat 32 ++ [0; 0]%nat.
Lemma ex_late : exists M', exec (ex_prog false 2 [2%nat] [2%nat]) ex_mem M' /\ mx M' = 15 /\ ex_plain 2 [2%nat] [2%nat] = 45.
Proof.
  destruct (schedule _ late (ex_prog false 2 [2%nat] [2%nat]) ex_mem) as [M'|] eqn:Es; [|vm_compute in Es; discriminate].
  exists M'. split; [apply (schedule_exec _ late), Es|]. split; [|vm_compute; reflexivity]. vm_compute in Es. injection Es as <-. reflexivity.
Qed.
