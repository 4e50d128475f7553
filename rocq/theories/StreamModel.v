(** * Streams, events and double buffering of the snapshots in the CUDA propagators.

    The host issues commands to streams; the commands of one stream run in order, those of
    different streams in any order, except that a wait for an event comes after the last
    record of that event issued before it.  Commands that touch memory are single steps
    (commands that run at the same time and touch the same memory are in both orders among
    the executions).  A destroyed stream still finishes its commands, and nothing waits for
    it (cudaStreamDestroy).

    Modelled: the storage modes with double buffering, with or without compression, of all
    four propagators: the calls of the compiled functions, with callbacks.  The computations
    are functions on the state of the compute stream. *)
From Coq Require Import List ZArith Lia Bool.
Import ListNotations.
Local Open Scope Z_scope.

(** ** Commands *)
(** The compute stream, and the storage stream of a call ([stream_storage], scalar.cu:587). *)
Inductive stream := Comp | Stor (call : nat).
(** Events of a call: [event_storage_done_?], [event_compute_done_?]; [false] is a, [true] is b (scalar.cu:588-591). *)
Inductive ekind := SD | CD.
Definition event := (nat * ekind * bool)%type.
Inductive cmd (mem : Type) :=
| Op (s : stream) (f : mem -> mem)
| Rec (s : stream) (e : event)
| Wt (s : stream) (e : event).
Arguments Op {mem}. Arguments Rec {mem}. Arguments Wt {mem}.
Section Exec.
Variable mem : Type.
Notation cmd := (cmd mem).
Definition stream_of (c : cmd) : stream := match c with Op s _ | Rec s _ | Wt s _ => s end.
Definition act (c : cmd) : mem -> mem := match c with Op _ f => f | _ => fun M => M end.
(** [x], issued before [c], must be finished before [c]: same stream, or [c] waits for the event that [x] records.  (Every event of the program is
    recorded in one stream only, so the last record comes after the earlier ones.) *)
Definition link (x c : cmd) : Prop :=
  stream_of x = stream_of c \/ match x, c with Rec _ e, Wt _ e' => e = e' | _, _ => False end.
(** [L]: the commands that have not run, in the order of the host. *)
Inductive exec : list cmd -> mem -> mem -> Prop :=
| ex_nil M : exec [] M M
| ex_cmd pre c post M M' : (forall x, In x pre -> ~ link x c) -> exec (pre ++ post) (act c M) M' -> exec (pre ++ c :: post) M M'.
End Exec.
Arguments stream_of {mem}. Arguments act {mem}. Arguments link {mem}. Arguments exec {mem}.

(** ** The propagators *)
Section Prog.
(** State of the compute stream (wavefields, data, gradients), snapshots, compressed snapshots. *)
Variables X D E : Type.
(** The device: state, [w_store_1a], [w_store_1b], [w_store_2] when it is one buffer (mode CPU with compression), and the snapshots in
    [w_store_2] (mode device) or [w_store_3] (mode CPU). *)
Record mem := mkmem { mx : X; ma : D; mb : D; mt : E; ms : Z -> E }.
Definition set_x (x : X) (M : mem) : mem := mkmem x (ma M) (mb M) (mt M) (ms M).
Definition buf (odd : bool) (M : mem) : D := if odd then mb M else ma M.
Definition set_buf (odd : bool) (d : D) (M : mem) : mem := if odd then mkmem (mx M) (ma M) d (mt M) (ms M) else mkmem (mx M) d (mb M) (mt M) (ms M).
Definition set_t (e : E) (M : mem) : mem := mkmem (mx M) (ma M) (mb M) e (ms M).
Definition set_s (i : Z) (e : E) (M : mem) : mem := mkmem (mx M) (ma M) (mb M) (mt M) (fun j => if j =? i then e else ms M j).

(** Forward: the kernel and the snapshot it writes, then sources and receivers (scalar.cu:625-680). *)
Variable fwd : Z -> X -> X.
Variable snap : Z -> X -> D.
Variable fwd2 : Z -> X -> X.
(** Compression (the identity without it). *)
Variable comp : D -> E.
Variable decomp : E -> D.
(** Backward: before, the kernel with the snapshot, after, and the end of a call (scalar.cu:897-1002). *)
Variable pre : Z -> X -> X.
Variable bwd : Z -> X -> option D -> X.
Variable post : Z -> X -> X.
Variable fin : X -> X.
(** [via]: compressed and kept on the CPU, so that [w_store_2] is one buffer. *)
Variable via : bool.
(** [every]: the events are used in every step (acoustic.cu:969-977, 1134-1160, elastic.cu:2074-2082, 2266-2297 and the backward loops of
    acoustic.cu, elastic.cu and scalar_born.cu) and not only in those with a snapshot (scalar.cu:613-661, scalar_born.cu:1058-1152). *)
Variables everyF everyB : bool.
Variable sr : Z.

Definition store (t : Z) : bool := t mod sr =? 0.
(** [step_idx % 2 != 0] *)
Definition odd_step (t : Z) : bool := negb (t / sr mod 2 =? 0).
Definition sdF (c : nat) (t : Z) : event := (c, SD, (everyF || store t) && odd_step t).
Definition cdF (c : nat) (t : Z) : event := (c, CD, (everyF || store t) && odd_step t).
(** storage_utils.cu:13-62 *)
Definition saves (c : nat) (t : Z) : list (cmd mem) :=
  if via then [Op (Stor c) (fun M => set_t (comp (buf (odd_step t) M)) M); Op (Stor c) (fun M => set_s (t / sr) (mt M) M)]
  else [Op (Stor c) (fun M => set_s (t / sr) (comp (buf (odd_step t) M)) M)].
Definition kernF (t : Z) (M : mem) : mem :=
  let M' := set_x (fwd t (mx M)) M in if store t then set_buf (odd_step t) (snap t (mx M)) M' else M'.
(** scalar.cu:605-688 *)
Definition stepF (c : nat) (t : Z) : list (cmd mem) :=
  (if everyF || store t then [Wt Comp (sdF c t)] else [])
  ++ [Op Comp (kernF t)]
  ++ (if everyF || store t then [Rec Comp (cdF c t); Wt (Stor c) (cdF c t)] else [])
  ++ (if store t then saves c t else [])
  ++ (if everyF || store t then [Rec (Stor c) (sdF c t)] else [])
  ++ [Op Comp (fun M => set_x (fwd2 t (mx M)) M)].
(** From [z] for [n] steps. *)
Definition zseq (z : Z) (n : nat) : list Z := map (fun k => z + Z.of_nat k) (seq 0 n).
(** A call for [n] steps from [t0] (scalar.cu:587-692): the last command waits for [event_storage_done], as it is after the last step. *)
Definition callF (c : nat) (t0 : Z) (n : nat) : list (cmd mem) :=
  [Rec (Stor c) (c, SD, false); Rec (Stor c) (c, SD, true)] ++ flat_map (stepF c) (zseq t0 n)
  ++ [Wt Comp (match n with O => (c, SD, false) | S k => sdF c (t0 + Z.of_nat k) end)].

Definition sdB (c : nat) (t : Z) : event := (c, SD, (everyB || store t) && odd_step t).
Definition cdB (c : nat) (t : Z) : event := (c, CD, (everyB || store t) && odd_step t).
(** storage_utils.cu:64-110 *)
Definition loads (c : nat) (t : Z) : list (cmd mem) :=
  if via then [Op (Stor c) (fun M => set_t (ms M (t / sr)) M); Op (Stor c) (fun M => set_buf (odd_step t) (decomp (mt M)) M)]
  else [Op (Stor c) (fun M => set_buf (odd_step t) (decomp (ms M (t / sr))) M)].
Definition kernB (t : Z) (M : mem) : mem := set_x (bwd t (mx M) (if store t then Some (buf (odd_step t) M) else None)) M.
(** scalar.cu:879-996 *)
Definition stepB (c : nat) (t : Z) : list (cmd mem) :=
  (if everyB || store t then [Wt (Stor c) (cdB c t)] else [])
  ++ [Op Comp (fun M => set_x (pre t (mx M)) M)]
  ++ (if store t then loads c t else [])
  ++ (if everyB || store t then [Rec (Stor c) (sdB c t); Wt Comp (sdB c t)] else [])
  ++ [Op Comp (kernB t); Rec Comp (cdB c t); Op Comp (fun M => set_x (post t (mx M)) M)].
(** A call for the [n] steps before [t1], backwards (scalar.cu:857-1002). *)
Definition callB (c : nat) (t1 : Z) (n : nat) : list (cmd mem) :=
  [Rec Comp (c, CD, false); Rec Comp (c, CD, true)] ++ flat_map (stepB c) (rev (zseq (t1 - Z.of_nat n) n)) ++ [Op Comp (fun M => set_x (fin (mx M)) M)].

(** The calls of the driver between callbacks, of [n * sr] steps for every [n] in the list (scalar.py:843-921, 1222-1300). *)
Fixpoint callsF (c : nat) (t0 : Z) (ns : list nat) : list (cmd mem) :=
  match ns with [] => [] | n :: r => callF c t0 (n * Z.to_nat sr) ++ callsF (S c) (t0 + Z.of_nat n * sr) r end.
Fixpoint callsB (c : nat) (t1 : Z) (ns : list nat) : list (cmd mem) :=
  match ns with [] => [] | n :: r => callB c t1 (n * Z.to_nat sr) ++ callsB (S c) (t1 - Z.of_nat n * sr) r end.
(** Forward, other work of the compute stream ([mid]: the objective function), backward. *)
Definition program (mid : X -> X) (ns nb : list nat) : list (cmd mem) :=
  callsF 0 0 ns ++ [Op Comp (fun M => set_x (mid (mx M)) M)] ++ callsB (length ns) (Z.of_nat (fold_right plus O ns) * sr) nb.
End Prog.
Arguments mx {X D E}. Arguments ma {X D E}. Arguments mb {X D E}. Arguments mt {X D E}. Arguments ms {X D E}.
