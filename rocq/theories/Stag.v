(** * Staggered-grid systems with PML memory variables: central model.

    Common form of the acoustic and elastic propagators (acoustic.c, elastic.c, acoustic.py:1260-1328,
    elastic.py:1952-2139): main variables [X] on staggered positions; every derivative term [E] is the
    staggered first derivative of one main variable with its own memory variable; each main variable
    is updated with a combination of terms.  A time step consists of two half steps (velocities,
    then pressure or stresses).  The models of the two propagators are given in
    [AcousticModel.v] and [ElasticModel.v]; this file is the common specification. *)
From Coq Require Import List ZArith QArith Ring Ring_theory Lia Bool.
From Verif Require Import Ops Sums Grid Stencil DualNum ScalarModel ScalarRefine ScalarAdjoint.
Import ListNotations.
Local Open Scope K_scope.

(** Structure of a system.  [xh x d]: variable [x] is at half positions in dimension [d]; [eh] the
    same for terms; [esrc e], [edim e]: variable and direction differentiated; [inc x e]: term [e]
    contributes to the update of [x]; [xA], [eA]: belongs to the first half step;
    [C]: kinds of sources and receivers, [cin c x]: sources of kind [c] are added to [x], receivers
    of kind [c] record (the sum of) such [x]; [cA]: first half step. *)
Record sys := mksys {
  sX : Type; sE : Type; sC : Type;
  allX : list sX; allE : list sE; allC : list sC;
  esrcb : sE -> sX -> bool;
  esrc : sE -> sX;
  edim : sE -> nat;
  xh : sX -> nat -> bool; eh : sE -> nat -> bool;
  inc : sX -> sE -> bool;
  xA : sX -> bool; eA : sE -> bool;
  cin : sC -> sX -> bool;
  cA : sC -> bool
}.

Record sys_ok (S : sys) (nd : nat) : Prop := {
  ok_X : NoDup (allX S);
  ok_srcb : forall e x, In e (allE S) -> (esrcb S e x = true <-> esrc S e = x);
  ok_srcin : forall e, In e (allE S) -> In (esrc S e) (allX S);
  ok_dim : forall e, In e (allE S) -> (edim S e < nd)%nat;
  ok_half : forall e, In e (allE S) -> xA S (esrc S e) = negb (eA S e);
  ok_flip : forall e, In e (allE S) -> xh S (esrc S e) (edim S e) = negb (eh S e (edim S e));
  ok_same : forall e d, In e (allE S) -> (d < nd)%nat -> d <> edim S e -> xh S (esrc S e) d = eh S e d;
  ok_inc : forall x e, In x (allX S) -> In e (allE S) -> inc S x e = true ->
             xA S x = eA S e /\ forall d, (d < nd)%nat -> xh S x d = eh S e d;
  ok_cin : forall c x, In c (allC S) -> In x (allX S) -> cin S c x = true -> xA S x = cA S c
}.

(** Numeric parameters: accuracy, shape with all padding, [1/dx], PML profiles [a], [b] ([true]: at
    half positions), source and receiver locations. *)
Record spar (S : sys) (K : ops) := mkspar {
  sp_acc : acc;
  sp_shape : list Z;
  sp_rd : nat -> K;
  sp_a : bool -> nat -> Z -> K;
  sp_b : bool -> nat -> Z -> K;
  sp_src : sC S -> list Z;
  sp_rec : sC S -> list Z
}.
Arguments mkspar {S K}. Arguments sp_acc {S K}. Arguments sp_shape {S K}. Arguments sp_rd {S K}.
Arguments sp_a {S K}. Arguments sp_b {S K}. Arguments sp_src {S K}. Arguments sp_rec {S K}.

(** State: main and memory variables. *)
Record sst (S : sys) (K : ops) := mksst { mn : sX S -> field K; me : sE S -> field K }.
Arguments mksst {S K}. Arguments mn {S K}. Arguments me {S K}.

(** Coefficients of the terms. *)
Definition coe (S : sys) (K : ops) := sX S -> sE S -> field K.

Section Stag.
Variable S : sys.
Variable K : ops.
Variable P : spar S K.
Notation shape := (sp_shape P).
Notation fd := (fd_pad (sp_acc P)).
Notation nd := (length shape).

(** Points where a variable with half positions [h] is updated: all but [fd] points at the beginning
    and [fd - 1] (integer) or [fd] (half) points at the end. *)
Definition dbox (h : nat -> bool) : box :=
  map (fun d => (fd, nth d shape 0 - fd + (if h d then 0 else 1))%Z) (seq 0 nd).
Definition dom (h : nat -> bool) (p : pt) : bool := inb (dbox h) p.
Definition dmask (h : nat -> bool) (f : field K) : field K := fun p => if dom h p then f p else 0.

(** Amplitudes at locations, as a field; values at locations. *)
Definition srcf (locs : list Z) (amps : list K) : field K :=
  fun p => sumf (combine locs amps)
             (fun la => if (0 <=? fst la)%Z && (if pt_eq_dec (unidx shape (fst la)) p then true else false)
                        then snd la else 0).
Definition gat (locs : list Z) (f : field K) : list K :=
  map (fun l => if (0 <=? l)%Z then f (unidx shape l) else 0) locs.

(** Derivative of a term, and the derivative in the other direction. *)
Definition der (e : sE S) (f : field K) : field K :=
  if eh S e (edim S e) then SDH1 (sp_acc P) (sp_rd P (edim S e)) (edim S e) f
  else SD1 (sp_acc P) (sp_rd P (edim S e)) (edim S e) f.
Definition der' (e : sE S) (f : field K) : field K :=
  if eh S e (edim S e) then SD1 (sp_acc P) (sp_rd P (edim S e)) (edim S e) f
  else SDH1 (sp_acc P) (sp_rd P (edim S e)) (edim S e) f.

Definition ea (e : sE S) (p : pt) : K := sp_a P (eh S e (edim S e)) (edim S e) (coord (edim S e) p).
Definition eb (e : sE S) (p : pt) : K := sp_b P (eh S e (edim S e)) (edim S e) (coord (edim S e) p).

(** New memory variable and term. *)
Definition nmem (s : sst S K) (e : sE S) : field K :=
  dmask (eh S e) (fun p => eb e p * der e (mn s (esrc S e)) p + ea e p * me s e p).
Definition term (s : sst S K) (e : sE S) : field K :=
  fun p => der e (mn s (esrc S e)) p + nmem s e p.

Definition incE (x : sX S) : list (sE S) := filter (inc S x) (allE S).
Definition incX (e : sE S) : list (sX S) := filter (fun x => inc S x e) (allX S).
Definition srcE (x : sX S) : list (sE S) := filter (fun e => esrcb S e x) (allE S).
Definition cinC (x : sX S) : list (sC S) := filter (fun c => cin S c x) (allC S).
Definition cinX (c : sC S) : list (sX S) := filter (cin S c) (allX S).

Definition injs (f : sC S -> list K) (x : sX S) (g : field K) : field K :=
  fun p => g p + sumf (cinC x) (fun c => srcf (sp_src P c) (f c) p).

(** Half step [A]; time step; states; recorded amplitudes. *)
Definition hstep (A : bool) (c : coe S K) (f : sC S -> list K) (s : sst S K) : sst S K :=
  mksst (fun x => if Bool.eqb (xA S x) A
                  then injs f x (dmask (xh S x) (fun p => mn s x p + sumf (incE x) (fun e => c x e p * term s e p)))
                  else mn s x)
        (fun e => if Bool.eqb (eA S e) A then nmem s e else me s e).

Definition sstep (c : coe S K) (f : sC S -> list K) (s : sst S K) : sst S K :=
  hstep false c f (hstep true c f s).

Fixpoint sstate (c : Z -> coe S K) (f : Z -> sC S -> list K) (n : nat) (t : Z) (s : sst S K) : sst S K :=
  match n with
  | O => s
  | Datatypes.S n' => sstate c f n' (t + 1)%Z (sstep (c t) (f t) s)
  end.

Definition chsum (c : sC S) (s : sst S K) : field K := fun p => sumf (cinX c) (fun x => mn s x p).
Definition srec (c : sC S) (s : sst S K) : list K := gat (sp_rec P c) (chsum c s).

(** Backward half step and step; [g] holds gradients. *)
Definition tbar (c : coe S K) (g : sst S K) (e : sE S) : field K :=
  fun p => sumf (incX e) (fun x => c x e p * mn g x p).
Definition zf (c : coe S K) (g : sst S K) (e : sE S) : field K :=
  fun p => eb e p * me g e p + (1 + eb e p) * tbar c g e p.
Definition bhalf (A : bool) (c : coe S K) (g : sst S K) : sst S K :=
  mksst (fun x => if Bool.eqb (xA S x) A then mn g x
                  else dmask (xh S x) (fun p => mn g x p + sumf (srcE x) (fun e => - der' e (zf c g e) p)))
        (fun e => if Bool.eqb (eA S e) A then (fun p => ea e p * (me g e p + tbar c g e p)) else me g e).
Definition binj (gr : sC S -> list K) (g : sst S K) : sst S K :=
  mksst (fun x p => mn g x p + sumf (cinC x) (fun c => srcf (sp_rec P c) (gr c) p)) (me g).
Definition sbstep (c : coe S K) (gr : sC S -> list K) (g : sst S K) : sst S K :=
  binj gr (bhalf true c (bhalf false c g)).

(** Gradients after the backward steps of times [t + n - 1], ..., [t]. *)
Fixpoint sbst (c : Z -> coe S K) (gr : Z -> sC S -> list K) (n : nat) (t : Z) (g : sst S K) : sst S K :=
  match n with
  | O => g
  | Datatypes.S n' => sbstep (c t) (gr t) (sbst c gr n' (t + 1)%Z g)
  end.

(** Gradients of the source amplitudes and of the coefficients from one step: [s] the state before
    the step, [g] the gradient of the state after it. *)
Definition grad_f (c : coe S K) (g : sst S K) (ch : sC S) : list K :=
  gat (sp_src P ch) (chsum ch (bhalf false c g)).
Definition grad_c (c : coe S K) (f : sC S -> list K) (s g : sst S K) (x : sX S) (e : sE S) : field K :=
  fun p => mn (bhalf false c g) x p * term (if eA S e then s else hstep true c f s) e p.

(** Inner products. *)
Definition spts : list pt := box_pts (abox shape).
Definition sdot (g s : sst S K) : K :=
  sumf (allX S) (fun x => dot spts (mn g x) (mn s x)) + sumf (allE S) (fun e => dot spts (me g e) (me s e)).
Definition cdot (a b : sC S -> list K) : K := sumf (allC S) (fun c => ldot (a c) (b c)).
Definition kdot (a b : coe S K) : K :=
  sumf (allX S) (fun x => sumf (incE x) (fun e => dot spts (a x e) (b x e))).

(** Locations inside the domain of every variable of their kind, or negative (ignored). *)
Definition sloc_ok (c : sC S) (l : Z) : Prop :=
  (l < 0)%Z \/ exists q, l = idx shape q /\ inb (abox shape) q = true /\
                 forall x, In x (allX S) -> cin S c x = true -> dom (xh S x) q = true.
Definition locs_ok (L : sC S -> list Z) : Prop := forall c, In c (allC S) -> Forall (sloc_ok c) (L c).

Definition fsup (h : nat -> bool) (f : field K) : Prop := forall p, dom h p = false -> f p = 0.
Definition ssup (s : sst S K) : Prop :=
  (forall x, In x (allX S) -> fsup (xh S x) (mn s x)) /\ (forall e, In e (allE S) -> fsup (eh S e) (me s e)).

Definition sseq (s s' : sst S K) : Prop :=
  (forall x p, In x (allX S) -> mn s x p = mn s' x p) /\ (forall e p, In e (allE S) -> me s e p = me s' e p).

End Stag.

(** Constant parameters lifted to dual numbers; parts of states. *)
Definition dspar {S K} (P : spar S K) : spar S (dual K) :=
  mkspar (sp_acc P) (sp_shape P) (fun d => dconst (sp_rd P d)) (fun h d y => dconst (sp_a P h d y))
         (fun h d y => dconst (sp_b P h d y)) (sp_src P) (sp_rec P).
Definition ssre {S K} (s : sst S (dual K)) : sst S K := mksst (fun x => fre (mn s x)) (fun e => fre (me s e)).
Definition ssep {S K} (s : sst S (dual K)) : sst S K := mksst (fun x => fep (mn s x)) (fun e => fep (me s e)).
Definition cre {S K} (c : coe S (dual K)) : coe S K := fun x e => fre (c x e).
Definition cep {S K} (c : coe S (dual K)) : coe S K := fun x e => fep (c x e).
