(** * Finite difference stencils (regular_grid.py/.h, staggered_grid.py/.h). *)
From Coq Require Import List ZArith QArith Ring Ring_theory Lia Bool.
From Verif Require Import Ops Sums Grid.
Import ListNotations.
Local Open Scope K_scope.

(** Accuracies accepted by [set_accuracy] (common.py:746-764). *)
Inductive acc := A2 | A4 | A6 | A8.

Definition acc_Z (a : acc) : Z :=
  match a with A2 => 2 | A4 => 4 | A6 => 6 | A8 => 8 end.

(** [FD_PAD] (regular_grid.h:19,50,87,133; staggered_grid.h) and
    [fd_pad = accuracy // 2] (scalar.py:740). *)
Definition fd_pad (a : acc) : Z :=
  match a with A2 => 1 | A4 => 2 | A6 => 3 | A8 => 4 end.

(** First derivative, regular grid (regular_grid.h:13-15, 23-34, 54-68, 91-108;
    regular_grid.py:82-...). *)
Definition coef1 (a : acc) : list Q :=
  match a with
  | A2 => [1#2]
  | A4 => [8#12; -1#12]
  | A6 => [3#4; -3#20; 1#60]
  | A8 => [4#5; -1#5; 4#105; -1#280]
  end%Q.

(** Second derivative, regular grid: centre coefficient and the others
    (regular_grid.h:16-18, 35-49, 69-86, 109-132). *)
Definition coef2c (a : acc) : Q :=
  match a with A2 => -2#1 | A4 => -5#2 | A6 => -49#18 | A8 => -205#72 end%Q.

Definition coef2 (a : acc) : list Q :=
  match a with
  | A2 => [1#1]
  | A4 => [4#3; -1#12]
  | A6 => [3#2; -3#20; 1#90]
  | A8 => [8#5; -1#5; 8#315; -1#560]
  end%Q.

(** First derivative, staggered grid (staggered_grid.h, staggered_grid.py). *)
Definition coefs (a : acc) : list Q :=
  match a with
  | A2 => [1#1]
  | A4 => [9#8; -1#24]
  | A6 => [75#64; -25#384; 3#640]
  | A8 => [1225#1024; -245#3072; 49#5120; -5#7168]
  end%Q.

Section Defs.
Variable K : ops.

(** A field on grid points. *)
Definition field := pt -> K.

(** [sum_k c_k (g(k) - g(-k))], [k = k0, k0+1, ...] *)
Fixpoint st_odd (cs : list Q) (k : Z) (g : Z -> K) : K :=
  match cs with
  | [] => 0
  | c :: cs' => oq K c * (g k - g (- k)%Z) + st_odd cs' (k + 1)%Z g
  end.

(** [sum_k c_k (g(k) + g(-k))] *)
Fixpoint st_even (cs : list Q) (k : Z) (g : Z -> K) : K :=
  match cs with
  | [] => 0
  | c :: cs' => oq K c * (g k + g (- k)%Z) + st_even cs' (k + 1)%Z g
  end.

(** The macros [DIFFZ1], [DIFFY1], [DIFFX1] applied to an accessor macro [g] (offset along
    the dimension): regular_grid.h:13-15 etc.  Sums are written with a trailing [+ 0],
    irrelevant in exact arithmetic. *)
Definition DIFF1 (a : acc) (rd : K) (g : Z -> K) : K := st_odd (coef1 a) 1 g * rd.

(** [DIFFZ2], [DIFFY2], [DIFFX2]: regular_grid.h:16-18 etc. *)
Definition DIFF2 (a : acc) (rd2 : K) (g : Z -> K) : K :=
  (oq K (coef2c a) * g 0%Z + st_even (coef2 a) 1 g) * rd2.

(** Staggered: [sum_k c_k (g(k-1) - g(-k))] (macros [DIFF?1] of staggered_grid.h). *)
Fixpoint st_int (cs : list Q) (k : Z) (g : Z -> K) : K :=
  match cs with
  | [] => 0
  | c :: cs' => oq K c * (g (k - 1)%Z - g (- k)%Z) + st_int cs' (k + 1)%Z g
  end.

(** Staggered: [sum_k c_k (g(k) - g(1-k))] (macros [DIFF?H1] of staggered_grid.h). *)
Fixpoint st_half (cs : list Q) (k : Z) (g : Z -> K) : K :=
  match cs with
  | [] => 0
  | c :: cs' => oq K c * (g k - g (1 - k)%Z) + st_half cs' (k + 1)%Z g
  end.

Definition SDIFF1 (a : acc) (rd : K) (g : Z -> K) : K := st_int (coefs a) 1 g * rd.
Definition SDIFFH1 (a : acc) (rd : K) (g : Z -> K) : K := st_half (coefs a) 1 g * rd.

(** The same on fields. *)
Definition D1 (a : acc) (rd : K) (d : nat) (f : field) : field :=
  fun p => DIFF1 a rd (fun k => f (shift d k p)).
Definition D2 (a : acc) (rd2 : K) (d : nat) (f : field) : field :=
  fun p => DIFF2 a rd2 (fun k => f (shift d k p)).
Definition SD1 (a : acc) (rd : K) (d : nat) (f : field) : field :=
  fun p => SDIFF1 a rd (fun k => f (shift d k p)).
Definition SDH1 (a : acc) (rd : K) (d : nat) (f : field) : field :=
  fun p => SDIFFH1 a rd (fun k => f (shift d k p)).

(** Inner product over the points of a list. *)
Definition dot (l : list pt) (f g : field) : K := sumf l (fun p => f p * g p).

Definition supp (l : list pt) (f : field) : Prop := forall p, ~ In p l -> f p = 0.

End Defs.

Arguments DIFF1 {K}. Arguments DIFF2 {K}. Arguments SDIFF1 {K}. Arguments SDIFFH1 {K}.
Arguments D1 {K}. Arguments D2 {K}. Arguments SD1 {K}. Arguments SDH1 {K}.
Arguments dot {K}. Arguments supp {K}.
Arguments st_odd {K}. Arguments st_even {K}. Arguments st_int {K}. Arguments st_half {K}.

(** ** Locality: stencils only look [fd_pad] cells away. *)

Lemma st_odd_ext (K : ops) cs k (g h : Z -> K) :
  (forall j, (k <= j < k + Z.of_nat (length cs))%Z -> g j = h j /\ g (-j)%Z = h (-j)%Z) ->
  st_odd cs k g = st_odd cs k h.
Proof.
  intros H. revert k H; induction cs as [|c cs IH]; intros k H; cbn; [reflexivity|].
  destruct (H k) as [E1 E2]; [cbn [length]; lia|]. rewrite E1, E2.
  f_equal. apply IH. intros j Hj. apply H. cbn [length]. lia.
Qed.

Lemma st_even_ext (K : ops) cs k (g h : Z -> K) :
  (forall j, (k <= j < k + Z.of_nat (length cs))%Z -> g j = h j /\ g (-j)%Z = h (-j)%Z) ->
  st_even cs k g = st_even cs k h.
Proof.
  revert k; induction cs as [|c cs IH]; intros k H; cbn; [reflexivity|].
  destruct (H k) as [E1 E2]; [cbn [length]; lia|]. rewrite E1, E2.
  f_equal. apply IH. intros j Hj. apply H. cbn [length]. lia.
Qed.

Lemma st_int_ext (K : ops) cs k (g h : Z -> K) :
  (forall j, (k <= j < k + Z.of_nat (length cs))%Z -> g (j-1)%Z = h (j-1)%Z /\ g (-j)%Z = h (-j)%Z) ->
  st_int cs k g = st_int cs k h.
Proof.
  revert k; induction cs as [|c cs IH]; intros k H; cbn; [reflexivity|].
  destruct (H k) as [E1 E2]; [cbn [length]; lia|]. rewrite E1, E2.
  f_equal. apply IH. intros j Hj. apply H. cbn [length]. lia.
Qed.

Lemma st_half_ext (K : ops) cs k (g h : Z -> K) :
  (forall j, (k <= j < k + Z.of_nat (length cs))%Z -> g j = h j /\ g (1-j)%Z = h (1-j)%Z) ->
  st_half cs k g = st_half cs k h.
Proof.
  revert k; induction cs as [|c cs IH]; intros k H; cbn; [reflexivity|].
  destruct (H k) as [E1 E2]; [cbn [length]; lia|]. rewrite E1, E2.
  f_equal. apply IH. intros j Hj. apply H. cbn [length]. lia.
Qed.

Lemma DIFF1_ext (K : ops) a rd (g h : Z -> K) :
  (forall j, (- fd_pad a <= j <= fd_pad a)%Z -> j <> 0%Z -> g j = h j) -> DIFF1 a rd g = DIFF1 a rd h.
Proof.
  intros H. unfold DIFF1. f_equal. apply st_odd_ext.
  intros j Hj. split; apply H; destruct a; cbn in *; lia.
Qed.

Lemma DIFF2_ext (K : ops) a rd (g h : Z -> K) :
  (forall j, (- fd_pad a <= j <= fd_pad a)%Z -> g j = h j) -> DIFF2 a rd g = DIFF2 a rd h.
Proof.
  intros H. unfold DIFF2. f_equal. f_equal.
  - f_equal. apply H. destruct a; cbn; lia.
  - apply st_even_ext. intros j Hj. split; apply H; destruct a; cbn in *; lia.
Qed.

Lemma SDIFF1_ext (K : ops) a rd (g h : Z -> K) :
  (forall j, (- fd_pad a <= j <= fd_pad a - 1)%Z -> g j = h j) -> SDIFF1 a rd g = SDIFF1 a rd h.
Proof.
  intros H. unfold SDIFF1. f_equal. apply st_int_ext.
  intros j Hj. split; apply H; destruct a; cbn in *; lia.
Qed.

Lemma SDIFFH1_ext (K : ops) a rd (g h : Z -> K) :
  (forall j, (1 - fd_pad a <= j <= fd_pad a)%Z -> g j = h j) -> SDIFFH1 a rd g = SDIFFH1 a rd h.
Proof.
  intros H. unfold SDIFFH1. f_equal. apply st_half_ext.
  intros j Hj. split; apply H; destruct a; cbn in *; lia.
Qed.

(** ** Linearity and summation by parts *)

Section Laws.
Variable K : ops.
Hypothesis Kr : is_ring K.
Add Ring KRing : Kr.

Lemma st_odd_add cs k (g h : Z -> K) :
  st_odd cs k (fun j => g j + h j) = st_odd cs k g + st_odd cs k h.
Proof. revert k; induction cs as [|c cs IH]; intros k; cbn; [ring|]. rewrite IH. ring. Qed.
Lemma st_even_add cs k (g h : Z -> K) :
  st_even cs k (fun j => g j + h j) = st_even cs k g + st_even cs k h.
Proof. revert k; induction cs as [|c cs IH]; intros k; cbn; [ring|]. rewrite IH. ring. Qed.
Lemma st_int_add cs k (g h : Z -> K) :
  st_int cs k (fun j => g j + h j) = st_int cs k g + st_int cs k h.
Proof. revert k; induction cs as [|c cs IH]; intros k; cbn; [ring|]. rewrite IH. ring. Qed.
Lemma st_half_add cs k (g h : Z -> K) :
  st_half cs k (fun j => g j + h j) = st_half cs k g + st_half cs k h.
Proof. revert k; induction cs as [|c cs IH]; intros k; cbn; [ring|]. rewrite IH. ring. Qed.

Lemma st_odd_scal cs k x (g : Z -> K) :
  st_odd cs k (fun j => x * g j) = x * st_odd cs k g.
Proof. revert k; induction cs as [|c cs IH]; intros k; cbn; [ring|]. rewrite IH. ring. Qed.
Lemma st_even_scal cs k x (g : Z -> K) :
  st_even cs k (fun j => x * g j) = x * st_even cs k g.
Proof. revert k; induction cs as [|c cs IH]; intros k; cbn; [ring|]. rewrite IH. ring. Qed.
Lemma st_int_scal cs k x (g : Z -> K) :
  st_int cs k (fun j => x * g j) = x * st_int cs k g.
Proof. revert k; induction cs as [|c cs IH]; intros k; cbn; [ring|]. rewrite IH. ring. Qed.
Lemma st_half_scal cs k x (g : Z -> K) :
  st_half cs k (fun j => x * g j) = x * st_half cs k g.
Proof. revert k; induction cs as [|c cs IH]; intros k; cbn; [ring|]. rewrite IH. ring. Qed.

Lemma DIFF1_add a rd (g h : Z -> K) :
  DIFF1 a rd (fun j => g j + h j) = DIFF1 a rd g + DIFF1 a rd h.
Proof. unfold DIFF1. rewrite st_odd_add. ring. Qed.
Lemma DIFF1_scal a rd x (g : Z -> K) :
  DIFF1 a rd (fun j => x * g j) = x * DIFF1 a rd g.
Proof. unfold DIFF1. rewrite st_odd_scal. ring. Qed.
Lemma DIFF2_add a rd (g h : Z -> K) :
  DIFF2 a rd (fun j => g j + h j) = DIFF2 a rd g + DIFF2 a rd h.
Proof. unfold DIFF2. rewrite st_even_add. ring. Qed.
Lemma DIFF2_scal a rd x (g : Z -> K) :
  DIFF2 a rd (fun j => x * g j) = x * DIFF2 a rd g.
Proof. unfold DIFF2. rewrite st_even_scal. ring. Qed.
Lemma SDIFF1_add a rd (g h : Z -> K) :
  SDIFF1 a rd (fun j => g j + h j) = SDIFF1 a rd g + SDIFF1 a rd h.
Proof. unfold SDIFF1. rewrite st_int_add. ring. Qed.
Lemma SDIFF1_scal a rd x (g : Z -> K) :
  SDIFF1 a rd (fun j => x * g j) = x * SDIFF1 a rd g.
Proof. unfold SDIFF1. rewrite st_int_scal. ring. Qed.
Lemma SDIFFH1_add a rd (g h : Z -> K) :
  SDIFFH1 a rd (fun j => g j + h j) = SDIFFH1 a rd g + SDIFFH1 a rd h.
Proof. unfold SDIFFH1. rewrite st_half_add. ring. Qed.
Lemma SDIFFH1_scal a rd x (g : Z -> K) :
  SDIFFH1 a rd (fun j => x * g j) = x * SDIFFH1 a rd g.
Proof. unfold SDIFFH1. rewrite st_half_scal. ring. Qed.

Lemma st_odd_zero cs k (g : Z -> K) :
  (forall j, (k <= j < k + Z.of_nat (length cs))%Z -> g j = 0 /\ g (-j)%Z = 0) -> st_odd cs k g = 0.
Proof.
  revert k; induction cs as [|c cs IH]; intros k H; cbn; [reflexivity|].
  destruct (H k) as [E1 E2]; [cbn [length]; lia|]. rewrite E1, E2, IH; [ring|].
  intros j Hj. apply H. cbn [length]. lia.
Qed.
Lemma st_even_zero cs k (g : Z -> K) :
  (forall j, (k <= j < k + Z.of_nat (length cs))%Z -> g j = 0 /\ g (-j)%Z = 0) -> st_even cs k g = 0.
Proof.
  revert k; induction cs as [|c cs IH]; intros k H; cbn; [reflexivity|].
  destruct (H k) as [E1 E2]; [cbn [length]; lia|]. rewrite E1, E2, IH; [ring|].
  intros j Hj. apply H. cbn [length]. lia.
Qed.

Lemma DIFF1_zero a rd (g : Z -> K) :
  (forall j, (- fd_pad a <= j <= fd_pad a)%Z -> j <> 0%Z -> g j = 0) -> DIFF1 a rd g = 0.
Proof.
  intros H. unfold DIFF1. rewrite st_odd_zero; [ring|].
  intros j Hj. split; apply H; destruct a; cbn in *; lia.
Qed.
Lemma DIFF2_zero a rd (g : Z -> K) :
  (forall j, (- fd_pad a <= j <= fd_pad a)%Z -> g j = 0) -> DIFF2 a rd g = 0.
Proof.
  intros H. unfold DIFF2. rewrite st_even_zero, H; [ring| |].
  - destruct a; cbn; lia.
  - intros j Hj. split; apply H; destruct a; cbn in *; lia.
Qed.

Lemma dot_comm l (f g : field K) : dot l f g = dot l g f.
Proof. apply sumf_ext. intros; ring. Qed.
Lemma dot_add_l l (f g h : field K) : dot l (fun p => f p + g p) h = dot l f h + dot l g h.
Proof. unfold dot. rewrite <- sumf_add by exact Kr. apply sumf_ext. intros; ring. Qed.
Lemma dot_add_r l (f g h : field K) : dot l f (fun p => g p + h p) = dot l f g + dot l f h.
Proof. unfold dot. rewrite <- sumf_add by exact Kr. apply sumf_ext. intros; ring. Qed.

(** One shifted term. *)
Lemma dot_shift l d k (f g : field K) :
  NoDup l -> supp l f -> supp l g ->
  dot l f (fun p => g (shift d k p)) = dot l (fun p => f (shift d (- k) p)) g.
Proof.
  intros Hn Hf Hg. unfold dot.
  apply (sumf_shift K Kr pt_eq_dec (shift d k) (shift d (- k)%Z)); auto.
  - apply shift_neg.
  - apply shift_neg'.
Qed.

Lemma dot_shift' l d k (f g : field K) :
  NoDup l -> supp l f -> supp l g ->
  dot l f (fun p => g (shift d (- k) p)) = dot l (fun p => f (shift d k p)) g.
Proof.
  intros Hn Hf Hg. rewrite dot_shift by auto. replace (- - k)%Z with k by lia. reflexivity.
Qed.

Lemma dot_sub_r l (f g h : field K) : dot l f (fun p => g p - h p) = dot l f g - dot l f h.
Proof. unfold dot. rewrite <- sumf_sub by exact Kr. apply sumf_ext. intros; ring. Qed.
Lemma dot_sub_l l (f g h : field K) : dot l (fun p => f p - g p) h = dot l f h - dot l g h.
Proof. unfold dot. rewrite <- sumf_sub by exact Kr. apply sumf_ext. intros; ring. Qed.
Lemma dot_scal_r l c (f g : field K) : dot l f (fun p => c * g p) = c * dot l f g.
Proof. unfold dot. rewrite <- sumf_scal by exact Kr. apply sumf_ext. intros; ring. Qed.
Lemma dot_scal_l l c (f g : field K) : dot l (fun p => c * f p) g = c * dot l f g.
Proof. unfold dot. rewrite <- sumf_scal by exact Kr. apply sumf_ext. intros; ring. Qed.
Lemma dot_ext l (f g f' g' : field K) :
  (forall p, In p l -> f p = f' p) -> (forall p, In p l -> g p = g' p) -> dot l f g = dot l f' g'.
Proof. intros H1 H2. apply sumf_ext. intros p Hp. rewrite H1, H2; auto. Qed.
Lemma dot_zero_l l (f g : field K) : (forall p, In p l -> f p = 0) -> dot l f g = 0.
Proof. intros H. apply sumf_zero; [exact Kr|]. intros p Hp. rewrite H by exact Hp. ring. Qed.

Lemma st_odd_sbp l d cs k (f g : field K) :
  NoDup l -> supp l f -> supp l g ->
  dot l f (fun p => st_odd cs k (fun j => g (shift d j p)))
  = - dot l (fun p => st_odd cs k (fun j => f (shift d j p))) g.
Proof.
  intros Hn Hf Hg. revert k; induction cs as [|c cs IH]; intros k; cbn.
  - unfold dot. rewrite !sumf_zero by (auto; intros; ring). ring.
  - rewrite dot_add_r, dot_scal_r, dot_sub_r, dot_add_l, dot_scal_l, dot_sub_l, IH.
    rewrite dot_shift', dot_shift by auto. ring.
Qed.

Lemma st_even_sbp l d cs k (f g : field K) :
  NoDup l -> supp l f -> supp l g ->
  dot l f (fun p => st_even cs k (fun j => g (shift d j p)))
  = dot l (fun p => st_even cs k (fun j => f (shift d j p))) g.
Proof.
  intros Hn Hf Hg. revert k; induction cs as [|c cs IH]; intros k; cbn.
  - unfold dot. rewrite !sumf_zero by (auto; intros; ring). ring.
  - rewrite dot_add_r, dot_scal_r, dot_add_r, dot_add_l, dot_scal_l, dot_add_l, IH.
    rewrite dot_shift', dot_shift by auto. ring.
Qed.

Lemma st_stag_sbp l d cs k (f g : field K) :
  NoDup l -> supp l f -> supp l g ->
  dot l f (fun p => st_int cs k (fun j => g (shift d j p)))
  = - dot l (fun p => st_half cs k (fun j => f (shift d j p))) g.
Proof.
  intros Hn Hf Hg. revert k; induction cs as [|c cs IH]; intros k; cbn.
  - unfold dot. rewrite !sumf_zero by (auto; intros; ring). ring.
  - rewrite dot_add_r, dot_scal_r, dot_sub_r, dot_add_l, dot_scal_l, dot_sub_l, IH.
    rewrite dot_shift', dot_shift by auto.
    replace (- (k - 1))%Z with (1 - k)%Z by lia. ring.
Qed.

(** The three (anti)symmetries. *)
Lemma D1_sbp l a rd d (f g : field K) :
  NoDup l -> supp l f -> supp l g -> dot l f (D1 a rd d g) = - dot l (D1 a rd d f) g.
Proof.
  intros Hn Hf Hg. unfold D1, DIFF1.
  rewrite (dot_ext l f (fun p => st_odd (coef1 a) 1 (fun j => g (shift d j p)) * rd)
             f (fun p => rd * st_odd (coef1 a) 1 (fun j => g (shift d j p)))) by (intros; ring).
  rewrite (dot_ext l (fun p => st_odd (coef1 a) 1 (fun j => f (shift d j p)) * rd) g
             (fun p => rd * st_odd (coef1 a) 1 (fun j => f (shift d j p))) g) by (intros; ring).
  rewrite dot_scal_r, dot_scal_l, st_odd_sbp by auto. ring.
Qed.

Lemma D2_sbp l a rd d (f g : field K) :
  NoDup l -> supp l f -> supp l g -> dot l f (D2 a rd d g) = dot l (D2 a rd d f) g.
Proof.
  intros Hn Hf Hg. unfold D2, DIFF2.
  rewrite (dot_ext l f _
             f (fun p => rd * (oq K (coef2c a) * g p + st_even (coef2 a) 1 (fun j => g (shift d j p)))))
    by (intros; rewrite ?shift_0; ring).
  rewrite (dot_ext l _ g
             (fun p => rd * (oq K (coef2c a) * f p + st_even (coef2 a) 1 (fun j => f (shift d j p)))) g)
    by (intros; rewrite ?shift_0; ring).
  rewrite dot_scal_r, dot_scal_l, dot_add_r, dot_add_l, dot_scal_r, dot_scal_l.
  rewrite st_even_sbp by auto. ring.
Qed.

Lemma SD1_sbp l a rd d (f g : field K) :
  NoDup l -> supp l f -> supp l g -> dot l f (SD1 a rd d g) = - dot l (SDH1 a rd d f) g.
Proof.
  intros Hn Hf Hg. unfold SD1, SDIFF1, SDH1, SDIFFH1.
  rewrite (dot_ext l f (fun p => st_int (coefs a) 1 (fun j => g (shift d j p)) * rd)
             f (fun p => rd * st_int (coefs a) 1 (fun j => g (shift d j p)))) by (intros; ring).
  rewrite (dot_ext l (fun p => st_half (coefs a) 1 (fun j => f (shift d j p)) * rd) g
             (fun p => rd * st_half (coefs a) 1 (fun j => f (shift d j p))) g) by (intros; ring).
  rewrite dot_scal_r, dot_scal_l, st_stag_sbp by auto. ring.
Qed.

Lemma SDH1_sbp l a rd d (f g : field K) :
  NoDup l -> supp l f -> supp l g -> dot l f (SDH1 a rd d g) = - dot l (SD1 a rd d f) g.
Proof.
  intros Hn Hf Hg. rewrite (dot_comm l (SD1 a rd d f) g), SD1_sbp by auto.
  rewrite (dot_comm l f). ring.
Qed.

End Laws.
