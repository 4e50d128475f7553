(** * Time loop and forward driver of the compiled scalar propagator. *)
From Coq Require Import List ZArith QArith Ring Ring_theory Lia Bool Permutation.
From Verif Require Import Ops Sums Grid Stencil ScalarModel ScalarRefine.
Import ListNotations.
Local Open Scope K_scope.

Lemma zrange_nil lo hi : (hi <= lo)%Z -> zrange lo hi = [].
Proof. intros H. unfold zrange. replace (Z.to_nat (hi - lo)) with 0%nat by lia. reflexivity. Qed.

Lemma zrange_cons lo hi : (lo < hi)%Z -> zrange lo hi = lo :: zrange (lo + 1) hi.
Proof.
  intros H. unfold zrange. replace (Z.to_nat (hi - lo)) with (S (Z.to_nat (hi - (lo + 1)))) by lia.
  cbn [seq map]. f_equal; [lia|]. rewrite <- seq_shift, map_map. apply map_ext. intros; lia.
Qed.

Lemma zrange_app a b c : (a <= b <= c)%Z -> zrange a c = zrange a b ++ zrange b c.
Proof.
  intros H. remember (Z.to_nat (b - a)) as n eqn:E. revert a H E.
  induction n as [|n IH]; intros a H E.
  - replace b with a by lia. rewrite (zrange_nil a a) by lia. reflexivity.
  - rewrite (zrange_cons a c), (zrange_cons a b) by lia. cbn. f_equal. apply IH; lia.
Qed.

Lemma zrange_snoc lo hi : (lo < hi)%Z -> zrange lo hi = zrange lo (hi - 1) ++ [(hi - 1)%Z].
Proof.
  intros H. rewrite (zrange_app lo (hi - 1) hi) by lia. f_equal.
  rewrite zrange_cons, zrange_nil by lia. reflexivity.
Qed.

Section Run.
Variable K : ops.
Variable P : par K.

Notation state := (state K P).

Lemma state_S v f n t s : state v f (S n) t s = state v f n (t + 1)%Z (step K P (v t) (f t) s).
Proof. reflexivity. Qed.

Lemma state_add v f n k t s :
  state v f (n + k) t s = state v f k (t + Z.of_nat n)%Z (state v f n t s).
Proof.
  revert t s. induction n as [|n IH]; intros t s.
  - cbn [plus ScalarModel.state]. f_equal. lia.
  - cbn [plus]. rewrite !state_S, IH. f_equal. lia.
Qed.

Lemma state_S_last v f n t s :
  state v f (S n) t s
  = step K P (v (t + Z.of_nat n)%Z) (f (t + Z.of_nat n)%Z) (state v f n t s).
Proof. replace (S n) with (n + 1)%nat by lia. rewrite state_add. reflexivity. Qed.

End Run.

Section Forward.
Variable K : ops.
Hypothesis Kr : is_ring K.
Add Ring KRing : Kr.
Variable P : par K.
Notation shape := (p_shape P).
Notation inint p := (interior K P p = true).

Variables pml0 pml1 : nat -> Z.
Hypothesis Hprof : prof_ok K P pml0 pml1.
Variable vis : list (list Z * pt).
Hypothesis Hvis : vis_ok K P pml0 pml1 vis.
Hypothesis Hsrc : Forall (loc_ok K P) (p_src P).
Hypothesis Hrec : Forall (loc_ok K P) (p_rec P).
Variable v : arr K.
Variable vf : field K.
Hypothesis Hv : forall p, inint p -> v (idx shape p) = vf p.
Variable vrg : bool.
Variable sr : Z.
Hypothesis Hsr : (0 < sr)%Z.
Variable f : Z -> list K.

Notation stt := (state K P (fun _ => vf) f).
Notation Rel := (rel K P pml0 pml1).
Definition rzero (m : cmem K) (t : Z) (n : nat) : Prop :=
  forall u, (t <= u < t + Z.of_nat n)%Z -> m_r K m u = map (fun _ => 0) (p_rec P).

(** [m'] is the memory after the steps [t .. t+n-1] from memory [m] representing [s]. *)
Definition fspec (t : Z) (n : nat) (m : cmem K) (s : st K) (m' : cmem K) : Prop :=
  Rel m' (stt n t s) /\
  (forall k, (k < n)%nat -> m_r K m' (t + Z.of_nat k)%Z = gather K P (p_rec P) (s_wfc K (stt k t s))) /\
  (forall u, ~ (t <= u < t + Z.of_nat n)%Z -> m_r K m' u = m_r K m u) /\
  (vrg = true -> forall k, (k < n)%nat -> ((t + Z.of_nat k) mod sr = 0)%Z -> forall p, inint p ->
     m_store K m' ((t + Z.of_nat k) / sr)%Z (idx shape p)
     = two * vf p * p_dt2 P * wsum K P (stt k t s) p) /\
  (forall j i, (vrg = true -> forall u, (t <= u < t + Z.of_nat n)%Z -> (u mod sr = 0)%Z -> j <> (u / sr)%Z) ->
     m_store K m' j i = m_store K m j i).

Lemma fspec_0 t m s : Rel m s -> fspec t 0 m s m.
Proof.
  intros H. split; [exact H|]. split; [lia|]. split; [reflexivity|]. split; [lia|]. reflexivity.
Qed.

Lemma fspec_app t n k m s m1 m2 :
  fspec t n m s m1 -> fspec (t + Z.of_nat n)%Z k m1 (stt n t s) m2 ->
  fspec t (n + k) m s m2.
Proof.
  intros (A1 & A2 & A3 & A4 & A5) (B1 & B2 & B3 & B4 & B5).
  split; [rewrite state_add; exact B1|]. split; [|split; [|split]].
  - intros i Hi. destruct (Nat.lt_ge_cases i n) as [L|L].
    + rewrite B3 by lia. apply A2. exact L.
    + replace i with (n + (i - n))%nat by lia. rewrite state_add.
      replace (t + Z.of_nat (n + (i - n)))%Z with (t + Z.of_nat n + Z.of_nat (i - n))%Z by lia.
      apply B2. lia.
  - intros u Hu. rewrite B3, A3 by lia. reflexivity.
  - intros Hg i Hi Hm p Hp. destruct (Nat.lt_ge_cases i n) as [L|L].
    + rewrite B5; [apply A4; auto|]. intros _ u Hu Hum E.
      pose proof (Z.div_mod u sr). pose proof (Z.div_mod (t + Z.of_nat i) sr). nia.
    + replace i with (n + (i - n))%nat in * by lia. rewrite state_add.
      replace (t + Z.of_nat (n + (i - n)))%Z with (t + Z.of_nat n + Z.of_nat (i - n))%Z in * by lia.
      apply B4; auto. lia.
  - intros j i Hj. rewrite B5, A5; [reflexivity| |];
      intros Hg u Hu Hum; apply (Hj Hg u); auto; lia.
Qed.

Lemma c_swap_swap (m : cmem K) : c_swap K (c_swap K m) = m.
Proof. destruct m; reflexivity. Qed.
Lemma c_swap_r (m : cmem K) : m_r K (c_swap K m) = m_r K m.
Proof. reflexivity. Qed.

(** One step followed by a change of names. *)
Definition bs (m : cmem K) (t : Z) : cmem K := c_swap K (c_fwd_body K P v vis vrg sr f t m).

Lemma fspec_1 t m s : Rel m s -> rzero m t 1 -> fspec t 1 m s (bs m t).
Proof.
  intros Hr Hz.
  pose proof (c_fwd_body_spec K Kr P pml0 pml1 Hprof v vf vis vrg sr f t m s
                Hvis Hsrc Hrec Hv Hr (Hz t ltac:(lia))) as B. cbv zeta in B.
  destruct B as (B1 & B2 & B3 & B4 & B5). unfold bs.
  split; [exact B1|]. split; [|split; [|split]].
  - intros k Hk. replace k with 0%nat by lia. cbn [state]. rewrite c_swap_r.
    replace (t + Z.of_nat 0)%Z with t by lia. exact B2.
  - intros u Hu. rewrite c_swap_r. apply B3. lia.
  - intros Hg k Hk. replace k with 0%nat by lia. cbn [state].
    replace (t + Z.of_nat 0)%Z with t by lia. intros Hm p Hp. apply B4; auto.
  - intros j i Hj. apply B5. intros [Hg Ht]. apply Hj; auto. lia.
Qed.

Lemma fspec_iter n t m s :
  Rel m s -> rzero m t n ->
  fspec t n m s (fold_left bs (zrange t (t + Z.of_nat n)) m).
Proof.
  revert t m s. induction n as [|n IH]; intros t m s Hr Hz.
  - rewrite zrange_nil by lia. apply fspec_0. exact Hr.
  - rewrite zrange_cons by lia. cbn [fold_left].
    assert (H1 : fspec t 1 m s (bs m t)).
    { apply fspec_1; auto. intros u Hu. apply Hz. lia. }
    apply (fspec_app t 1 n m s (bs m t)); [exact H1|].
    replace (t + Z.of_nat (S n))%Z with ((t + Z.of_nat 1) + Z.of_nat n)%Z by lia.
    replace (t + 1)%Z with (t + Z.of_nat 1)%Z by lia. apply IH.
    + apply H1.
    + intros u Hu. destruct H1 as (_ & _ & H3 & _). rewrite H3 by lia. apply Hz. lia.
Qed.

(** The parity selection of buffers is the same as renaming after every step. *)
Definition view (par : Z) (m : cmem K) : cmem K := if Z.odd par then c_swap K m else m.

Lemma c_forward_view n t0 t m :
  view (t + Z.of_nat n - t0) (fold_left (c_fwd_t K P v vis vrg sr f t0) (zrange t (t + Z.of_nat n)) m)
  = fold_left bs (zrange t (t + Z.of_nat n)) (view (t - t0) m).
Proof.
  revert t m. induction n as [|n IH]; intros t m.
  - rewrite zrange_nil by lia. cbn [fold_left]. f_equal. lia.
  - rewrite zrange_cons by lia. cbn [fold_left].
    replace (t + Z.of_nat (S n))%Z with ((t + 1) + Z.of_nat n)%Z by lia.
    rewrite IH. f_equal. unfold view, c_fwd_t, bs.
    replace (t + 1 - t0)%Z with (Z.succ (t - t0)) by lia.
    rewrite Z.odd_succ, <- Z.negb_odd.
    destruct (Z.odd (t - t0)); cbn [negb]; [|reflexivity]. reflexivity.
Qed.

Lemma fspec_c_forward n t m s :
  Rel m s -> rzero m t n ->
  fspec t n m s (view (Z.of_nat n) (c_forward K P v vis vrg sr f (Z.of_nat n) t m)).
Proof.
  intros Hr Hz. unfold c_forward.
  replace (Z.of_nat n) with (t + Z.of_nat n - t)%Z at 1 by lia.
  rewrite c_forward_view. replace (t - t)%Z with 0%Z by lia. apply fspec_iter; auto.
Qed.

(** ** Chunks *)

Lemma mod2_odd z : (z mod 2 =? 0)%Z = negb (Z.odd z).
Proof. rewrite Zmod_odd. destruct (Z.odd z); reflexivity. Qed.

Lemma fspec_chunk n c x m s :
  (0 <= x)%Z -> (x < n)%Z -> (0 < c)%Z -> 
  let k := Z.to_nat (Z.min (n - x) c * sr) in
  Rel m s -> rzero m (x * sr) k ->
  fspec (x * sr) k m s (fwd_chunk K P v vis vrg sr f n c m x).
Proof.
  intros Hx Hxn Hc k Hr Hz. unfold fwd_chunk.
  assert (Ek : (Z.min (n - x) c * sr)%Z = Z.of_nat k) by (unfold k; nia).
  rewrite Ek, mod2_odd.
  pose proof (fspec_c_forward k (x * sr) m s Hr Hz) as H. unfold view in H.
  destruct (Z.odd (Z.of_nat k)); exact H.
Qed.

Lemma range_up_cons_aux n c i :
  (0 < c)%Z -> (0 <= i)%Z -> (i * c < n)%Z ->
  map (fun i => i * c)%Z (zrange i ((n + c - 1) / c)) =
  (i * c)%Z :: map (fun i => i * c)%Z (zrange (i + 1) ((n + c - 1) / c)).
Proof.
  intros Hc Hi Hn. rewrite zrange_cons; [reflexivity|].
  assert (i + 1 <= (n + c - 1) / c)%Z; [|lia].
  apply Z.div_le_lower_bound; lia.
Qed.

Lemma fspec_chunks n c m s :
  (0 < c)%Z -> (0 <= n)%Z -> Rel m s -> rzero m 0 (Z.to_nat (n * sr)) ->
  fspec 0 (Z.to_nat (n * sr)) m s
    (fold_left (fwd_chunk K P v vis vrg sr f n c) (range_up n c) m).
Proof.
  intros Hc Hn Hr Hz. unfold range_up.
  assert (G : forall q i m1, (q = Z.to_nat ((n + c - 1) / c - i))%nat -> (0 <= i)%Z ->
    fspec 0 (Z.to_nat (Z.min (i * c) n * sr)) m s m1 ->
    fspec 0 (Z.to_nat (n * sr)) m s
      (fold_left (fwd_chunk K P v vis vrg sr f n c)
         (map (fun i => i * c)%Z (zrange i ((n + c - 1) / c))) m1)).
  { induction q as [|q IH]; intros i m1 Eq Hi H1.
    - assert ((n + c - 1) / c <= i)%Z by lia.
      assert (n <= i * c)%Z.
      { assert ((n + c - 1) / c < i + 1)%Z by lia.
        pose proof (Z.mul_succ_div_gt (n + c - 1) c). nia. }
      rewrite zrange_nil by lia. cbn. rewrite Z.min_r in H1 by lia. exact H1.
    - assert (i + 1 <= (n + c - 1) / c)%Z by lia.
      assert (i * c < n)%Z.
      { pose proof (Z.mul_div_le (n + c - 1) c). nia. }
      rewrite range_up_cons_aux by lia. cbn [fold_left]. apply (IH (i + 1)%Z); [lia|lia|].
      rewrite Z.min_l in H1 by lia.
      assert (E : Z.to_nat (Z.min ((i + 1) * c) n * sr) =
              (Z.to_nat (i * c * sr) + Z.to_nat (Z.min (n - i * c) c * sr))%nat).
      { rewrite <- Z2Nat.inj_add by nia. f_equal. nia. }
      rewrite E. eapply fspec_app; [exact H1|].
      replace (0 + Z.of_nat (Z.to_nat (i * c * sr)))%Z with (i * c * sr)%Z by nia.
      apply fspec_chunk; try nia.
      + apply H1.
      + intros u Hu. destruct H1 as (_ & _ & H3 & _). rewrite H3 by nia. apply Hz. nia. }
  apply (G (Z.to_nat ((n + c - 1) / c - 0)) 0%Z m); [reflexivity|lia|].
  replace (Z.to_nat (Z.min (0 * c) n * sr)) with 0%nat by nia. apply fspec_0. exact Hr.
Qed.

End Forward.
