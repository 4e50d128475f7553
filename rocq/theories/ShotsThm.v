(** * Batches of shots: statements for the user functions. *)
From Coq Require Import List ZArith QArith Lia Bool Ring Permutation.
From Verif Require Import Ops Sums Grid Stencil ScalarModel ScalarRefine ScalarForward ScalarBackward ScalarFunc Param ShotsModel Shots ShotsRun.
Import ListNotations.
Local Open Scope K_scope.

Section Single.
Variable K : ops.
Hypothesis Kr : is_ring K.
Add Ring KRing : Kr.
Variable P : par K.
Variable pw : nat -> Z * Z.
Hypothesis Hg : geom_ok K P pw.
Hypothesis Hsrc : Forall (loc_ok K P) (p_src P).
Hypothesis Hrec : Forall (loc_ok K P) (p_rec P).
Notation shape := (p_shape P).

Lemma fvis_in vis reg p : fvis K P pw vis -> In (reg, p) vis -> interior K P p = true.
Proof. intros H Hi. apply (fvis_ok K P pw Hg) in H. destruct H as (_ & H & _). apply H. eauto. Qed.
Lemma bvis_in vis reg p : bvis K P pw vis -> In (reg, p) vis -> interior K P p = true.
Proof. intros H Hi. apply (bvis_ok K P pw Hg) in H. destruct H as (_ & H & _). apply H. eauto. Qed.

Lemma gv_cases (A B : arr K) (g : pt -> K) :
  (forall p, interior K P p = true -> A (idx shape p) = g p) ->
  (forall j, (forall p, interior K P p = true -> idx shape p <> j) -> A j = 0) ->
  (forall p, interior K P p = true -> B (idx shape p) = g p) ->
  (forall j, (forall p, interior K P p = true -> idx shape p <> j) -> B j = 0) ->
  forall j, A j = B j.
Proof.
  intros A1 A2 B1 B2 j.
  destruct (interior K P (unidx shape j)) eqn:E.
  - destruct (Z.eqb_spec (idx shape (unidx shape j)) j) as [Ej|Ej].
    + rewrite <- Ej. rewrite A1, B1 by exact E. reflexivity.
    + rewrite A2, B2; [reflexivity| |]; intros p Hp Hc; apply Ej; rewrite <- Hc, unidx_idx; auto; apply (inint_arr K P); exact Hp.
  - rewrite A2, B2; [reflexivity| |]; intros p Hp Hc; rewrite <- Hc, unidx_idx in E; try congruence; apply (inint_arr K P); exact Hp.
Qed.

(** One shot: gradients do not depend on the chunks, nor on the visiting order. *)
Lemma scalar_backward_chunks (v : arr K) vis vis' store vrg sr gr nt cb cb' g :
  bvis K P pw vis -> bvis K P pw vis' -> (0 < sr)%Z -> cb_ok nt sr cb -> cb_ok nt sr cb' ->
  exists G0 gf gv G0' gf' gv',
    scalar_backward K P pw v vis store vrg sr gr nt cb g = Some (G0, gf, gv) /\
    scalar_backward K P pw v vis' store vrg sr gr nt cb' g = Some (G0', gf', gv') /\
    ueq K P G0 G0' /\ (forall t, gf t = gf' t) /\ (forall j, gv j = gv' j).
Proof.
  intros Hv Hv' Hs Hc Hc'.
  destruct (scalar_backward_spec K Kr P pw Hg Hsrc Hrec v vis store vrg sr gr nt cb g Hv Hs Hc) as (G0 & gf & gv & E & A1 & A2 & A3 & A4 & A5).
  destruct (scalar_backward_spec K Kr P pw Hg Hsrc Hrec v vis' store vrg sr gr nt cb' g Hv' Hs Hc') as (G0' & gf' & gv' & E' & B1 & B2 & B3 & B4 & B5).
  exists G0, gf, gv, G0', gf', gv'. split; [exact E|]. split; [exact E'|]. split; [|split].
  - intros q Hq. destruct (A1 q Hq) as (a1 & a2 & a3). destruct (B1 q Hq) as (b1 & b2 & b3).
    split; [congruence|]. split; [congruence|]. intros d Hd. destruct (a3 d Hd), (b3 d Hd). split; congruence.
  - intros t. destruct (Z_lt_le_dec t 0) as [Ht|Ht]; [rewrite A3, B3 by lia; reflexivity|].
    destruct (Z_lt_le_dec t (Z.of_nat (nsteps nt sr))) as [Ht2|Ht2]; [|rewrite A3, B3 by lia; reflexivity].
    replace t with (Z.of_nat (Z.to_nat t)) by lia. rewrite A2, B2 by lia. reflexivity.
  - eapply gv_cases; eassumption.
Qed.
End Single.

Section Thm.
Variable K : ops.
Hypothesis Kr : is_ring K.
Add Ring KRing3 : Kr.
Variable P0 : par K.
Variable pw : nat -> Z * Z.
Variables NS nsrc nrec : Z.
Variables srcs recs : Z -> Z.
Variable batched : bool.
Notation shape := (p_shape P0).
Notation n := (prodZ shape).
Notation SP := (shot_par K P0 nsrc nrec srcs recs).
Hypothesis Hg : geom_ok K P0 pw.
Hypothesis Hnsrc : (0 <= nsrc)%Z.
Hypothesis Hnrec : (0 <= nrec)%Z.
Hypothesis Hsrc : forall j, (0 <= j < NS * nsrc)%Z -> loc_ok K P0 (srcs j).
Hypothesis Hrec : forall j, (0 <= j < NS * nrec)%Z -> loc_ok K P0 (recs j).

Lemma prodZ_pos s : Forall (fun x => (0 < x)%Z) s -> (0 < prodZ s)%Z.
Proof. induction 1 as [|x l Hx _ IH]; cbn [prodZ]; [lia|]. apply Z.mul_pos_pos; assumption. Qed.

Lemma n_pos : (0 < n)%Z.
Proof.
  apply prodZ_pos. apply Forall_nth. intros d x Hd. rewrite (nth_indep _ x 0%Z) by exact Hd.
  destruct (Hg d Hd) as (H1 & H2 & H3 & _). pose proof (fd_pad_pos (p_acc P0)). lia.
Qed.

Lemma loc_lt l : loc_ok K P0 l -> (l < n)%Z.
Proof. pose proof n_pos. intros [H1|[H1 _]]; lia. Qed.

Lemma Hsrc' j : (0 <= j < NS * nsrc)%Z -> (srcs j < n)%Z.
Proof. intros H. apply loc_lt, Hsrc, H. Qed.
Lemma Hrec' j : (0 <= j < NS * nrec)%Z -> (recs j < n)%Z.
Proof. intros H. apply loc_lt, Hrec, H. Qed.

Lemma SP_loc_src k : (0 <= k < NS)%Z -> Forall (loc_ok K (SP k)) (p_src (SP k)).
Proof.
  intros Hk. apply Forall_forall. intros x Hx. apply row_In in Hx. destruct Hx as (j & Hj & ->).
  apply Hsrc. nia.
Qed.
Lemma SP_loc_rec k : (0 <= k < NS)%Z -> Forall (loc_ok K (SP k)) (p_rec (SP k)).
Proof.
  intros Hk. apply Forall_forall. intros x Hx. apply row_In in Hx. destruct Hx as (j & Hj & ->).
  apply Hrec. nia.
Qed.

(** Forward. *)
Lemma shots_forward (v : arr K) vis vrg sr f nt cb sched store0 u k :
  fvis K P0 pw vis -> fsched_ok NS vis sr nt cb sched -> (0 < sr)%Z -> cb_ok nt sr cb -> (0 <= k < NS)%Z ->
  exists U R St U1 R1 St1,
    batch_forward K P0 nsrc nrec srcs recs batched pw v vrg sr f nt cb sched store0 u = Some (U, R, St) /\
    scalar_forward K (SP k) pw (shot_v K P0 batched v k) vis vrg sr (fun t => row (f t) nsrc k) nt cb
      (fun s => sh K P0 k (store0 s)) (u k) = Some (U1, R1, St1) /\
    ueq K P0 (U k) U1 /\ (forall t, row (R t) nrec k = R1 t) /\
    (forall s i, (0 <= i < n)%Z -> St s (k * n + i)%Z = St1 s i).
Proof.
  intros Hv Hs Hsr Hcb Hk.
  pose proof (batch_forward_shot K Kr P0 NS nsrc nrec srcs recs batched Hnsrc Hnrec Hsrc' Hrec' pw v vis vrg sr f nt cb sched store0 u k
    (fun reg p H => fvis_in K P0 pw Hg vis reg p Hv H) Hs Hk) as H.
  destruct (scalar_forward_spec K Kr (SP k) pw Hg (SP_loc_src k Hk) (SP_loc_rec k Hk) (shot_v K P0 batched v k) vis vrg sr
    (fun t => row (f t) nsrc k) nt cb (fun s => sh K P0 k (store0 s)) (u k) Hv Hsr Hcb) as (U1 & R1 & S1 & E & _).
  rewrite E in H. destruct (batch_forward _ _ _ _ _ _ _ _ _ _ _ _ _ _ _ _ _) as [[[U R] St]|]; [|contradiction].
  exists U, R, St, U1, R1, S1. split; [reflexivity|]. split; [exact E|exact H].
Qed.

Section B.
Variables (v : arr K) (store : Z -> arr K) (vrg : bool) (sr : Z) (gr : Z -> arr K) (nt : Z) (g : Z -> st K).
Hypothesis Hsr : (0 < sr)%Z.
Notation batch nthr th cb sched := (batch_backward K P0 nsrc nrec srcs recs batched pw nthr th v store vrg sr gr nt cb sched g).
Notation single k vis cb := (scalar_backward K (SP k) pw (shot_v K P0 batched v k) vis (fun s => sh K P0 k (store s)) vrg sr
                        (fun t => row (gr t) nrec k) nt cb (g k)).

Lemma single_some k vis cb : (0 <= k < NS)%Z -> bvis K P0 pw vis -> cb_ok nt sr cb -> exists G0 gf gv, single k vis cb = Some (G0, gf, gv).
Proof.
  intros Hk Hv Hcb.
  destruct (scalar_backward_spec K Kr (SP k) pw Hg (SP_loc_src k Hk) (SP_loc_rec k Hk) (shot_v K P0 batched v k) vis
    (fun s => sh K P0 k (store s)) vrg sr (fun t => row (gr t) nrec k) nt cb (g k) Hv Hsr Hcb) as (a & b & c & E & _).
  exists a, b, c. exact E.
Qed.

Lemma batch_some nthr th cb sched : cb_ok nt sr cb -> exists U f gv, batch nthr th cb sched = Some (U, f, gv).
Proof.
  intros Hcb. unfold batch_backward. destruct (Z.leb_spec nt 0); [eexists _, _, _; reflexivity|].
  assert (Hc : (match cb with Some c => c | None => nt / sr end)%Z <> 0%Z).
  { destruct cb as [c|]; cbn in Hcb; [lia|]. pose proof (Z.div_str_pos nt sr). lia. }
  destruct (Z.eqb_spec (match cb with Some c => c | None => nt / sr end)%Z 0); [contradiction|].
  eexists _, _, _; reflexivity.
Qed.

(** Gradients of wavefields and sources. *)
Lemma shots_backward nthr th cb sched vis k :
  bvis K P0 pw vis -> bsched_ok NS vis sr nt cb sched -> cb_ok nt sr cb -> (0 <= k < NS)%Z ->
  exists U f gv U1 f1 gv1,
    batch nthr th cb sched = Some (U, f, gv) /\ single k vis cb = Some (U1, f1, gv1) /\
    ueq K P0 (U k) U1 /\ (forall t, row (f t) nsrc k = f1 t).
Proof.
  intros Hv Hs Hcb Hk.
  pose proof (batch_backward_shot K Kr P0 NS nsrc nrec srcs recs batched Hnsrc Hnrec Hsrc' Hrec' pw v store vrg sr gr vis nthr th sched
    nt cb g (fun reg p H => bvis_in K P0 pw Hg vis reg p Hv H) Hs k Hk) as H.
  destruct (single_some k vis cb Hk Hv Hcb) as (U1 & f1 & g1 & E). rewrite E in H.
  destruct (batch_some nthr th cb sched Hcb) as (U & f & gv & E'). rewrite E' in H.
  exists U, f, gv, U1, f1, g1. split; [exact E'|]. split; [exact E|exact H].
Qed.

(** Value of the gradient returned by a single-shot run. *)
Definition gv_of (x : option (st K * (Z -> list K) * arr K)) : arr K :=
  match x with Some (_, _, gv) => gv | None => fun _ => 0 end.

(** Model gradient: batched, or one thread, or several threads without callbacks. *)
Lemma shots_gradient nthr th cb sched vis :
  bvis K P0 pw vis -> bsched_ok NS vis sr nt cb sched -> cb_ok nt sr cb ->
  (forall s k, (0 <= k < NS)%Z -> (0 <= th s k < nthr)%Z) ->
  vrg = true -> (batched = true \/ nthr = 1%Z \/ cb = None) ->
  exists U f gv, batch nthr th cb sched = Some (U, f, gv) /\
    if batched
    then forall k i, (0 <= k < NS)%Z -> (0 <= i < n)%Z -> gv (k * n + i)%Z = gv_of (single k vis cb) i
    else forall i, (0 <= i < n)%Z -> gv i = sumf (zrange 0 NS) (fun k => gv_of (single k vis cb) i).
Proof.
  intros Hv Hs Hcb Hth Hvrg Hcase. destruct (batch_some nthr th cb sched Hcb) as (U & f & gv & E).
  exists U, f, gv. split; [exact E|].
  assert (HG : forall k, (0 <= k < NS)%Z -> match single k vis cb with Some (_, _, gv1) => gv_of (single k vis cb) = gv1 | None => False end).
  { intros k Hk. destruct (single_some k vis cb Hk Hv Hcb) as (a & b & c & E1). rewrite E1. reflexivity. }
  pose proof (fun reg p H => bvis_in K P0 pw Hg vis reg p Hv H) as Hin.
  destruct (separate batched vrg nthr) eqn:Esep.
  - pose proof Esep as Es2. unfold separate in Es2. rewrite Hvrg in Es2. cbn [andb] in Es2. apply andb_true_iff in Es2.
    destruct Es2 as [Eb Et]. apply negb_true_iff in Eb. apply Z.ltb_lt in Et.
    assert (cb = None) as -> by (destruct Hcase as [H|[H|H]]; [congruence|lia|exact H]).
    destruct (Z_lt_le_dec 0 (nt / sr)) as [HN|HN].
    + assert (X : forall i, (0 <= i < n)%Z -> gv i = sumf (zrange 0 NS) (fun k => gv_of (single k vis None) i)); [|destruct batched; [discriminate Eb|exact X]].
      intros i Hi. apply (batch_gv_separate K Kr P0 NS nsrc nrec srcs recs batched Hnsrc Hnrec Hsrc' Hrec' pw v store vrg sr gr vis nthr th sched
        nt None g Hin Hs Hsr Esep eq_refl HN Hth (fun k => gv_of (single k vis None)) HG U f gv E i Hi).
    + assert (X : forall i, (0 <= i < n)%Z -> gv i = sumf (zrange 0 NS) (fun k => gv_of (single k vis None) i)); [|destruct batched; [discriminate Eb|exact X]].
      assert (Hn : (nt <= 0)%Z).
      { cbn in Hcb. destruct Hcb; [lia|]. pose proof (Z.div_str_pos nt sr). lia. }
      intros i Hi. revert E. unfold batch_backward. destruct (Z.leb_spec nt 0); [|lia]. rewrite Esep. intros E. injection E as _ _ <-.
      symmetry. apply (sumf_zero K Kr). intros k Hk. apply In_zrange in Hk. unfold scalar_backward, bwd_driver.
      destruct (Z.leb_spec nt 0); [|lia]. reflexivity.
  - destruct batched eqn:Eb.
    + intros k i Hk Hi.
      pose proof (batch_gv_blocks K Kr P0 NS nsrc nrec srcs recs true Hnsrc Hnrec Hsrc' Hrec' pw v store vrg sr gr vis nthr th sched
        nt cb g Hin Hs (fun k => k) Esep ltac:(intros; reflexivity)
        (fun k => gv_of (scalar_backward K (SP k) pw (shot_v K P0 true v k) vis (fun s => sh K P0 k (store s)) vrg sr
                        (fun t => row (gr t) nrec k) nt cb (g k))) HG U f gv E k i Hi) as H.
      rewrite H. rewrite (sumf_single K Kr _ k); [reflexivity| | |].
      * apply NoDup_filter, NoDup_zrange.
      * apply filter_In. split; [apply In_zrange; exact Hk|apply Z.eqb_refl].
      * intros x Hx Hn. apply filter_In in Hx. destruct Hx as [_ Hx]. apply Z.eqb_eq in Hx. congruence.
    + assert (Ht1 : (nthr <= 1)%Z).
      { unfold separate in Esep. rewrite Hvrg in Esep. cbn [andb negb] in Esep. apply Z.ltb_ge in Esep. exact Esep. }
      intros i Hi.
      pose proof (batch_gv_blocks K Kr P0 NS nsrc nrec srcs recs false Hnsrc Hnrec Hsrc' Hrec' pw v store vrg sr gr vis nthr th sched
        nt cb g Hin Hs (fun k => 0%Z) Esep) as H.
      assert (H0 : forall s k, (0 <= k < NS)%Z -> gblock false (th s) k = 0%Z).
      { intros s k Hk. unfold gblock. specialize (Hth s k Hk). lia. }
      specialize (H H0 (fun k => gv_of (scalar_backward K (SP k) pw (shot_v K P0 false v k) vis (fun s => sh K P0 k (store s)) vrg sr
                        (fun t => row (gr t) nrec k) nt cb (g k))) HG U f gv E 0%Z i Hi).
      change (gv i) with (gv (0 * n + i)%Z). rewrite H. f_equal.
      clear. change (filter (fun _ : Z => true) (zrange 0 NS) = zrange 0 NS).
      induction (zrange 0 NS) as [|x l IH]; [reflexivity|]. cbn [filter]. rewrite IH. reflexivity.
Qed.

(** The single-shot gradients do not depend on the callback frequency. *)
Lemma single_cb k vis vis' cb cb' : (0 <= k < NS)%Z -> bvis K P0 pw vis -> bvis K P0 pw vis' -> cb_ok nt sr cb -> cb_ok nt sr cb' ->
  forall i, gv_of (single k vis cb) i = gv_of (single k vis' cb') i.
Proof.
  intros Hk Hv Hv' Hc Hc' i.
  destruct (scalar_backward_chunks K Kr (SP k) pw Hg (SP_loc_src k Hk) (SP_loc_rec k Hk) (shot_v K P0 batched v k) vis vis'
    (fun s => sh K P0 k (store s)) vrg sr (fun t => row (gr t) nrec k) nt cb cb' (g k) Hv Hv' Hsr Hc Hc')
    as (a & b & c & a' & b' & c' & E & E' & _ & _ & H). rewrite E, E'. apply H.
Qed.

(** Two runs with different threads, schedules, visiting orders and callback frequencies. *)
Lemma shots_same nthr th cb sched vis nthr' th' cb' sched' vis' :
  bvis K P0 pw vis -> bsched_ok NS vis sr nt cb sched -> cb_ok nt sr cb ->
  bvis K P0 pw vis' -> bsched_ok NS vis' sr nt cb' sched' -> cb_ok nt sr cb' ->
  exists U f gv U' f' gv',
    batch nthr th cb sched = Some (U, f, gv) /\ batch nthr' th' cb' sched' = Some (U', f', gv') /\
    (forall k, (0 <= k < NS)%Z -> ueq K P0 (U k) (U' k)) /\
    (forall t j, (0 <= j < NS * nsrc)%Z -> f t j = f' t j) /\
    ((forall s k, (0 <= k < NS)%Z -> (0 <= th s k < nthr)%Z) ->
     (forall s k, (0 <= k < NS)%Z -> (0 <= th' s k < nthr')%Z) ->
     vrg = true -> (batched = true \/ nthr = 1%Z \/ cb = None) -> (batched = true \/ nthr' = 1%Z \/ cb' = None) ->
     forall i, (0 <= i < (if batched then NS else 1) * n)%Z -> gv i = gv' i).
Proof.
  intros Hv Hs Hc Hv' Hs' Hc'.
  destruct (batch_some nthr th cb sched Hc) as (U & f & gv & E).
  destruct (batch_some nthr' th' cb' sched' Hc') as (U' & f' & gv' & E').
  exists U, f, gv, U', f', gv'. split; [exact E|]. split; [exact E'|].
  assert (HK : forall k, (0 <= k < NS)%Z -> ueq K P0 (U k) (U' k) /\ forall t, row (f t) nsrc k = row (f' t) nsrc k).
  { intros k Hk.
    destruct (shots_backward nthr th cb sched vis k Hv Hs Hc Hk) as (a & b & c & a1 & b1 & c1 & e1 & e2 & e3 & e4).
    destruct (shots_backward nthr' th' cb' sched' vis' k Hv' Hs' Hc' Hk) as (a' & b' & c' & a1' & b1' & c1' & e1' & e2' & e3' & e4').
    rewrite E in e1. injection e1 as <- <- <-. rewrite E' in e1'. injection e1' as <- <- <-.
    destruct (scalar_backward_chunks K Kr (SP k) pw Hg (SP_loc_src k Hk) (SP_loc_rec k Hk) (shot_v K P0 batched v k) vis vis'
      (fun s => sh K P0 k (store s)) vrg sr (fun t => row (gr t) nrec k) nt cb cb' (g k) Hv Hv' Hsr Hc Hc')
      as (x & y & z & x' & y' & z' & F & F' & H1 & H2 & _).
    rewrite e2 in F. injection F as <- <- <-. rewrite e2' in F'. injection F' as <- <- <-. split.
    - intros q Hq. destruct (e3 q Hq) as (p1 & p2 & p3). destruct (e3' q Hq) as (q1 & q2 & q3). destruct (H1 q Hq) as (r1 & r2 & r3).
      split; [congruence|]. split; [congruence|]. intros d Hd. destruct (p3 d Hd), (q3 d Hd), (r3 d Hd). split; congruence.
    - intros t. rewrite e4, e4'. apply H2. }
  split; [intros k Hk; apply HK; exact Hk|]. split.
  - intros t j Hj. assert (Hn0 : (0 < nsrc)%Z).
    { destruct (Z.eq_dec nsrc 0) as [e|e]; [rewrite e, Z.mul_0_r in Hj; lia|lia]. }
    assert (Hk : (0 <= j / nsrc < NS)%Z).
    { split; [apply Z.div_pos; lia|]. apply Z.div_lt_upper_bound; lia. }
    destruct (HK _ Hk) as [_ H]. specialize (H t). pose proof (Z.mod_pos_bound j nsrc Hn0) as Hm.
    apply (f_equal (fun l => nth (Z.to_nat (j mod nsrc)) l 0)) in H. rewrite !(row_nth) in H by exact Hm.
    replace (j / nsrc * nsrc + j mod nsrc)%Z with j in H by (pose proof (Z.div_mod j nsrc); lia). exact H.
  - intros Hth Hth' Hvrg Hca Hca' i Hi.
    destruct (shots_gradient nthr th cb sched vis Hv Hs Hc Hth Hvrg Hca) as (a & b & c & e & H).
    destruct (shots_gradient nthr' th' cb' sched' vis' Hv' Hs' Hc' Hth' Hvrg Hca') as (a' & b' & c' & e' & H').
    rewrite E in e. injection e as <- <- <-. rewrite E' in e'. injection e' as <- <- <-.
    destruct batched eqn:Eb.
    + pose proof n_pos as Hn.
      assert (Hk : (0 <= i / n < NS)%Z).
      { split; [apply Z.div_pos; lia|]. apply Z.div_lt_upper_bound; lia. }
      pose proof (Z.mod_pos_bound i n Hn) as Hm.
      replace i with (i / n * n + i mod n)%Z by (pose proof (Z.div_mod i n); lia).
      rewrite H, H' by assumption. rewrite <- Eb. apply single_cb; assumption.
    + rewrite H, H' by lia. apply sumf_ext. intros k Hk. apply In_zrange in Hk. rewrite <- Eb. apply single_cb; assumption.
Qed.

End B.
End Thm.

(** An interleaving: the shots take turns after every action. *)
Definition turns {A} (ns : Z) (prog : list A) : list (Z * A) :=
  flat_map (fun a => map (fun k => (k, a)) (zrange 0 ns)) prog.

Lemma turns_ok {A} ns (prog : list A) : interleaves ns (fun _ => prog) (turns ns prog).
Proof.
  split.
  - apply Forall_forall. intros x Hx. apply in_flat_map in Hx. destruct Hx as (a & _ & Hx).
    apply in_map_iff in Hx. destruct Hx as (k & <- & Hk). apply In_zrange in Hk. exact Hk.
  - intros k Hk. induction prog as [|a prog IH]; [reflexivity|]. unfold turns. cbn [flat_map].
    rewrite filter_app, map_app. fold (turns ns prog). rewrite IH.
    assert (E : map snd (filter (fun x => fst x =? k)%Z (map (fun k => (k, a)) (zrange 0 ns))) = [a]); [|rewrite E; reflexivity].
    replace (zrange 0 ns) with (zrange 0 k ++ k :: zrange (k + 1) ns).
    + rewrite map_app, filter_app, map_app. cbn [map filter fst]. rewrite Z.eqb_refl.
      assert (N : forall l, ~ In k l -> filter (fun x : Z * A => fst x =? k)%Z (map (fun k => (k, a)) l) = []).
      { induction l as [|y l IHl]; intros Hn; [reflexivity|]. cbn [map filter fst].
        destruct (Z.eqb_spec y k); [exfalso; apply Hn; left; assumption|]. apply IHl. intros Hc. apply Hn. right. exact Hc. }
      rewrite !N; [reflexivity| |]; intros Hc; apply In_zrange in Hc; lia.
    + rewrite <- zrange_cons by lia. symmetry. apply zrange_app. lia.
Qed.

(** Another: the shots one after the other, the last one first. *)
Definition one_by_one {A} (ns : Z) (prog : list A) : list (Z * A) :=
  flat_map (fun k => map (pair k) prog) (rev (zrange 0 ns)).
