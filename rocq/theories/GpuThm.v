(** * Runs on the device: statements for the user functions. *)
From Coq Require Import List ZArith QArith Lia Bool Ring Permutation.
From Verif Require Import Ops Sums Grid Stencil ScalarModel ScalarRefine ScalarForward ScalarBackward ScalarFunc Param ShotsModel Shots ShotsRun ShotsThm Threads GpuModel GpuLaunch GpuFwd GpuLocs GpuForward GpuBwd GpuBackward.
Import ListNotations.
Local Open Scope K_scope.

Section Single.
Variable K : ops.
Hypothesis Kr : is_ring K.
Variable P : par K.
Variable pw : nat -> Z * Z.
Hypothesis Hg : geom_ok K P pw.
Hypothesis Hsrc : Forall (loc_ok K P) (p_src P).
Hypothesis Hrec : Forall (loc_ok K P) (p_rec P).
Notation shape := (p_shape P).
(** One shot: results do not depend on the chunks, nor on the visiting order. *)
Lemma scalar_forward_chunks (v : arr K) vis vis' vrg sr f nt cb cb' store0 store0' u :
  fvis K P pw vis -> fvis K P pw vis' -> (0 < sr)%Z -> cb_ok nt sr cb -> cb_ok nt sr cb' ->
  exists U R S U' R' S',
    scalar_forward K P pw v vis vrg sr f nt cb store0 u = Some (U, R, S) /\
    scalar_forward K P pw v vis' vrg sr f nt cb' store0' u = Some (U', R', S') /\
    ueq K P U U' /\ (forall t, R t = R' t) /\
    (vrg = true -> forall s p, (0 <= s < nt / sr)%Z -> interior K P p = true -> S s (idx shape p) = S' s (idx shape p)).
Proof.
  intros Hv Hv' Hs Hc Hc'.
  destruct (scalar_forward_spec K Kr P pw Hg Hsrc Hrec v vis vrg sr f nt cb store0 u Hv Hs Hc) as (U & R & S & E & A1 & A2 & A3 & A4).
  destruct (scalar_forward_spec K Kr P pw Hg Hsrc Hrec v vis' vrg sr f nt cb' store0' u Hv' Hs Hc') as (U' & R' & S' & E' & B1 & B2 & B3 & B4).
  exists U, R, S, U', R', S'. split; [exact E|]. split; [exact E'|]. split; [|split].
  - intros q Hq. destruct (A1 q Hq) as (a1 & a2 & a3). destruct (B1 q Hq) as (b1 & b2 & b3).
    split; [congruence|]. split; [congruence|]. intros d Hd. destruct (a3 d Hd), (b3 d Hd). split; congruence.
  - intros t. destruct (Z_lt_le_dec t 0) as [Ht|Ht]; [rewrite A3, B3 by lia; reflexivity|].
    destruct (Z_lt_le_dec t (Z.of_nat (nsteps nt sr))) as [Ht2|Ht2]; [|rewrite A3, B3 by lia; reflexivity].
    replace t with (Z.of_nat (Z.to_nat t)) by lia. rewrite A2, B2 by lia. reflexivity.
  - intros Hr s p Hs' Hp. assert (Hk : (Z.to_nat (s * sr) < nsteps nt sr)%nat) by (unfold nsteps; nia).
    assert (Ek : (Z.of_nat (Z.to_nat (s * sr)) = s * sr)%Z) by nia.
    specialize (A4 Hr _ Hk). specialize (B4 Hr _ Hk). rewrite Ek, Z.div_mul in A4, B4 by lia. rewrite Z.mod_mul in A4, B4 by lia.
    rewrite A4, B4 by auto. reflexivity.
Qed.
End Single.

Section Gpu.
Variable K : ops.
Hypothesis Kr : is_ring K.
Add Ring KRing4 : Kr.
Variable P0 : par K.
Variable pw : nat -> Z * Z.
Variables NS nsrc nrec : Z.
Variables srcs recs : Z -> Z.
Variable batched : bool.
Notation shape := (p_shape P0).
Notation fd := (fd_pad (p_acc P0)).
Notation n := (prodZ shape).
Notation SP := (shot_par K P0 nsrc nrec srcs recs).
Notation inint p := (interior K P0 p = true).
Hypothesis Hg : geom_ok K P0 pw.
Hypothesis Hnsrc : (0 <= nsrc < 2 ^ 31)%Z.
Hypothesis Hnrec : (0 <= nrec < 2 ^ 31)%Z.
Hypothesis Hsz : sizes_ok fd shape NS.
Hypothesis Hsrc : forall j, (0 <= j < NS * nsrc)%Z -> loc_ok K P0 (srcs j).
Hypothesis Hrec : forall j, (0 <= j < NS * nrec)%Z -> loc_ok K P0 (recs j).
Variables (v : arr K) (sr nt : Z).
Hypothesis Hsr : (0 < sr)%Z.

Lemma SP_locs k : (0 <= k < NS)%Z -> Forall (loc_ok K (SP k)) (p_src (SP k)) /\ Forall (loc_ok K (SP k)) (p_rec (SP k)).
Proof.
  intros Hk. split; [apply (SP_loc_src K P0 NS nsrc nrec srcs recs (proj1 Hnsrc) Hsrc k Hk)|apply (SP_loc_rec K P0 NS nsrc nrec srcs recs (proj1 Hnrec) Hrec k Hk)].
Qed.
Lemma loc_lt_n l : loc_ok K P0 l -> (l < n)%Z.
Proof. apply (loc_lt K P0 pw Hg). Qed.

Theorem gpu_forward_cpu vrg f cb cb' store0 store0' u vis out k :
  distinct NS nsrc srcs -> cb_ok nt sr cb -> cb_ok nt sr cb' -> (0 <= k < NS)%Z -> fvis K P0 pw vis ->
  gpu_forward K P0 NS nsrc nrec srcs recs batched pw v vrg sr f nt cb store0 u out ->
  exists U1 R1 St1,
    scalar_forward K (SP k) pw (shot_v K P0 batched v k) vis vrg sr (fun t => row (f t) nsrc k) nt cb' (fun s => sh K P0 k (store0' s)) (u k) = Some (U1, R1, St1) /\
    let '(U, R, St) := out in
    ueq K P0 (U k) U1 /\ (forall t, row (R t) nrec k = R1 t) /\
    (vrg = true -> forall s p, (0 <= s < nt / sr)%Z -> inint p -> St s (k * n + idx shape p)%Z = St1 s (idx shape p)).
Proof.
  intros Hd Hc Hc' Hk Hv Ho. destruct out as [[U R] St].
  destruct (gpu_forward_shot K P0 NS nsrc nrec srcs recs batched Hnsrc Hnrec Hsz (fun j Hj => loc_lt_n _ (Hsrc j Hj)) (fun j Hj => loc_lt_n _ (Hrec j Hj)) Hd pw v vrg sr f nt cb store0 u (U, R, St) k Hg Hsrc Hrec Hsr Hc Hk Ho) as (gv & U1 & r1 & St1 & Hgv & E & A1 & A2 & A3).
  destruct (SP_locs k Hk) as [L1 L2].
  destruct (scalar_forward_chunks K Kr (SP k) pw Hg L1 L2 (shot_v K P0 batched v k) gv vis vrg sr (fun t => row (f t) nsrc k) nt cb cb' (fun s => sh K P0 k (store0 s)) (fun s => sh K P0 k (store0' s)) (u k) Hgv Hv Hsr Hc Hc') as (a & b & c & a' & b' & c' & F & F' & B1 & B2 & B3).
  rewrite E in F. injection F as <- <- <-. exists a', b', c'. split; [exact F'|]. split; [|split].
  - intros q Hq. destruct (A1 q Hq) as (a1 & a2 & a3). destruct (B1 q Hq) as (b1 & b2 & b3). split; [congruence|]. split; [congruence|]. intros d Hd'. destruct (a3 d Hd'), (b3 d Hd'). split; congruence.
  - intros t. rewrite A2. apply B2.
  - intros Hr s p Hs Hp. rewrite A3; [apply B3; assumption|]. apply idx_bound. apply (inint_arr K P0). exact Hp.
Qed.

Theorem gpu_backward_cpu store vrg gr cb cb' g vis out k :
  distinct NS nrec recs -> cb_ok nt sr cb -> cb_ok nt sr cb' -> (0 <= k < NS)%Z -> bvis K P0 pw vis ->
  gpu_backward K P0 NS nsrc nrec srcs recs batched pw v store vrg sr gr nt cb g out ->
  exists U1 f1 gv1,
    scalar_backward K (SP k) pw (shot_v K P0 batched v k) vis (fun s => sh K P0 k (store s)) vrg sr (fun t => row (gr t) nrec k) nt cb' (g k) = Some (U1, f1, gv1) /\
    let '(U, f, _) := out in ueq K P0 (U k) U1 /\ (forall t, row (f t) nsrc k = f1 t).
Proof.
  intros Hd Hc Hc' Hk Hv Ho. destruct out as [[U f] gv0].
  destruct (gpu_backward_shot K P0 NS nsrc nrec srcs recs batched Hnsrc Hnrec Hsz (fun j Hj => loc_lt_n _ (Hsrc j Hj)) (fun j Hj => loc_lt_n _ (Hrec j Hj)) Hd pw v store vrg sr gr nt cb g Hg Hsr Hc (U, f, gv0) k Hk Ho) as (U1 & f1 & gv1 & E & A1 & A2).
  destruct (SP_locs k Hk) as [L1 L2].
  destruct (scalar_backward_chunks K Kr (SP k) pw Hg L1 L2 (shot_v K P0 batched v k) _ vis (fun s => sh K P0 k (store s)) vrg sr (fun t => row (gr t) nrec k) nt cb cb' (g k) (gvis_b K P0 NS Hsz pw Hg k Hk) Hv Hsr Hc Hc') as (a & b & c & a' & b' & c' & F & F' & B1 & B2 & B3).
  rewrite E in F. injection F as <- <- <-. exists a', b', c'. split; [exact F'|]. split.
  - intros q Hq. destruct (A1 q Hq) as (a1 & a2 & a3). destruct (B1 q Hq) as (b1 & b2 & b3). split; [congruence|]. split; [congruence|]. intros d Hd'. destruct (a3 d Hd'), (b3 d Hd'). split; congruence.
  - intros t. rewrite A2. apply B2.
Qed.

Theorem gpu_backward_grad store gr cb cb' g vis out :
  distinct NS nrec recs -> cb_ok nt sr cb -> cb_ok nt sr cb' -> (1 <= NS)%Z -> bvis K P0 pw vis ->
  (batched = true \/ NS = 1%Z \/ cb = None) ->
  gpu_backward K P0 NS nsrc nrec srcs recs batched pw v store true sr gr nt cb g out ->
  let gv1 k := gv_of K (scalar_backward K (SP k) pw (shot_v K P0 batched v k) vis (fun s => sh K P0 k (store s)) true sr (fun t => row (gr t) nrec k) nt cb' (g k)) in
  let '(_, _, gv) := out in
  if batched then forall k i, (0 <= k < NS)%Z -> (0 <= i < n)%Z -> gv (k * n + i)%Z = gv1 k i
  else forall i, (0 <= i < n)%Z -> gv i = sumf (zrange 0 NS) (fun k => gv1 k i).
Proof.
  intros Hd Hc Hc' Hns Hv Hcase Ho gv1. destruct out as [[U f] gv0].
  pose proof (gpu_backward_gv K Kr P0 NS nsrc nrec srcs recs batched Hnsrc Hnrec Hsz (fun j Hj => loc_lt_n _ (Hsrc j Hj)) (fun j Hj => loc_lt_n _ (Hrec j Hj)) Hd pw v store true sr gr nt cb g Hg Hsr Hc (U, f, gv0) Hns Hcase eq_refl Ho (fun k Hk => proj1 (SP_locs k Hk)) (fun k Hk => proj2 (SP_locs k Hk))) as A.
  cbv iota beta in A |- *.
  assert (T : forall k i, (0 <= k < NS)%Z -> gv_of K (scalar_backward K (SP k) pw (shot_v K P0 batched v k) (gvis K P0 NS (pml_begin K P0 3 pw) (pml_end K P0 3 pw) k) (fun s => sh K P0 k (store s)) true sr (fun t => row (gr t) nrec k) nt cb (g k)) i = gv1 k i).
  { intros k i Hk. destruct (SP_locs k Hk) as [L1 L2]. unfold gv1.
    destruct (scalar_backward_chunks K Kr (SP k) pw Hg L1 L2 (shot_v K P0 batched v k) _ vis (fun s => sh K P0 k (store s)) true sr (fun t => row (gr t) nrec k) nt cb cb' (g k) (gvis_b K P0 NS Hsz pw Hg k Hk) Hv Hsr Hc Hc') as (a & b & c & a' & b' & c' & F & F' & B1 & B2 & B3).
    rewrite F, F'. apply B3. }
  assert (A' : if batched then forall k i, (0 <= k < NS)%Z -> (0 <= i < n)%Z -> gv0 (k * n + i)%Z = gv1 k i else forall i, (0 <= i < n)%Z -> gv0 i = sumf (zrange 0 NS) (fun k => gv1 k i)).
  { destruct batched.
    - intros k i Hk Hi. rewrite A by assumption. apply T. exact Hk.
    - intros i Hi. rewrite A by assumption. apply sumf_ext. intros k Hk. apply In_zrange in Hk. apply T. lia. }
  exact A'.
Qed.

(** With callbacks and a shared model: every call adds the buffers of all shots again. *)
Section Again.
Variables (store : Z -> arr K) (gr : Z -> arr K) (cf : Z).
Notation chunk k := (bwd_chunk K (SP k) (shot_v K P0 batched (fun i => v i * v i * p_dt2 P0) k) (gvis K P0 NS (pml_begin K P0 3 pw) (pml_end K P0 3 pw) k) (fun s => sh K P0 k (store s)) true sr (fun t => row (gr t) nrec k) cf).
Fixpoint again (ss : list Z) (fam : Z -> bmem K) (i : Z) (x : K) : K :=
  match ss with
  | [] => x
  | s :: ss' => again ss' (fun k => chunk k (fam k) s) i (x + sumf (zrange 0 NS) (fun k => g_v K (chunk k (fam k) s) i))
  end.
Lemma bdriver_again p : distinct NS nrec recs -> gseparate NS batched true = true -> inint p -> forall ss sw M sw' M' fam,
  ginv K P0 NS nsrc NGradShot store sw M fam ->
  gbwd_driver K P0 NS nsrc nrec srcs recs batched (pml_begin K P0 3 pw) (pml_end K P0 3 pw) (fun i => v i * v i * p_dt2 P0) true sr gr cf ss sw M sw' M' ->
  M' (NGrad, idx shape p) = again ss fam (idx shape p) (M (NGrad, idx shape p)).
Proof.
  intros Hd Hsep Hp. assert (Hgn : gname NS batched true = NGradShot) by (unfold gname; rewrite Hsep; reflexivity).
  induction ss as [|s ss IH]; intros sw M sw' M' fam Hi Hdr.
  { apply gbd_nil_inv in Hdr. rewrite Hdr. reflexivity. }
  cbn [again]. inversion Hdr as [|? ? ? ? M1 M2 ? ? Hl Hc Hd']; subst. rewrite Hsep in Hc.
  assert (H1 : gbwd_driver K P0 NS nsrc nrec srcs recs batched (pml_begin K P0 3 pw) (pml_end K P0 3 pw) (fun i => v i * v i * p_dt2 P0) true sr gr cf [s] sw M (if ((Z.min s cf * sr) mod 2 =? 0)%Z then sw else negb sw) M2).
  { apply (gbd_cons K P0 NS nsrc nrec srcs recs batched _ _ _ true sr gr cf s [] sw M M1 M2); [exact Hl| |constructor]. rewrite Hsep. exact Hc. }
  assert (Hi' : ginv K P0 NS nsrc (gname NS batched true) store sw M fam) by (rewrite Hgn; exact Hi).
  pose proof (bdriver_inv K P0 NS nsrc nrec srcs recs batched Hnsrc Hnrec Hsz (fun j Hj => loc_lt_n _ (Hsrc j Hj)) (fun j Hj => loc_lt_n _ (Hrec j Hj)) Hd store _ _ (pml_le K P0 pw Hg) _ true sr gr cf [s] sw M _ M2 fam Hi' H1) as Hi2.
  rewrite Hgn in Hi2. cbn [fold_left] in Hi2. rewrite (IH _ M2 sw' M' _ Hi2 Hd'). f_equal.
  rewrite Hgn in Hl. destruct (bcall_inv K P0 NS nsrc nrec srcs recs batched Hnsrc Hnrec Hsz (fun j Hj => loc_lt_n _ (Hsrc j Hj)) (fun j Hj => loc_lt_n _ (Hrec j Hj)) Hd NGradShot (or_intror eq_refl) store _ _ (pml_le K P0 pw Hg) _ true sr gr sw s cf M M1 fam Hi Hl) as [_ B].
  destruct (combine_launch K P0 NS nsrc nrec srcs recs Hsz (fun j Hj => loc_lt_n _ (Hsrc j Hj)) (fun j Hj => loc_lt_n _ (Hrec j Hj)) M1 M2 Hc) as [C Fr]. rewrite C by exact Hp. rewrite B by reflexivity.
  assert (Eg : forall l x, fold_left (fun x k => x + M1 (NGradShot, k * n + idx shape p)%Z) l x = x + sumf l (fun k => M1 (NGradShot, k * n + idx shape p)%Z)).
  { induction l as [|k l IHl]; intros x; cbn; [ring|]. rewrite IHl. ring. }
  rewrite Eg. f_equal. apply sumf_ext. intros k Hk. apply In_zrange in Hk. destruct Hi2 as [Hi2 _]. destruct (Hi2 k ltac:(lia)) as [c1 c2 c3 c4 c5 c6 c7 c8].
  rewrite <- (c8 (idx shape p)) by (apply idx_bound; apply (inint_arr K P0); exact Hp). cbn. symmetry. apply Fr. intros q _. congruence.
Qed.
End Again.

Theorem gpu_backward_again store gr cb g out p : distinct NS nrec recs -> (0 < nt)%Z -> gseparate NS batched true = true -> inint p ->
  gpu_backward K P0 NS nsrc nrec srcs recs batched pw v store true sr gr nt cb g out ->
  let cf := match cb with Some c => c | None => (nt / sr)%Z end in
  let '(_, _, gv) := out in gv (idx shape p) = again store gr cf (range_down (nt / sr) cf) (fun k => neg_wfp K (bwd_init K (SP k) pw (g k))) (idx shape p) 0.
Proof.
  intros Hd Hnt Hsep Hp (sw & M & Hdr & ->) cf. cbv zeta beta iota. cbn [B_gv bneg bglob_of].
  destruct (Z.leb_spec nt 0); [lia|]. rewrite (bdriver_again store gr cf p Hd Hsep Hp _ false _ sw M (fun k => neg_wfp K (bwd_init K (SP k) pw (g k)))) by first [exact Hdr | apply ginv_init; right; reflexivity].
  reflexivity.
Qed.
End Gpu.

(** ** Some run exists when no launch is refused. *)
Section Exists.
Variable K : ops.
Variable P0 : par K.
Variables NS nsrc nrec : Z.
Variables srcs recs : Z -> Z.
Variable batched : bool.
Notation shape := (p_shape P0).
Notation fd := (fd_pad (p_acc P0)).
Definition launches_ok : Prop :=
  launch_valid (launch_cells fd shape NS) = true /\ ((0 < nsrc)%Z -> launch_valid (launch_locs nsrc NS) = true) /\ ((0 < nrec)%Z -> launch_valid (launch_locs nrec NS) = true).
Hypothesis Hl : launches_ok.
Lemma kexec_exists L tp (M : mem loc K) : launch_valid L = true -> exists M', kexec K L tp M M'.
Proof. intros H. eexists. split; [exact H|]. apply exec_exists. Qed.
Lemma gfwd_loop_exists pml0 pml1 v vrg sr f ts : forall sw M, exists M', gfwd_loop K P0 NS nsrc nrec srcs recs batched pml0 pml1 v vrg sr f sw ts M M'.
Proof.
  destruct Hl as (L1 & L2 & L3). induction ts as [|t ts IH]; intros sw M; [eexists; constructor|].
  destruct (kexec_exists _ (fwd_thread K P0 NS batched pml0 pml1 v sw (vrg && (t mod sr =? 0)%Z) (t / sr)%Z) M L1) as [M1 H1].
  assert (H2 : exists M2, if (0 <? nsrc)%Z then kexec K (launch_locs nsrc NS) (add_thread K P0 NS (qwfp sw) nsrc srcs (f t)) M1 M2 else M2 = M1) by (destruct (Z.ltb_spec 0 nsrc); [apply kexec_exists; auto|eauto]).
  destruct H2 as [M2 H2].
  assert (H3 : exists M3, if (0 <? nrec)%Z then kexec K (launch_locs nrec NS) (rec_thread K P0 NS (qwfc sw) nrec recs t) M2 M3 else M3 = M2) by (destruct (Z.ltb_spec 0 nrec); [apply kexec_exists; auto|eauto]).
  destruct H3 as [M3 H3]. destruct (IH (negb sw) M3) as [M' H']. exists M'. econstructor; [|exact H']. exists M1, M2. auto.
Qed.
Theorem gpu_forward_exists pw v vrg sr f nt cb store0 u : exists out, gpu_forward K P0 NS nsrc nrec srcs recs batched pw v vrg sr f nt cb store0 u out.
Proof.
  unfold gpu_forward. cbv zeta. set (ss := if (nt <=? 0)%Z then [] else _). clearbody ss. set (M0 := fmem_of K _). clearbody M0.
  assert (H : exists sw' M', gfwd_driver K P0 NS nsrc nrec srcs recs batched (pml_begin K P0 2 pw) (pml_end K P0 2 pw) v vrg sr f (nt / sr) (match cb with Some c => c | None => (nt / sr)%Z end) ss false M0 sw' M').
  { generalize false as sw. revert M0. induction ss as [|s ss IH]; intros M sw; [do 2 eexists; constructor|].
    destruct (gfwd_loop_exists (pml_begin K P0 2 pw) (pml_end K P0 2 pw) v vrg sr f (zrange (s * sr) (s * sr + Z.min (nt / sr - s) (match cb with Some c => c | None => (nt / sr)%Z end) * sr)) sw M) as [M1 H1].
    edestruct (IH M1) as (sw' & M' & H'). exists sw', M'. econstructor; [exact H1|exact H']. }
  destruct H as (sw' & M' & H). eexists. exists sw', M'. split; [exact H|reflexivity].
Qed.
Hypothesis Hlc : gseparate NS batched true = true -> launch_valid (launch_combine fd shape) = true.
Lemma gbwd_loop_exists pml0 pml1 v2 ga vrg sr gr ts : forall sw M, exists M', gbwd_loop K P0 NS nsrc nrec srcs recs batched pml0 pml1 v2 ga vrg sr gr sw ts M M'.
Proof.
  destruct Hl as (L1 & L2 & L3). induction ts as [|t ts IH]; intros sw M; [eexists; constructor|].
  assert (H1 : exists M1, if (0 <? nsrc)%Z then kexec K (launch_locs nsrc NS) (rec_thread K P0 NS (qwfc sw) nsrc srcs t) M M1 else M1 = M) by (destruct (Z.ltb_spec 0 nsrc); [apply kexec_exists; auto|eauto]).
  destruct H1 as [M1 H1].
  destruct (kexec_exists _ (bwd_thread K P0 NS batched pml0 pml1 v2 ga sw (vrg && (t mod sr =? 0)%Z) sr (t / sr)%Z) M1 L1) as [M2 H2].
  assert (H3 : exists M3, if (0 <? nrec)%Z then kexec K (launch_locs nrec NS) (add_thread K P0 NS (qwfp sw) nrec recs (gr t)) M2 M3 else M3 = M2) by (destruct (Z.ltb_spec 0 nrec); [apply kexec_exists; auto|eauto]).
  destruct H3 as [M3 H3]. destruct (IH (negb sw) M3) as [M' H']. exists M'. econstructor; [|exact H']. exists M1, M2. auto.
Qed.
Theorem gpu_backward_exists pw v store vrg sr gr nt cb g : exists out, gpu_backward K P0 NS nsrc nrec srcs recs batched pw v store vrg sr gr nt cb g out.
Proof.
  unfold gpu_backward. cbv zeta. set (ss := if (nt <=? 0)%Z then [] else _). clearbody ss. set (M0 := bmem_of K _ _). clearbody M0. set (cf := match cb with Some c => c | None => (nt / sr)%Z end). set (v2 := fun i => v i * v i * p_dt2 P0).
  assert (H : exists sw' M', gbwd_driver K P0 NS nsrc nrec srcs recs batched (pml_begin K P0 3 pw) (pml_end K P0 3 pw) v2 vrg sr gr cf ss false M0 sw' M').
  { generalize false as sw. revert M0. induction ss as [|s ss IH]; intros M sw; [do 2 eexists; constructor|].
    destruct (gbwd_loop_exists (pml_begin K P0 3 pw) (pml_end K P0 3 pw) v2 (gname NS batched vrg) vrg sr gr (rev (zrange (s * sr - Z.min s cf * sr) (s * sr))) sw M) as [M1 H1].
    assert (H2 : exists M2, if gseparate NS batched vrg then kexec K (launch_combine fd shape) (combine_thread K P0 NS) M1 M2 else M2 = M1).
    { destruct (gseparate NS batched vrg) eqn:E; [|eauto]. apply kexec_exists. apply Hlc. unfold gseparate in *. destruct vrg; [exact E|discriminate E]. }
    destruct H2 as [M2 H2]. edestruct (IH M2) as (sw' & M' & H'). exists sw', M'. econstructor; [exact H1|exact H2|exact H']. }
  destruct H as (sw' & M' & H). eexists. exists sw', M'. split; [exact H|reflexivity].
Qed.
End Exists.

(** ** Sizes for which no launch is refused: at most 65535 blocks in the second and third directions. *)
Lemma ceil_div_pos m b : (0 < b)%Z -> (0 < m)%Z -> (m + b <= 2 ^ 32)%Z -> (0 < ceil_div m b)%Z /\ (ceil_div m b * b < m + b)%Z.
Proof. intros Hb Hm H. destruct (ceil_div_spec m b ltac:(lia) Hb H) as (C1 & C2 & C3). split; nia. Qed.
Lemma grid_valid gx gy gz b : (0 < gx < 2 ^ 31)%Z -> (0 < gy < 2 ^ 16)%Z -> (0 < gz < 2 ^ 16)%Z -> launch_valid (mklaunch (gx, gy, gz) b) = true.
Proof. intros Hx Hy Hz. unfold launch_valid. cbn [l_grid]. rewrite !andb_true_iff, !Z.ltb_lt. tauto. Qed.
Lemma locs_valid n ns : (0 < n < 2 ^ 31)%Z -> (0 < ns < 2 ^ 16)%Z -> launch_valid (launch_locs n ns) = true.
Proof.
  intros Hn Hs. unfold launch_locs. destruct (ceil_div_pos n 32 ltac:(lia) ltac:(lia) ltac:(lia)) as [A B]. destruct (ceil_div_pos ns 1 ltac:(lia) ltac:(lia) ltac:(lia)) as [C D].
  apply grid_valid; lia.
Qed.
Definition cells_fit (fd : Z) (shape : list Z) : Prop :=
  match shape with
  | [nz; ny; nx] => (2 * fd < nx < 2 ^ 31 /\ 2 * fd < ny <= 2 * fd + 4 * 65535 /\ 2 * fd < nz <= 2 * fd + 65535)%Z
  | [ny; nx] => (2 * fd < nx < 2 ^ 31 /\ 2 * fd < ny <= 2 * fd + 4 * 65535)%Z
  | [nx] => (2 * fd < nx < 2 ^ 31)%Z
  | _ => False
  end.
Lemma cells_valid fd shape ns : (0 <= fd)%Z -> cells_fit fd shape -> (0 < ns < 2 ^ 16)%Z -> launch_valid (launch_cells fd shape ns) = true /\ launch_valid (launch_combine fd shape) = true.
Proof.
  intros Hf H Hs. destruct (ceil_div_pos ns 1 ltac:(lia) ltac:(lia) ltac:(lia)) as [S1 S2].
  assert (X : forall m b, (0 < b <= 128 -> 0 < m < 2 ^ 31 -> 0 < ceil_div m b /\ ceil_div m b * b < m + b)%Z) by (intros m b Hb Hm; apply ceil_div_pos; lia).
  destruct shape as [|nx [|ny [|nz [|? ?]]]]; cbn [cells_fit] in H; try contradiction; cbn [launch_cells launch_combine].
  - destruct (X (nx - 2 * fd) 128)%Z as [A B]; [lia|lia|]. split; apply grid_valid; lia.
  - destruct (X (ny - 2 * fd) 32)%Z as [A B]; [lia|lia|]. destruct (X (nx - 2 * fd) 4)%Z as [A' B']; [lia|lia|]. split; apply grid_valid; lia.
  - destruct (X (nz - 2 * fd) 32)%Z as [A B]; [lia|lia|]. destruct (X (ny - 2 * fd) 4)%Z as [A' B']; [lia|lia|]. destruct (X (nx - 2 * fd) 1)%Z as [A'' B'']; [lia|lia|]. split; apply grid_valid; lia.
Qed.
Lemma launches_fit K (P0 : par K) NS nsrc nrec : cells_fit (fd_pad (p_acc P0)) (p_shape P0) -> (0 <= nsrc < 2 ^ 31)%Z -> (0 <= nrec < 2 ^ 31)%Z -> (0 < NS < 2 ^ 16)%Z -> launches_ok K P0 NS nsrc nrec.
Proof.
  intros H H1 H2 H3. assert (Hf : (0 <= fd_pad (p_acc P0))%Z) by (destruct (p_acc P0); cbn; lia).
  split; [apply cells_valid; assumption|]. split; intros; apply locs_valid; lia.
Qed.

(** ** Two threads that add to the same cell. *)
Lemma race {L V : Type} (leq : forall a b : L, {a = b} + {a <> b}) (add : V -> V -> V) l a b (rest : list (prog L V)) m :
  (forall p, In p rest -> p = Ret) ->
  exec leq (Load l (fun x => Store l (add x a) Ret) :: Load l (fun x => Store l (add x b) Ret) :: rest) m (put leq (put leq m l (add (m l) a)) l (add (m l) b)).
Proof.
  intros Hr. apply (exec_load leq [] l _ (Load l (fun x => Store l (add x b) Ret) :: rest)). cbn [app].
  apply (exec_load leq [Store l (add (m l) a) Ret] l (fun x => Store l (add x b) Ret) rest). cbn [app].
  apply (exec_store leq [] l (add (m l) a) Ret (Store l (add (m l) b) Ret :: rest)). cbn [app].
  apply (exec_store leq [Ret] l (add (m l) b) Ret rest). cbn [app]. apply exec_done. intros p [<-|[<-|Hp]]; auto.
Qed.
Theorem gpu_exists K (P0 : par K) NS nsrc nrec srcs recs batched : (0 <= nsrc < 2 ^ 31)%Z -> (0 <= nrec < 2 ^ 31)%Z -> (0 < NS < 2 ^ 16)%Z -> cells_fit (fd_pad (p_acc P0)) (p_shape P0) ->
  (forall pw v vrg sr f nt cb store0 u, exists out, gpu_forward K P0 NS nsrc nrec srcs recs batched pw v vrg sr f nt cb store0 u out) /\
  (forall pw v store vrg sr gr nt cb g, exists out, gpu_backward K P0 NS nsrc nrec srcs recs batched pw v store vrg sr gr nt cb g out).
Proof.
  intros H1 H2 H3 H4. pose proof (launches_fit K P0 NS nsrc nrec H4 H1 H2 H3) as Hl. assert (Hf : (0 <= fd_pad (p_acc P0))%Z) by (destruct (p_acc P0); cbn; lia). split; intros.
  - apply gpu_forward_exists. exact Hl.
  - apply gpu_backward_exists; [exact Hl|]. intros _. apply (cells_valid _ _ NS); assumption.
Qed.
Theorem gpu_shots_limit K (P0 : par K) nsrc nrec srcs recs batched pw v vrg sr f nt cb store0 u :
  (length (p_shape P0) <= 2)%nat -> (0 < sr <= nt)%Z -> cb_ok nt sr cb ->
  forall NS out, (2 ^ 16 <= NS < 2 ^ 31)%Z -> ~ gpu_forward K P0 NS nsrc nrec srcs recs batched pw v vrg sr f nt cb store0 u out.
Proof.
  intros Hn Hsr Hcb NS out Hns (sw & M & Hd & _).
  assert (Hv : launch_valid (launch_cells (fd_pad (p_acc P0)) (p_shape P0) NS) = false).
  { destruct (ceil_div_spec NS 1 ltac:(lia) ltac:(lia) ltac:(lia)) as (A & B & C). assert (L : (ceil_div NS 1 <? 2 ^ 16)%Z = false) by (apply Z.ltb_ge; lia).
    destruct (p_shape P0) as [|nx [|ny [|nz r]]]; cbn in Hn; try lia; unfold launch_valid, launch_cells; cbn [l_grid]; rewrite ?L, ?andb_false_r; reflexivity. }
  destruct (Z.leb_spec nt 0); [lia|]. set (cf := match cb with Some c => c | None => (nt / sr)%Z end) in *.
  assert (HN : (0 < nt / sr)%Z) by (apply Z.div_str_pos; lia). assert (Hcf : (0 < cf)%Z) by (unfold cf; destruct cb; cbn in Hcb; lia).
  assert (Hr : exists ss, range_up (nt / sr) cf = 0%Z :: ss).
  { unfold range_up. assert (Hq : (0 < (nt / sr + cf - 1) / cf)%Z) by (apply Z.div_str_pos; lia). rewrite zrange_cons by lia. cbn. eauto. }
  destruct Hr as [ss Hr]. rewrite Hr in Hd. inversion Hd as [|? ? ? ? M1 ? ? Hl Hd']; subst. rewrite zrange_cons in Hl by nia. inversion Hl as [|? ? ? ? M2 ? Hs Hl']; subst.
  destruct Hs as (Ma & Mb & [V _] & _). rewrite Hv in V. discriminate V.
Qed.
