(** * The reduced backward pass of scalar_born on the device does to every shot what the CPU does.

    Every execution of its kernels is an execution of the kernels of the scalar propagator, if the
    snapshots are multiplied by [2 * v * dt^2] when they are loaded. *)
From Coq Require Import List ZArith QArith Lia Bool Ring Permutation.
From Verif Require Import Ops Sums Grid Stencil ScalarModel ScalarRefine ScalarForward ScalarBackward ScalarFunc Param ShotsModel Shots ShotsRun ShotsThm Threads GpuModel GpuLaunch GpuFwd GpuLocs GpuBwd GpuBackward BornModel BornScGpuModel.
Import ListNotations.
Local Open Scope K_scope.

(** ** Programs that do the same on memories that differ by a change of the loaded values *)
Section Sim.
Context {L V : Type}.
Variable leq : forall a b : L, {a = b} + {a <> b}.
Variable ch : L -> V -> V.
Inductive psim : prog L V -> prog L V -> Prop :=
| ps_ret : psim Ret Ret
| ps_load l k k' : (forall x, psim (k x) (k' (ch l x))) -> psim (Load l k) (Load l k')
| ps_store l x k k' : ch l x = x -> psim k k' -> psim (Store l x k) (Store l x k').
Lemma psim_bind p p' q q' : psim p p' -> psim q q' -> psim (bind p q) (bind p' q').
Proof. intros H Hq. induction H; cbn; [exact Hq|constructor; auto|constructor; auto]. Qed.
Lemma psim_seqp {I} (f g : I -> prog L V) its : (forall it, In it its -> psim (f it) (g it)) -> psim (seqp (map f its)) (seqp (map g its)).
Proof.
  induction its as [|x its IH]; intros H; [constructor|]. cbn. apply psim_bind; [apply H; left; reflexivity|apply IH; intros it Hi; apply H; right; exact Hi].
Qed.
Lemma exec_sim ts (M M' : mem L V) : exec leq ts M M' -> forall ts' M1, Forall2 psim ts ts' -> (forall l, M1 l = ch l (M l)) ->
  exists M1', exec leq ts' M1 M1' /\ forall l, M1' l = ch l (M' l).
Proof.
  induction 1 as [ts m Hd|a l k b m m' He IH|a l x k b m m' He IH]; intros ts' M1 HF E.
  - exists M1. split; [|exact E]. apply exec_done. intros p Hp. clear - HF Hd Hp. induction HF as [|q q' ts ts' Hq HF IH]; [destruct Hp|]. destruct Hp as [->|Hp].
    + rewrite (Hd q (or_introl eq_refl)) in Hq. inversion Hq. reflexivity.
    + apply IH; [intros r Hr; apply Hd; right; exact Hr|exact Hp].
  - apply Forall2_app_inv_l in HF. destruct HF as (a' & bb & Ha & Hb & ->). inversion Hb as [|p p' b0 b' Hp Hb']; subst. inversion Hp as [|l0 k0 k' Hk|]; subst.
    destruct (IH (a' ++ k' (M1 l) :: b') M1) as (M1' & H1 & H2); [|exact E|].
    + apply Forall2_app; [exact Ha|]. constructor; [rewrite E; apply Hk|exact Hb'].
    + exists M1'. split; [|exact H2]. constructor. exact H1.
  - apply Forall2_app_inv_l in HF. destruct HF as (a' & bb & Ha & Hb & ->). inversion Hb as [|p p' b0 b' Hp Hb']; subst. inversion Hp as [| |l0 x0 k0 k' Hx Hk]; subst.
    destruct (IH (a' ++ k' :: b') (put leq M1 l x)) as (M1' & H1 & H2).
    + apply Forall2_app; [exact Ha|]. constructor; [exact Hk|exact Hb'].
    + intros l'. unfold put. destruct (leq l l') as [<-|]; [symmetry; exact Hx|apply E].
    + exists M1'. split; [|exact H2]. constructor. exact H1.
Qed.
End Sim.

Section Sc.
Variable K : ops.
Hypothesis Kr : is_ring K.
Add Ring KRing : Kr.
Variable P0 : par K.
Variable NS : Z.
Variables nsrc nrecsc : Z.
Variables srcs recssc : Z -> Z.
Variables vbat sbat : bool.
Notation shape := (p_shape P0).
Notation fd := (fd_pad (p_acc P0)).
Notation nd := (length shape).
Notation n := (prodZ shape).
Notation SP := (shot_par K P0 nsrc nrecsc srcs recssc).
Notation inint p := (interior K P0 p = true).
Hypothesis Hnsrc : (0 <= nsrc < 2 ^ 31)%Z.
Hypothesis Hnrec : (0 <= nrecsc < 2 ^ 31)%Z.
Hypothesis Hsz : sizes_ok fd shape NS.
Hypothesis Hsrc : forall j, (0 <= j < NS * nsrc)%Z -> (srcs j < n)%Z.
Hypothesis Hrec : forall j, (0 <= j < NS * nrecsc)%Z -> (recssc j < n)%Z.
Hypothesis Huniq : distinct NS nrecsc recssc.
Variable v : arr K.

(** [2 * v * dt^2] at element [i] of the batch. *)
Definition xc (i : Z) : K := two * (if vbat then v i else v (i mod n)%Z) * p_dt2 P0.
Definition xch (l : loc) (x : K) : K := match fst l with NStore _ => xc (snd l) * x | _ => x end.
Definition xphi (M : mem loc K) : mem loc K := fun l => xch l (M l).
Notation psim := (psim xch).
Definition quiet (a : aname) : Prop := match a with NStore _ => False | _ => True end.
Lemma xch_quiet a i x : quiet a -> xch (a, i) x = x.
Proof. destruct a; intros H; [..|reflexivity]; try reflexivity. destruct H. Qed.
Lemma quiet_q sw d : quiet (qwfc sw) /\ quiet (qwfp sw) /\ quiet (qpsi sw d) /\ quiet (qpsin sw d) /\ quiet (qzeta sw d) /\ quiet (qzetan sw d).
Proof. destruct sw; repeat split. Qed.
Lemma ps_qload a i k k' : quiet a -> (forall x, psim (k x) (k' x)) -> psim (Load (a, i) k) (Load (a, i) k').
Proof. intros Q H. constructor. intros x. rewrite xch_quiet by exact Q. apply H. Qed.
Lemma ps_qstore a i x x' k k' : quiet a -> x = x' -> psim k k' -> psim (Store (a, i) x k) (Store (a, i) x' k').
Proof. intros Q <- H. constructor; [apply xch_quiet; exact Q|exact H]. Qed.
Lemma ps_loads a ls : quiet a -> forall k k', (forall xs, psim (k xs) (k' xs)) -> psim (loads K (map (fun i => (a, i)) ls) k) (loads K (map (fun i => (a, i)) ls) k').
Proof.
  intros Q. induction ls as [|i ls IH]; intros k k' H; [apply H|]. cbn [map loads]. apply ps_qload; [exact Q|]. intros x. apply IH. intros xs. apply H.
Qed.
Lemma ps_rd_st a i s k k' : quiet a -> (forall W, psim (k W) (k' W)) -> psim (rd_st K P0 a i s k) (rd_st K P0 a i s k').
Proof.
  intros Q H. unfold rd_st.
  assert (E : map (fun o => (a, i + o * s)%Z) (zrange (- fd) (fd + 1)) = map (fun j => (a, j)) (map (fun o => (i + o * s)%Z) (zrange (- fd) (fd + 1)))) by (rewrite map_map; reflexivity).
  rewrite E. apply ps_loads; [exact Q|]. intros xs. apply H.
Qed.
Notation v2 := (fun i => v i * v i * p_dt2 P0).
Lemma xv2_eq k j : v2sh K P0 vbat v2 k j = xv2 K P0 vbat v k j.
Proof. unfold v2sh, xv2, xv. destruct vbat; reflexivity. Qed.

Section Call.
Variable ga : aname.
Hypothesis Hga : ga = NGrad \/ ga = NGradShot.
Variable w : Z -> arr K.
Variables pml0 pml1 : nat -> Z.
Hypothesis Hpml : forall d, (d < nd)%nat -> (pml0 d <= pml1 d)%Z.
Variables (srg : bool) (sr : Z) (gr : Z -> arr K).
Definition wst (s : Z) : arr K := fun i => xc i * w s i.

Lemma sum_sim sw k p ds : forall x kont kont', (forall y, psim (kont y) (kont' y)) ->
  psim (xbwd_sum K P0 vbat pml0 pml1 v sw k p ds x kont) (bwd_sum K P0 vbat pml0 pml1 v2 sw k p ds x kont').
Proof.
  induction ds as [|d ds IH]; intros x kont kont' H; [apply H|]. cbn [xbwd_sum bwd_sum].
  destruct (quiet_q sw d) as (Q1 & Q2 & Q3 & Q4 & Q5 & Q6). destruct (gpml pml0 pml1 p d).
  - apply ps_rd_st; [exact Q1|]. intros WFC. apply ps_rd_st; [exact Q5|]. intros ZETA. apply ps_rd_st; [exact Q3|]. intros PSI. cbv zeta.
    match goal with |- BornScGpu.psim _ (xbwd_sum _ _ _ _ _ _ _ _ _ _ ?a _) (bwd_sum _ _ _ _ _ _ _ _ _ _ ?b _) => assert (E : a = b); [|rewrite E; apply IH; exact H] end.
    f_equal. f_equal; [f_equal|]; [apply DIFF1_ext|apply DIFF2_ext]; intros; unfold xv2w; rewrite xv2_eq; reflexivity.
  - apply ps_rd_st; [exact Q1|]. intros WFC.
    match goal with |- BornScGpu.psim _ (xbwd_sum _ _ _ _ _ _ _ _ _ _ ?a _) (bwd_sum _ _ _ _ _ _ _ _ _ _ ?b _) => assert (E : a = b); [|rewrite E; apply IH; exact H] end.
    f_equal. apply DIFF2_ext. intros; unfold xv2w; rewrite xv2_eq; reflexivity.
Qed.
Lemma fields_sim sw k p ds kont kont' : psim kont kont' ->
  psim (xbwd_fields K P0 vbat pml0 pml1 v sw k p ds kont) (bwd_fields K P0 vbat pml0 pml1 v2 sw k p ds kont').
Proof.
  intros H. induction ds as [|d ds IH]; [exact H|]. cbn [xbwd_fields bwd_fields].
  destruct (quiet_q sw d) as (Q1 & Q2 & Q3 & Q4 & Q5 & Q6). destruct (gpml pml0 pml1 p d); [|exact IH].
  apply ps_rd_st; [exact Q1|]. intros WFC. apply ps_rd_st; [exact Q5|]. intros ZETA. apply ps_qload; [exact Q3|]. intros psi. cbv zeta.
  apply ps_qstore; [exact Q4| |].
  - f_equal. f_equal. apply DIFF1_ext. intros; unfold xv2w; rewrite xv2_eq; reflexivity.
  - apply ps_qload; [exact Q1|]. intros c. apply ps_qload; [exact Q5|]. intros z. apply ps_qstore; [exact Q6| |exact IH]. rewrite xv2_eq. ring.
Qed.
Lemma xc_cell k p : inint p -> xc (k * n + idx shape p)%Z = two * xv K P0 vbat v k (idx shape p) * p_dt2 P0.
Proof.
  intros Hp. unfold xc, xv. destruct vbat; [reflexivity|]. do 3 f_equal. symmetry. apply (Z.mod_unique _ _ k); [left; apply win_idx; exact Hp|ring].
Qed.
Lemma ga_quiet : quiet ga.
Proof. destruct Hga as [-> | ->]; exact I. Qed.
Lemma cell_sim sw sto si k p : inint p ->
  psim (xbwd_cell K P0 vbat pml0 pml1 v ga sw sto sr si (k, p)) (bwd_cell K P0 vbat pml0 pml1 v2 ga sw sto sr si (k, p)).
Proof.
  intros Hp. unfold xbwd_cell, bwd_cell. destruct (quiet_q sw 0) as (Q1 & Q2 & _). apply sum_sim. intros y.
  apply ps_qload; [exact Q1|]. intros c. apply ps_qload; [exact Q2|]. intros q. apply ps_qstore; [exact Q2|reflexivity|]. apply fields_sim.
  destruct sto; [|constructor]. apply ps_qload; [exact ga_quiet|]. intros g. apply ps_qload; [exact Q1|]. intros c'.
  constructor. intros dw. cbn [xch fst snd]. apply ps_qstore; [exact ga_quiet| |constructor]. rewrite xc_cell by exact Hp. ring.
Qed.
Lemma launch_sim L tp tp' M M' M1 : (forall th, In th (threads L) -> psim (tp th) (tp' th)) -> kexec K L tp M M' -> (forall l, M1 l = xphi M l) ->
  exists M1', kexec K L tp' M1 M1' /\ forall l, M1' l = xphi M' l.
Proof.
  intros H [Hv He] E. destruct (exec_sim loc_eq xch _ M M' He (map tp' (threads L)) M1) as (M1' & H1 & H2); [|exact E|exists M1'; split; [split; assumption|exact H2]].
  clear - H. induction (threads L) as [|th ths IH]; constructor; [apply H; left; reflexivity|apply IH; intros t Ht; apply H; right; exact Ht].
Qed.
Lemma rec_sim a m locs t th : quiet a -> psim (rec_thread K P0 NS a m locs t th) (rec_thread K P0 NS a m locs t th).
Proof.
  intros Q. apply psim_seqp. intros [k j] _. cbn [rec_loc]. destruct (0 <=? _)%Z; [|constructor]. apply ps_qload; [exact Q|]. intros x. apply ps_qstore; [exact I|reflexivity|constructor].
Qed.
Lemma add_sim a m locs f th : quiet a -> psim (add_thread K P0 NS a m locs f th) (add_thread K P0 NS a m locs f th).
Proof.
  intros Q. apply psim_seqp. intros [k j] _. cbn [add_loc]. destruct (0 <=? _)%Z; [|constructor]. apply ps_qload; [exact Q|]. intros x. apply ps_qstore; [exact Q|reflexivity|constructor].
Qed.
Lemma thread_sim sw sto si th : In th (threads (launch_cells fd shape NS)) -> psim (xbwd_thread K P0 NS vbat pml0 pml1 v ga sw sto sr si th) (bwd_thread K P0 NS vbat pml0 pml1 v2 ga sw sto sr si th).
Proof.
  intros Ht. apply psim_seqp. intros [k p] Hi. apply cell_sim.
  apply (In_cells fd shape NS (fd_nonneg K P0 NS Hsz) Hsz k p). apply in_flat_map. exists th. split; assumption.
Qed.
Lemma step_sim sw t M M' M1 : xbwd_step K P0 NS nsrc nrecsc srcs recssc vbat pml0 pml1 v ga srg sr gr sw t M M' -> (forall l, M1 l = xphi M l) ->
  exists M1', gbwd_step K P0 NS nsrc nrecsc srcs recssc vbat pml0 pml1 v2 ga srg sr gr sw t M1 M1' /\ forall l, M1' l = xphi M' l.
Proof.
  intros (A1 & A2 & H1 & H2 & H3) E. destruct (quiet_q sw 0) as (Q1 & Q2 & _).
  assert (X1 : exists B1, (if (0 <? nsrc)%Z then kexec K (launch_locs nsrc NS) (rec_thread K P0 NS (qwfc sw) nsrc srcs t) M1 B1 else B1 = M1) /\ forall l, B1 l = xphi A1 l).
  { destruct (0 <? nsrc)%Z; [|subst A1; exists M1; auto]. apply (launch_sim _ _ _ M A1 M1 (fun th _ => rec_sim _ _ _ _ th Q1) H1 E). }
  destruct X1 as (B1 & G1 & E1).
  destruct (launch_sim _ _ _ A1 A2 B1 (fun th Ht => thread_sim sw _ (t / sr)%Z th Ht) H2 E1) as (B2 & G2 & E2).
  assert (X3 : exists B3, (if (0 <? nrecsc)%Z then kexec K (launch_locs nrecsc NS) (add_thread K P0 NS (qwfp sw) nrecsc recssc (gr t)) B2 B3 else B3 = B2) /\ forall l, B3 l = xphi M' l).
  { destruct (0 <? nrecsc)%Z; [|subst M'; exists B2; auto]. apply (launch_sim _ _ _ A2 M' B2 (fun th _ => add_sim _ _ _ _ th Q2) H3 E2). }
  destruct X3 as (B3 & G3 & E3). exists B3. split; [|exact E3]. exists B1, B2. split; [exact G1|]. split; [rewrite andb_comm; exact G2|exact G3].
Qed.
Lemma loop_sim ts : forall sw M M' M1, xbwd_loop K P0 NS nsrc nrecsc srcs recssc vbat pml0 pml1 v ga srg sr gr sw ts M M' -> (forall l, M1 l = xphi M l) ->
  exists M1', gbwd_loop K P0 NS nsrc nrecsc srcs recssc vbat pml0 pml1 v2 ga srg sr gr sw ts M1 M1' /\ forall l, M1' l = xphi M' l.
Proof.
  induction ts as [|t ts IH]; intros sw M M' M1 Hl E; inversion Hl as [|? ? ? ? A ? Hs Hl']; subst; [exists M1; split; [constructor|exact E]|].
  destruct (step_sim sw t M A M1 Hs E) as (B & G & EB). destruct (IH (negb sw) A M' B Hl' EB) as (M1' & G' & E'). exists M1'. split; [econstructor; eassumption|exact E'].
Qed.
Notation vk k := (shot_v K P0 vbat v2 k).
Notation grk k := (fun t => row (gr t) nrecsc k).
Notation stk k := (fun s => sh K P0 k (wst s)).
Notation gvis := (gvis K P0 NS pml0 pml1).
(** The scaled memory holds what the shots have. *)
Definition sinv (sw : bool) (M : mem loc K) (fam : Z -> bmem K) : Prop := ginv K P0 NS nsrc ga wst sw (xphi M) fam.
Lemma sinv_ext sw M M' fam : (forall l, xphi M' l = xphi M l) -> sinv sw M fam -> sinv sw M' fam.
Proof. intros E H. exact (ginv_ext K P0 NS nsrc ga wst sw (xphi M) (xphi M') fam E H). Qed.
Lemma sinv_swap sw M fam : sinv sw M fam -> sinv (negb sw) M (fun k => b_swap K (fam k)).
Proof. intros H. apply (ginv_swap K P0 NS nsrc ga wst sw (xphi M) fam H). Qed.
Lemma scall_inv sw s cf M M' fam : sinv sw M fam ->
  xbwd_loop K P0 NS nsrc nrecsc srcs recssc vbat pml0 pml1 v ga srg sr gr sw (rev (zrange (s * sr - Z.min s cf * sr) (s * sr))) M M' ->
  sinv sw M' (fun k => c_backward K (SP k) (vk k) (gvis k) (stk k) srg sr (grk k) (Z.min s cf * sr) (s * sr) (fam k)) /\ (ga = NGradShot -> forall j, M' (NGrad, j) = M (NGrad, j)).
Proof.
  intros Hi Hl. destruct (loop_sim _ sw M M' (xphi M) Hl (fun l => eq_refl)) as (M1 & G & E).
  destruct (bcall_inv K P0 NS nsrc nrecsc srcs recssc vbat Hnsrc Hnrec Hsz Hsrc Hrec Huniq ga Hga wst pml0 pml1 Hpml v2 srg sr gr sw s cf (xphi M) M1 fam Hi G) as [A B]. split.
  - exact (ginv_ext K P0 NS nsrc ga wst sw M1 (xphi M') _ (fun l => eq_sym (E l)) A).
  - intros Eg j. specialize (B Eg j). rewrite E in B. exact B.
Qed.
End Call.
End Sc.
