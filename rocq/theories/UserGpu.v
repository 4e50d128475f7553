(** * Proofs about [scalar] on a CUDA device. *)
From Coq Require Import List ZArith QArith Reals Lra Lia Bool Permutation.
From Verif Require Import Ops Sums Grid Stencil StencilOrder ScalarModel ScalarRefine ScalarForward ScalarBackward ScalarFunc ScalarApi ScalarPhys ScalarMore ScalarReach GeomModel Geom Geom2 GeomLocs SetupModel RealModel RealThm
  Resample ResampleThm Param ShotsModel Shots ShotsRun ShotsThm Threads GpuModel GpuLaunch GpuFwd GpuLocs GpuThm UserModel UserThm UserCrop UserEqs UserGpuModel.
Import ListNotations.
Local Open Scope Z_scope.

(** A tensor of locations is rectangular, with fewer than [2 ^ 31] locations per shot. *)
Definition rect (o : option loct) : Prop := match o with Some l => exists m, Z.of_nat m < 2 ^ 31 /\ Forall (fun row => length row = m) (lt_data l) | None => True end.

Lemma concat_rect {A} (rows : list (list A)) m d b j : Forall (fun r => length r = m) rows -> (b < length rows)%nat -> (j < m)%nat ->
  length (concat rows) = (length rows * m)%nat /\ nth (b * m + j) (concat rows) d = nth j (nth b rows []) d.
Proof.
  intros H. revert b. induction H as [|r rows Hr H IH]; intros b Hb Hj; cbn in Hb; [lia|]. cbn [concat length].
  assert (Hlen : length (concat rows) = (length rows * m)%nat).
  { clear - H. induction H as [|r rows Hr H IH]; [reflexivity|]. cbn. rewrite app_length, IH. lia. }
  split; [rewrite app_length, Hlen; lia|]. destruct b as [|b]; cbn [nth].
  - rewrite app_nth1 by lia. reflexivity.
  - rewrite app_nth2 by (cbn; lia). rewrite <- (proj2 (IH b ltac:(lia) Hj)). f_equal. rewrite Hr. cbn. lia.
Qed.
Lemma concat_rect_len {A} (rows : list (list A)) m : Forall (fun r => length r = m) rows -> length (concat rows) = (length rows * m)%nat.
Proof. intros H. induction H as [|r rows Hr H IH]; [reflexivity|]. cbn. rewrite app_length, IH. lia. Qed.

Lemma zrange_nth {A} (l : list A) (d : A) (n : Z) : n = Z.of_nat (length l) -> map (fun j => nth (Z.to_nat j) l d) (zrange 0 n) = l.
Proof.
  intros ->. unfold zrange. rewrite map_map, Z.sub_0_r, Nat2Z.id. apply (nth_ext _ _ d d).
  - rewrite map_length, seq_length. reflexivity.
  - intros i Hi. rewrite map_length, seq_length in Hi. rewrite (nth_indep _ d (nth (Z.to_nat (0 + Z.of_nat O)) l d)) by (rewrite map_length, seq_length; exact Hi).
    rewrite (map_nth (fun x => nth (Z.to_nat (0 + Z.of_nat x)) l d)), seq_nth by exact Hi. f_equal. lia.
Qed.
Lemma zrange_at n j : (j < n)%nat -> nth j (zrange 0 (Z.of_nat n)) 0 = Z.of_nat j.
Proof.
  intros H. unfold zrange. rewrite Z.sub_0_r, Nat2Z.id. rewrite (nth_indep _ 0 (0 + Z.of_nat 0)) by (rewrite map_length, seq_length; exact H).
  rewrite (map_nth (fun k => 0 + Z.of_nat k)), seq_nth by exact H. lia.
Qed.
Lemma unidx_row m sh k i : 0 <= i < prodZ sh -> unidx (m :: sh) (k * prodZ sh + i) = k :: unidx sh i.
Proof. intros H. cbn [unidx]. rewrite (Z.add_comm (k * prodZ sh) i), Z.div_add, Z.mod_add, Z.div_small, Z.mod_small by lia. f_equal. Qed.

Section Dev.
Variables (c : call) (nd : nat) (s : setup).
Hypothesis Hs : scalar_setup c nd = Some s.
Notation E := (su_ext s).
Notation fdp := (repeat (c_accuracy c / 2) (2 * nd)).
Notation pad := (sum_pad fdp (su_pw s)).

Definition tabs (w : bool) : list (list (list Z)) := if w then su_src s else su_rec s.
Definition tin (w : bool) : option loct := if w then c_src c else c_rec c.

Lemma tabs_out w : exists rows, tabs w = [rows] /\ length rows = Z.to_nat (su_nb s) /\ (rect (tin w) -> exists m, Z.of_nat m < 2 ^ 31 /\ Forall (fun r => length r = m) rows) /\ Forall (fun r => unique_ok r = true) rows.
Proof.
  pose proof (tab_run 0%R _ _ _ _ _ _ _ _ _ _ _ _ _ _ _ (su_Lfd c nd) (su_Lpw c nd s Hs) (su_nd c nd s Hs) (su_survey c nd s Hs) w) as H.
  assert (T : extract_locations [tin w] E pad (su_nb s) = Some (tabs w)) by (destruct w; exact H). clear H.
  unfold extract_locations in T. cbv zeta in T. cbn [map sequence] in T. destruct (tin w) as [l|].
  - destruct (_ && _) eqn:Eb in T; [|discriminate]. destruct (forallb unique_ok _) eqn:Eu in T; [|discriminate]. injection T as T. rewrite <- T.
    eexists. split; [reflexivity|]. apply andb_prop in Eb. destruct Eb as [Eb _]. apply Z.eqb_eq in Eb. rewrite map_length. split; [lia|]. split.
    + intros (m & Hlt & Hm). exists m. split; [exact Hlt|]. apply Forall_forall. intros r Hr. apply in_map_iff in Hr. destruct Hr as (q & <- & Hq). rewrite map_length. rewrite Forall_forall in Hm. auto.
    + apply Forall_forall. rewrite forallb_forall in Eu. exact Eu.
  - injection T as T. rewrite <- T. eexists. split; [reflexivity|]. rewrite repeat_length. split; [reflexivity|]. split.
    + intros _. exists O. split; [lia|]. apply Forall_forall. intros r Hr. apply repeat_spec in Hr. subst r. reflexivity.
    + apply Forall_forall. intros r Hr. apply repeat_spec in Hr. subst r. reflexivity.
Qed.

Section Tab.
Variable w : bool.
Hypothesis Hrect : rect (tin w).
Notation n := (per_shot (tabs w) (su_nb s)).
Lemma per_shot_bound b : Z.of_nat b < su_nb s -> n = Z.of_nat (length (shot_row (tabs w) b)) /\ n < 2 ^ 31.
Proof.
  intros Hb. destruct (tabs_out w) as (rows & T & L & HR & _). destruct (HR Hrect) as (m & Hlt & Hm). unfold per_shot, shot_row. rewrite T. cbn [nth].
  rewrite (concat_rect_len _ _ Hm), L. rewrite Nat2Z.inj_mul, Z2Nat.id by lia. rewrite Z.mul_comm, Z.div_mul by lia.
  rewrite Forall_forall in Hm. rewrite Hm; [split; [reflexivity|exact Hlt]|]. apply nth_In. lia.
Qed.
Lemma per_shot_len b : Z.of_nat b < su_nb s -> n = Z.of_nat (length (shot_row (tabs w) b)).
Proof. intros Hb. apply (per_shot_bound b Hb). Qed.
Lemma flat_at b j : Z.of_nat b < su_nb s -> 0 <= j < n -> flat_locs (tabs w) (Z.of_nat b * n + j) = nth (Z.to_nat j) (shot_row (tabs w) b) IGNORE.
Proof.
  intros Hb Hj. rewrite (per_shot_len b Hb) in Hj |- *. destruct (tabs_out w) as (rows & T & L & HR & _). destruct (HR Hrect) as (m & Hlt & Hm). unfold flat_locs, shot_row in *. rewrite T in *. cbn [nth] in *.
  assert (Lb : length (nth b rows []) = m) by (rewrite Forall_forall in Hm; apply Hm, nth_In; lia). rewrite Lb in *.
  replace (Z.to_nat (Z.of_nat b * Z.of_nat m + j)) with (b * m + Z.to_nat j)%nat by lia. apply concat_rect; [exact Hm|lia|lia].
Qed.
Lemma flat_row b : Z.of_nat b < su_nb s -> map (fun j => flat_locs (tabs w) (Z.of_nat b * n + j)) (zrange 0 n) = shot_row (tabs w) b.
Proof.
  intros Hb. rewrite <- (zrange_nth (shot_row (tabs w) b) IGNORE n (per_shot_len b Hb)). apply map_ext_in. intros j Hj.
  apply flat_at; [exact Hb|]. apply In_zrange in Hj. exact Hj.
Qed.
Lemma flat_distinct k j j' : 0 <= k < su_nb s -> 0 <= j < n -> 0 <= j' < n -> 0 <= flat_locs (tabs w) (k * n + j) ->
  flat_locs (tabs w) (k * n + j) = flat_locs (tabs w) (k * n + j') -> j = j'.
Proof.
  intros Hk Hj Hj'. rewrite <- (Z2Nat.id k) by lia. assert (Hb : Z.of_nat (Z.to_nat k) < su_nb s) by lia. set (b := Z.to_nat k) in *. rewrite !(flat_at b) by assumption.
  pose proof (per_shot_len b Hb) as Ln. rewrite Ln in Hj, Hj'. intros H0 He.
  destruct (tabs_out w) as (rows & T & L & _ & HU). unfold shot_row in *. rewrite T in *. cbn [nth] in *.
  assert (Hu : unique_ok (nth b rows []) = true) by (rewrite Forall_forall in HU; apply HU, nth_In; lia). set (row := nth b rows []) in *. clearbody row.
  unfold unique_ok in Hu. cbv zeta in Hu. apply Nat.eqb_eq in Hu. clear - Hu Hj Hj' H0 He.
  assert (ND : NoDup (filter (fun x => negb (x =? IGNORE)) row)).
  { set (l := filter _ row) in *. clearbody l. clear - Hu. induction l as [|x l IH]; [constructor|]. cbn in Hu.
    assert (Hle : forall l, (length (nodup Z.eq_dec l) <= length l)%nat).
    { clear. induction l as [|y l IH]; cbn; [lia|]. destruct (in_dec Z.eq_dec y l); cbn; lia. }
    specialize (Hle l). destruct (in_dec Z.eq_dec x l); cbn in Hu; [lia|].
    constructor; [assumption|]. apply IH. lia. }
  clear Hu. enough (Z.to_nat j = Z.to_nat j') by lia. assert (I : (Z.to_nat j < length row)%nat) by lia. assert (I' : (Z.to_nat j' < length row)%nat) by lia. clear Hj Hj'.
  revert I I' H0 He. generalize (Z.to_nat j), (Z.to_nat j'). induction row as [|x row IH]; intros [|a] [|a'] I I' H0 He; cbn in I, I'; try lia; auto.
  - exfalso. cbn in H0, He, ND. destruct (Z.eqb_spec x IGNORE); [unfold IGNORE in *; lia|]. cbn in ND. apply NoDup_cons_iff in ND. apply (proj1 ND).
    apply filter_In. split; [rewrite He; apply nth_In; lia|]. apply negb_true_iff, Z.eqb_neq. assumption.
  - exfalso. cbn in H0, He, ND. rewrite He in H0. destruct (Z.eqb_spec x IGNORE); [unfold IGNORE in *; lia|]. cbn in ND. apply NoDup_cons_iff in ND. apply (proj1 ND).
    apply filter_In. split; [rewrite <- He; apply nth_In; lia|]. apply negb_true_iff, Z.eqb_neq. assumption.
  - f_equal. cbn in H0, He. apply IH; try assumption; try lia. cbn in ND. destruct (negb _); [inversion ND; assumption|exact ND].
Qed.
Lemma flat_ok P : (forall b, Forall (loc_ok R_ops P) (shot_row (tabs w) b)) -> forall j, 0 <= j < su_nb s * n -> loc_ok R_ops P (flat_locs (tabs w) j).
Proof.
  intros H j Hj. assert (Hnb : 0 < su_nb s) by (pose proof (su_batch c nd s Hs); destruct (Z.eq_dec (su_nb s) 0) as [e|]; [rewrite e in Hj; cbn in Hj; lia|lia]).
  assert (Hn : 0 < n) by nia.
  assert (Hq : 0 <= j / n < su_nb s) by (split; [apply Z.div_pos; lia|apply Z.div_lt_upper_bound; lia]).
  pose proof (Z.mod_pos_bound j n Hn) as Hm. rewrite (Z.div_mod j n) by lia. rewrite (Z.mul_comm n). rewrite <- (Z2Nat.id (j / n)) by lia. rewrite flat_at by lia.
  specialize (H (Z.to_nat (j / n))). rewrite Forall_forall in H. apply H, nth_In. pose proof (per_shot_len (Z.to_nat (j / n)) ltac:(lia)). lia.
Qed.
End Tab.

Notation nsrc := (per_shot (su_src s) (su_nb s)).
Notation nrec := (per_shot (su_rec s) (su_nb s)).

Lemma dev_model_row b i : area_ok c nd -> Z.of_nat b < su_nb s -> 0 <= i < prodZ (su_shape s) ->
  (if v_batched s then dev_model s (Z.of_nat b * prodZ (su_shape s) + i) else dev_model s i) = shot_model s b i.
Proof.
  intros Ha Hb Hi. destruct (su_model c nd s Hs Ha) as (m' & Hm & Hmb & Hsh & _). unfold v_batched, dev_model, shot_model. pose proof (su_shape_eq c nd s Hs Ha) as Es. rewrite Hm. cbn [nth]. rewrite Hsh, Es in *. cbn [hd].
  set (mb := mbatch nd (c_v c)) in *. clearbody mb. destruct (Z.ltb_spec 1 mb).
  - rewrite unidx_row by exact Hi. destruct (Z.eqb_spec mb 1); [lia|reflexivity].
  - assert (mb = 1) by lia. subst mb. change i with (0 * prodZ (padded_shape E pad) + i) at 1. rewrite unidx_row by exact Hi. reflexivity.
Qed.
Lemma dev_amps_row b t : rect (c_src c) -> Z.of_nat b < su_nb s -> map (fun j => dev_amps s t (Z.of_nat b * nsrc + j)) (zrange 0 nsrc) = shot_amps s b t.
Proof.
  intros Hr Hb. pose proof (per_shot_len true Hr b Hb) as Ln. cbn [tabs] in Ln.
  rewrite <- (zrange_nth (shot_amps s b t) 0%R nsrc).
  2:{ rewrite (shot_amps_length s b t). exact Ln. }
  apply map_ext_in. intros j Hj. apply In_zrange in Hj. unfold dev_amps. rewrite Z.div_add_l, Z.div_small by lia. rewrite (Z.add_comm _ j), Z.mod_add, Z.mod_small by lia.
  rewrite Z.add_0_r, Nat2Z.id. reflexivity.
Qed.

(** The sizes fit in the integers of the kernels. *)
Definition sizes_ok : Prop := (nd <= 3)%nat /\ Forall (fun m => m < 2 ^ 31) (su_shape s) /\ su_nb s < 2 ^ 31.

Lemma dev_shot b vis vrg store store' U R St : locs_whole nd [c_src c] -> locs_whole nd [c_rec c] -> rect (c_src c) -> rect (c_rec c) -> area_ok c nd -> c_freq c <> Some 0%R -> 0 < c_interval c ->
  (su_nt s = 0 \/ c_interval c * su_ratio s <= su_nt s) -> sizes_ok ->
  Z.of_nat b < su_nb s -> fvis R_ops (shot_par s b) (pw_of (su_pw s)) vis ->
  dev_run s vrg store (U, R, St) ->
  exists U1 R1 S1, shot_run s b vis vrg store' = Some (U1, R1, S1) /\ ueq R_ops (shot_par s b) (U (Z.of_nat b)) U1 /\
    dev_data c s b R = shot_data c s b R1.
Proof.
  intros W1 W2 Q1 Q2 Ha Hf Hi Hn (Z1 & Z2 & Z3) Hb Hv [H0 Hrun].
  pose proof (proj2 (per_shot_bound true Q1 b Hb)) as Z4. pose proof (proj2 (per_shot_bound false Q2 b Hb)) as Z5. cbn [tabs] in Z4, Z5.
  pose proof (per_shot_len true Q1 b Hb) as L1. pose proof (per_shot_len false Q2 b Hb) as L2. cbn [tabs] in L1, L2.
  destruct (setup_parts c nd s Hs) as (_ & _ & _ & _ & _ & _ & _ & Hint & _).
  unfold set_sampling_interval in Hint. destruct (_ <? 0) in Hint; [discriminate|]. injection Hint as Hint.
  destruct (su_cfl c nd s Hs) as (_ & _ & _ & _ & Hr & _).
  assert (G : geom_ok R_ops (dev_par s) (pw_of (su_pw s))) by exact (su_geom c nd s Hs b Ha Hf).
  assert (Hsr : 0 < su_ratio s * su_interval s) by nia.
  assert (Hsz : Forall (fun m => 2 * fd_pad (p_acc (dev_par s)) <= m < 2 ^ 31) (p_shape (dev_par s))).
  { change (p_shape (dev_par s)) with (su_shape s). rewrite Forall_forall in Z2 |- *. intros m Hm. split; [|apply Z2, Hm]. destruct (In_nth _ _ 0 Hm) as (d & Hd & <-). destruct (G d Hd) as (g1 & g2 & g3 & _). change (p_shape (dev_par s)) with (su_shape s) in g3. lia. }
  destruct (gpu_forward_cpu R_ops R_is_ring (dev_par s) (pw_of (su_pw s)) (su_nb s) nsrc nrec (flat_locs (su_src s)) (flat_locs (su_rec s)) (v_batched s) G ltac:(lia) ltac:(lia)
    ltac:(split; [change (p_shape (dev_par s)) with (su_shape s); rewrite (su_rank c nd s Hs Ha); pose proof (su_nd c nd s Hs); lia|split; [exact Hsz|lia]])
    (flat_ok true Q1 (dev_par s) (fun b => su_src_ok c nd s Hs b W1 Ha)) (flat_ok false Q2 (dev_par s) (fun b => su_rec_ok c nd s Hs b W2 Ha))
    (dev_model s) (su_ratio s * su_interval s) (su_nt s) Hsr vrg (dev_amps s) None None store (fun k i => store' k (i - Z.of_nat b * prodZ (su_shape s))) (fun _ => zero_st R_ops) vis (U, R, St) (Z.of_nat b)
    (flat_distinct true Q1) ltac:(cbn; lia) ltac:(cbn; lia) ltac:(lia) Hv Hrun) as (U1 & R1 & S1 & H1 & A1 & A2 & _).
  match type of H1 with scalar_forward _ ?p _ _ _ _ _ _ _ _ _ _ = _ => set (P1 := p) in H1 end.
  assert (EP : P1 = shot_par s b).
  { assert (F1 := flat_row true Q1 b Hb). assert (F2 := flat_row false Q2 b Hb). cbn [tabs] in F1, F2. unfold shot_par. rewrite <- F1, <- F2. reflexivity. }
  rewrite EP in H1. clear P1 EP.
  assert (Hvi : forall reg p, In (reg, p) vis -> interior R_ops (shot_par s b) p = true).
  { intros reg p Hp. destruct (fvis_ok R_ops (shot_par s b) (pw_of (su_pw s)) G vis Hv) as (_ & V & _). apply V. exists reg. exact Hp. }
  assert (Glt : forall l, loc_ok R_ops (dev_par s) l -> l < prodZ (su_shape s)) by exact (loc_lt_n R_ops (dev_par s) (pw_of (su_pw s)) G).
  pose proof (scalar_forward_rel R_ops R_ops eq (oprel_eq R_ops) (shot_par s b) (shot_par s b) ltac:(split; intros; reflexivity)
    (Forall_impl _ Glt (su_src_ok c nd s Hs b W1 Ha)) (Forall_impl _ Glt (su_rec_ok c nd s Hs b W2 Ha)) (fun _ => True) (fun _ => True) (pw_of (su_pw s)) (shot_v R_ops (dev_par s) (v_batched s) (dev_model s) (Z.of_nat b)) (shot_model s b) vis vrg (su_ratio s * su_interval s)
    (fun t => row (dev_amps s t) nsrc (Z.of_nat b)) (shot_amps s b) (su_nt s) None (fun s0 => sh R_ops (dev_par s) (Z.of_nat b) (fun i => store' s0 (i - Z.of_nat b * prodZ (su_shape s)))) store' (zero_st R_ops) (zero_st R_ops) Hvi
    ltac:(intros i Hii; etransitivity; [|exact (dev_model_row b i Ha Hb Hii)]; unfold shot_v, sh; destruct (v_batched s); reflexivity)
    ltac:(intros t _; apply Forall2_eq; exact (dev_amps_row b t Q1 Hb))
    ltac:(intros; exact I)
    ltac:(intros k _ i _; unfold sh; f_equal; cbn; lia) Hsr ltac:(discriminate) ltac:(intros; exact I) ltac:(split; intros; reflexivity)) as HR.
  cbv beta in HR. rewrite H1 in HR.
  destruct (scalar_forward R_ops (shot_par s b) _ (shot_model s b) _ _ _ _ _ _ _ _) as [[[U2 R2] S2]|] eqn:E2; [|contradiction]. destruct HR as ([B1 B2 B3 B4] & B5 & _).
  exists U2, R2, S2. split; [|split].
  - unfold shot_run. destruct (Z.eqb_spec (su_ratio s * su_interval s) 0); [lia|]. exact E2.
  - intros q Hq. destruct (A1 q Hq) as (a1 & a2 & a3). split; [exact (eq_trans a1 (B1 q Hq))|]. split; [exact (eq_trans a2 (B2 q Hq))|]. intros d Hd. destruct (a3 d Hd) as [x1 x2].
    split; [exact (eq_trans x1 (B3 d q Hd Hq))|exact (eq_trans x2 (B4 d q Hd Hq))].
  - unfold dev_data, shot_data. rewrite L2, Nat2Z.id. apply map_ext_in. intros j Hj. apply in_seq in Hj. f_equal. apply map_ext. intros t.
    specialize (B5 (Z.of_nat t) I). apply Forall2_eq in B5. rewrite <- B5, <- A2, L2. unfold row. symmetry.
    rewrite (nth_indep _ 0%R (R (Z.of_nat t) (Z.of_nat b * Z.of_nat (length (shot_row (su_rec s) b)) + 0))) by (unfold zrange; rewrite !map_length, seq_length; lia).
    rewrite (map_nth (fun j => R (Z.of_nat t) (Z.of_nat b * Z.of_nat (length (shot_row (su_rec s) b)) + j))). rewrite zrange_at by lia. reflexivity.
Qed.

Lemma dev_solves b vrg store U R St : locs_whole nd [c_src c] -> locs_whole nd [c_rec c] -> rect (c_src c) -> rect (c_rec c) -> area_ok c nd -> c_freq c <> Some 0%R -> 0 < c_interval c ->
  (su_nt s = 0 \/ c_interval c * su_ratio s <= su_nt s) -> sizes_ok -> Z.of_nat b < su_nb s -> dev_run s vrg store (U, R, St) ->
  exists l a ps (W : nat -> st R_ops),
    c_src c = Some l /\ c_amps c = Some a /\ nth_error (lt_data l) b = Some ps /\ nth 1 (t_shape a) 0 = lt_count l /\
    (forall d x, s_wfc R_ops (W O) x = 0 /\ s_wfp R_ops (W O) x = 0 /\ s_psi R_ops (W O) d x = 0 /\ s_zeta R_ops (W O) d x = 0)%R /\
    (forall k, (k < steps c s)%nat -> wave_step (call_medium c nd (su_ratio s) (su_acc s) (su_vel s) (su_ext s) b) (call_source c (su_ratio s) ps a b k) (W k) (W (Datatypes.S k))) /\
    (forall lr qs j q, c_rec c = Some lr -> nth_error (lt_data lr) b = Some qs -> nth_error qs j = Some q ->
       nth_error (dev_data c s b R) j = Some (downsample (Z.to_nat (su_ratio s)) (c_ft c) (c_tp c) (c_taper c) 0%R
         (map (fun t => if (negb (coord 0 q =? IGNORE) && (t <? steps c s)%nat)%bool then s_wfc R_ops (W t) q else 0%R) (seq 0 (Z.to_nat (su_nt s)))))) /\
    (forall x, domain (call_medium c nd (su_ratio s) (su_acc s) (su_vel s) (su_ext s) b) x ->
       let q := map (fun d => coord d x - fst (nth d (su_ext s) (0, 0)) + nth (2 * d) (per_list (c_pw c) (2 * nd)) 0) (seq 0 nd) in
       s_wfc R_ops (U (Z.of_nat b)) q = s_wfc R_ops (W (steps c s)) x /\ s_wfp R_ops (U (Z.of_nat b)) q = s_wfp R_ops (W (steps c s)) x /\
       forall d, (d < nd)%nat -> s_psi R_ops (U (Z.of_nat b)) d q = s_psi R_ops (W (steps c s)) d x /\ s_zeta R_ops (U (Z.of_nat b)) d q = s_zeta R_ops (W (steps c s)) d x).
Proof.
  intros W1 W2 Q1 Q2 Ha Hf Hi Hn Hz Hb Hrun.
  set (vis := visits R_ops (shot_par s b) (pml_begin R_ops (shot_par s b) 2 (pw_of (su_pw s))) (pml_end R_ops (shot_par s b) 2 (pw_of (su_pw s)))).
  assert (Hv : fvis R_ops (shot_par s b) (pw_of (su_pw s)) vis) by apply Permutation_refl.
  destruct (dev_shot b vis vrg store store U R St W1 W2 Q1 Q2 Ha Hf Hi Hn Hz Hb Hv Hrun) as (U1 & R1 & S1 & H1 & H2 & H3).
  destruct (solves_user c nd s b vis vrg store Hs W1 W2 Ha Hf Hi Hn Hb Hv) as (l & a & ps & U' & R' & S' & W & A1 & A2 & A3 & A4 & A5 & A6 & A7 & A8 & A9).
  rewrite H1 in A5. injection A5 as <- <- <-. exists l, a, ps, W. repeat (split; [assumption|]). split; [rewrite H3; exact A8|].
  intros x Hx q. destruct (A9 x Hx) as (B1 & B2 & B3). fold q in B1, B2, B3.
  assert (Hu : In q (upts R_ops (shot_par s b))).
  { assert (Lq : length q = nd) by (unfold q; rewrite map_length, seq_length; reflexivity). pose proof Hx as [Lx _]. cbn in Lx.
    assert (Tq : topad R_ops (shot_par s b) q = rel E pad x).
    { apply (pt_ext nd); [unfold topad; rewrite map_length; exact Lq|apply (rl_length c nd s Hs)|]. intros d Hd. rewrite coord_topad by lia. rewrite (coord_rl c nd s Hs b d x Hd).
      unfold q. rewrite coord_map_seq by exact Hd. destruct (setup_parts c nd s Hs) as (_ & _ & _ & _ & Hw & _). apply set_pml_width_spec in Hw. destruct Hw as (_ & _ & Hw). rewrite Hw. cbn. lia. }
    apply In_upts. rewrite Tq. apply (domain_int c nd s Hs Ha b); assumption. }
  destruct (H2 q Hu) as (C1 & C2 & C3). split; [exact (eq_trans C1 B1)|]. split; [exact (eq_trans C2 B2)|]. intros d Hd.
  assert (Hd' : (d < length (p_shape (shot_par s b)))%nat) by (change (p_shape (shot_par s b)) with (su_shape s); rewrite (su_rank c nd s Hs Ha); exact Hd).
  destruct (C3 d Hd') as [c1 c2]. destruct (B3 d Hd) as [b1 b2]. split; [exact (eq_trans c1 b1)|exact (eq_trans c2 b2)].
Qed.

Lemma dev_exists vrg store : rect (c_src c) -> rect (c_rec c) -> 0 < c_interval c -> 0 < su_nb s < 2 ^ 16 ->
  let fd := fd_pad (su_acc s) in
  match su_shape s with
  | [nz; ny; nx] => 2 * fd < nx < 2 ^ 31 /\ 2 * fd < ny <= 2 * fd + 4 * 65535 /\ 2 * fd < nz <= 2 * fd + 65535
  | [ny; nx] => 2 * fd < nx < 2 ^ 31 /\ 2 * fd < ny <= 2 * fd + 4 * 65535
  | [nx] => 2 * fd < nx < 2 ^ 31
  | _ => False
  end -> exists out, dev_run s vrg store out.
Proof.
  intros Q1 Q2 Hi Hnb fd Hsh. destruct (per_shot_bound true Q1 O ltac:(lia)) as [L1 Z4]. destruct (per_shot_bound false Q2 O ltac:(lia)) as [L2 Z5]. cbn [tabs] in L1, L2, Z4, Z5.
  destruct (setup_parts c nd s Hs) as (_ & _ & _ & _ & _ & _ & _ & Hint & _).
  unfold set_sampling_interval in Hint. destruct (_ <? 0) in Hint; [discriminate|]. injection Hint as Hint.
  destruct (su_cfl c nd s Hs) as (_ & _ & _ & _ & Hr & _).
  destruct (proj1 (gpu_exists R_ops (dev_par s) (su_nb s) nsrc nrec (flat_locs (su_src s)) (flat_locs (su_rec s)) (v_batched s) ltac:(lia) ltac:(lia) Hnb Hsh)
    (pw_of (su_pw s)) (dev_model s) vrg (su_ratio s * su_interval s) (dev_amps s) (su_nt s) None store (fun _ => zero_st R_ops)) as [out H].
  exists out. split; [nia|exact H].
Qed.
End Dev.
