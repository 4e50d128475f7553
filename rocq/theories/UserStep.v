(** * The internal time step of accepted calls of [acoustic] and [elastic]. *)
From Coq Require Import List ZArith QArith Reals Lra Lia Bool.
From Verif Require Import Ops Grid Stencil StencilOrder ScalarModel ScalarRefine ScalarFunc ScalarApi GeomModel Geom Geom2 GeomLocs SetupModel RealModel RealThm Stag StagKernel AcousticModel ElasticModel StagEqs StagSetup UserModel UserThm UserCrop UserEqs UserStagModel UserStag UserAcoustic UserElastic UserEx UserStagEx UserElasticEx.
Import ListNotations.
Local Open Scope Z_scope.


Lemma stag_step models o amps src rec vmin vmax nw nd s : stag_setup models o amps src rec vmin vmax nw nd = Some s ->
  (su_dt s * IZR (su_ratio s) = o_dt o)%R /\ (1 <= su_ratio s) /\
  (Rabs (su_dt s) <= 6 / 10 / (sqrt (fold_right (fun g x => 1 / (g ^ 2) + x) 0 (per_list (o_gs o) nd)) * su_vel s))%R /\
  (o_max_vel o = None -> su_vel s = vmax) /\ (forall v, o_max_vel o = Some v -> su_vel s = Rabs v).
Proof.
  intros H. destruct (gs_parts H) as (_ & Hg & Hc & _ & _ & _ & _ & _ & _ & _ & Hv & _).
  apply cfl_thm in Hc; [|unfold cfl_eps; lra|unfold cfl_c_max; lra]. destruct Hc as (_ & _ & _ & _ & R1 & I1 & _ & B & _).
  apply set_grid_spacing_spec in Hg. destruct Hg as (_ & _ & Hg). split; [exact I1|]. split; [exact R1|]. split.
  - rewrite <- Hg. unfold cfl_c_max in B. exact B.
  - split; [intros Hn|intros v Hn]; unfold set_max_vel in Hv; rewrite Hn in Hv; [|destruct (rle _ _) in Hv; [discriminate|]]; congruence.
Qed.
Lemma max_of_ge l m : max_of l = Some m -> forall x, In x l -> (Rabs x <= m)%R.
Proof.
  intros H x Hx. unfold max_of in H. apply (in_map Rabs) in Hx. destruct (map Rabs l) as [|y r]; [destruct Hx|]. injection H as <-. destruct (fold_Rmax_ge r y) as [A B]. rewrite Forall_forall in B.
  destruct Hx as [<-|Hx]; [exact A|apply B, Hx].
Qed.

Theorem acoustic_step_user c nd s : acoustic_setup c nd = Some s ->
  (su_dt s * IZR (su_ratio s) = o_dt (a_opts c))%R /\ 1 <= su_ratio s /\
  (Rabs (su_dt s) <= 6 / 10 / (sqrt (fold_right (fun g x => 1 / (g ^ 2) + x) 0 (per_list (o_gs (a_opts c)) nd)) * su_vel s))%R /\
  (forall v, o_max_vel (a_opts c) = Some v -> su_vel s = Rabs v) /\
  (o_max_vel (a_opts c) = None -> forall p, inb (abox (t_shape (a_v c))) p = true -> Rabs (t_at (a_v c) p) <= su_vel s)%R.
Proof.
  intros H. unfold acoustic_setup in H. destruct (max_abs (a_v c)) as [v|] eqn:Em; [|discriminate]. destruct (negb _) in H; [discriminate|].
  destruct (stag_step _ _ _ _ _ _ _ _ _ _ H) as (A & B & C & D & D'). split; [exact A|]. split; [exact B|]. split; [exact C|]. split; [exact D'|].
  intros Hn p Hp. rewrite (D Hn). apply (max_of_ge (elems (a_v c)) v Em). apply in_map. apply In_box_pts. exact Hp.
Qed.

Theorem elastic_step_user c nd s : elastic_setup c nd = Some s ->
  some_area (e_opts c) nd (map (e_src c) (el_allC nd)) (map (e_rec c) (el_allC nd)) ->
  (su_dt s * IZR (su_ratio s) = o_dt (e_opts c))%R /\ 1 <= su_ratio s /\
  (Rabs (su_dt s) <= 6 / 10 / (sqrt (fold_right (fun g x => 1 / (g ^ 2) + x) 0 (per_list (o_gs (e_opts c)) nd)) * su_vel s))%R /\
  (forall v, o_max_vel (e_opts c) = Some v -> su_vel s = Rabs v) /\
  (o_max_vel (e_opts c) = None -> forall b p, (0 <= b < su_nb s)%Z -> inb (abox (last_n nd (t_shape (e_lamb c)))) p = true ->
   let at_ m := mval nd m (if (mbatch nd m =? 1)%Z then 0%Z else b) p in
   (0 <= at_ (e_mu c) * at_ (e_buoy c))%R ->
   sqrt (at_ (e_mu c) * at_ (e_buoy c)) <= su_vel s /\ sqrt ((at_ (e_lamb c) + 2 * at_ (e_mu c)) * at_ (e_buoy c)) <= su_vel s)%R.
Proof.
  intros H Ha. unfold elastic_setup in H. destruct (negb _) in H; [discriminate|].
  destruct (max_of (map fst _)) as [vp|] eqn:E1 in H; [|discriminate]. destruct (max_of (map snd _)) as [vs|] eqn:E2 in H; [|discriminate].
  destruct (stag_step _ _ _ _ _ _ _ _ _ _ H) as (A & B & C & D & D'). split; [exact A|]. split; [exact B|]. split; [exact C|]. split; [exact D'|].
  intros Hn b p Hb Hp at_ Hmu. rewrite (D Hn).
  assert (M : forall m, In m [e_lamb c; e_mu c; e_buoy c] -> mbatch nd m = 1 \/ mbatch nd m = su_nb s).
  { intros m Hm. apply In_nth_error in Hm. destruct Hm as [k Hk]. destruct (gs_model _ _ _ _ _ _ _ _ _ _ H Ha k m Hk) as (m' & _ & G & _). exact G. }
  pose proof (M (e_lamb c) ltac:(cbn; auto)) as Ml. pose proof (M (e_mu c) ltac:(cbn; auto)) as Mm. pose proof (M (e_buoy c) ltac:(cbn; auto)) as Mb.
  set (N := Z.max (mbatch nd (e_lamb c)) (Z.max (mbatch nd (e_mu c)) (mbatch nd (e_buoy c)))).
  set (b' := if b <? N then b else 0).
  assert (Hb' : 0 <= b' < N) by (unfold b'; destruct (Z.ltb_spec b N); unfold N in *; lia).
  assert (V : forall m, In m [e_lamb c; e_mu c; e_buoy c] ->
     (if (length (t_shape m) =? nd)%nat then t_at m (tl (b' :: p)) else if hd 0 (t_shape m) =? 1 then t_at m (0 :: tl (b' :: p)) else t_at m (b' :: p)) = at_ m).
  { intros m Hm. unfold at_, mval. specialize (M m Hm). assert (Hle : mbatch nd m <= N) by (unfold N; destruct Hm as [<-|[<-|[<-|[]]]]; lia).
    unfold mbatch in M, Hle |- *. destruct (length (t_shape m) =? nd)%nat; [reflexivity|]. cbn [tl]. destruct (Z.eqb_spec (hd 0 (t_shape m)) 1) as [|Ne]; [reflexivity|].
    unfold b'. destruct (Z.ltb_spec b N); [reflexivity|lia]. }
  assert (HI : In (let v2 := sqrt (at_ (e_mu c) * at_ (e_buoy c)) in (sqrt (at_ (e_lamb c) * at_ (e_buoy c) + 2 * v2 ^ 2), v2)%R) (elastic_speeds c nd)).
  { unfold elastic_speeds. cbv zeta. apply in_map_iff. exists (b' :: p). split.
    - rewrite !V by (cbn; auto). reflexivity.
    - apply In_box_pts. cbn [abox map inb]. rewrite !andb_true_iff, Z.leb_le, Z.ltb_lt. split; [exact Hb'|exact Hp]. }
  cbv zeta in HI. pose proof (max_of_ge _ _ E1 _ (in_map fst _ _ HI)) as G1. pose proof (max_of_ge _ _ E2 _ (in_map snd _ _ HI)) as G2. cbn [fst snd] in G1, G2.
  rewrite Rabs_right in G1, G2 by (apply Rle_ge, sqrt_pos). split.
  - apply Rle_trans with vs; [exact G2|apply Rmax_r].
  - apply Rle_trans with vp; [|apply Rmax_l]. replace ((at_ (e_lamb c) + 2 * at_ (e_mu c)) * at_ (e_buoy c))%R with (at_ (e_lamb c) * at_ (e_buoy c) + 2 * sqrt (at_ (e_mu c) * at_ (e_buoy c)) ^ 2)%R; [exact G1|].
    cbn [pow]. rewrite Rmult_1_r, sqrt_sqrt by exact Hmu. ring.
Qed.

(** ** The calls of the examples, without [max_vel] *)
Definition exn (sp : survey_pad) (pw : Z) : opts := mkopts (One 5%R) (4 / 1000)%R 2 (One pw) None None sp None 1 0 0 false.
Lemma exn_exo models amps src rec vmin nw sp pw nd : stag_setup models (exn sp pw) amps src rec vmin 2000 nw nd = stag_setup models (exo sp pw) amps src rec vmin 2000 nw nd.
Proof.
  unfold stag_setup, setup_propagator. cbn [o_gs o_dt o_accuracy o_pw o_freq o_max_vel o_sp o_nt o_interval o_ft o_tp o_taper exo exn].
  unfold set_max_vel. rewrite (Rabs_right 2000) by lra. rewrite rle_no by lra. reflexivity.
Qed.
Lemma max_of_in l m : max_of l = Some m -> exists x, In x l /\ m = Rabs x.
Proof.
  intros H. unfold max_of in H. enough (In m (map Rabs l)) as G by (apply in_map_iff in G; destruct G as (x & <- & G); exists x; auto).
  destruct (map Rabs l) as [|y r]; [discriminate|]. injection H as <-. revert y. induction r as [|z r IH]; intros y; [left; reflexivity|]. cbn [fold_left].
  unfold Rmax at 2. destruct (Rle_dec y z); destruct (IH (if Rle_dec y z then z else y)) as [E|E]; destruct (Rle_dec y z); try contradiction; cbn; auto.
Qed.
Definition exan : acall :=
  mkacall (mktens [40] (fun p => 1610 + 10 * IZR (coord 0 p))%R) (a_rho (exa (SPint 8) 3)) (a_amps (exa (SPint 8) 3)) (a_src (exa (SPint 8) 3)) (a_rec (exa (SPint 8) 3)) (exn (SPint 8) 3).
Lemma exan_max : max_abs (a_v exan) = Some 2000%R.
Proof.
  destruct (max_of_some (elems (a_v exan))) as [m Hm]. { intros C. apply (f_equal (@length _)) in C. unfold elems in C. rewrite map_length in C. discriminate C. }
  change (max_of (elems (a_v exan)) = Some 2000%R). rewrite Hm. f_equal.
  pose proof (max_of_ge _ _ Hm 2000%R) as G. pose proof (max_of_in _ _ Hm) as (x & Hx & ->).
  assert (B : (Rabs x <= 2000)%R).
  { unfold elems in Hx. apply in_map_iff in Hx. destruct Hx as (q & <- & Hq). apply In_box_pts in Hq. destruct q as [|i [|? ?]]; cbn in Hq; try discriminate; [|rewrite !andb_false_r in Hq; discriminate].
    rewrite !andb_true_r, !andb_true_iff, Z.leb_le, Z.ltb_lt in Hq. cbn [t_at a_v exan coord nth]. assert (0 <= IZR i <= 39)%R by (split; apply IZR_le; lia). rewrite Rabs_right by lra. lra. }
  enough (A : (Rabs 2000 <= Rabs x)%R) by (rewrite (Rabs_right 2000) in A by lra; lra). apply G.
  replace 2000%R with (t_at (a_v exan) [39]) by (cbn; lra). unfold elems. apply in_map, In_box_pts. reflexivity.
Qed.
Lemma exan_setup : exists u, acoustic_setup exan 1 = Some u /\ su_nt u = 12 /\ su_nb u = 2 /\ su_ratio u = 3 /\ su_ext u = [(10, 32)] /\ su_acc u = A2.
Proof.
  unfold acoustic_setup. rewrite exan_max.
  change (forallb (fun d => half_ok (a_v exan) 1 d (a_src exan (XV d)) && half_ok (a_v exan) 1 d (a_rec exan (XV d)))%bool (seq 0 1)) with true. cbn [negb a_opts exan]. rewrite exn_exo.
  match goal with |- context [stag_setup ?m _ ?a ?b ?c ?v _ ?nw _] =>
    assert (X : match extract_survey 0%R m b c (repeat None nw) (SPint 8) None [1; 0] [3; 3] (repeat Replicate (length m)) 2 1 with Some (E', _, _, _) => Some E' | None => None end = Some [(10, 32)]) by (vm_compute; reflexivity);
    destruct (extract_survey 0%R m b c (repeat None nw) (SPint 8) None [1; 0] [3; 3] (repeat Replicate (length m)) 2 1) as [[[[E' ms] si] ri]|] eqn:Y; [|discriminate];
    injection X as ->; apply (exo_setup m a b c v 2000 nw (SPint 8) 3 [[12; 2; 1]; [12; 2; 1]] [(10, 32)] ms si ri) end; [apply min_nonzero_nonneg|reflexivity..|exact Y].
Qed.

(** Two half spaces: pressure waves are twice as fast as shear waves in the second. *)
Definition exen : ecall :=
  mkecall (mktens [40] (fun p => if coord 0 p <? 20 then 1000000 else 2000000)%R) (mktens [40] (fun _ => 1000000)%R) (mktens [40] (fun _ => 1)%R)
    (fun k => match k with CV _ => None | CP => Some (mktens [2; 1; 4] (fun p => IZR (1 + coord 0 p + coord 2 p))) end)
    (fun k => match k with CV _ => None | CP => Some (mkloct 1 [[[20]]; [[18]]]) end)
    (fun k => match k with CV _ => None | CP => Some (mkloct 1 [[[22]; [IGNORE]]; [[19]; [23]]]) end)
    (exn (SPint 8) 3).
Lemma exen_speeds x : In x (elastic_speeds exen 1) -> snd x = 1000%R /\ (fst x = sqrt 3000000 \/ fst x = 2000%R).
Proof.
  unfold elastic_speeds. cbv zeta. intros H. apply in_map_iff in H. destruct H as (q & <- & Hq). cbn [e_lamb e_mu e_buoy exen t_shape length Nat.eqb t_at fst snd].
  assert (E : sqrt (1000000 * 1) = 1000%R) by (rewrite Rmult_1_r; replace 1000000%R with (1000 * 1000)%R by lra; apply sqrt_square; lra). rewrite E. split; [reflexivity|].
  destruct (_ <? 20); [left; f_equal; lra|right]. replace (2000000 * 1 + 2 * 1000 ^ 2)%R with (2000 * 2000)%R by lra. apply sqrt_square. lra.
Qed.
Lemma exen_max : exists vs, max_of (map fst (elastic_speeds exen 1)) = Some 2000%R /\ max_of (map snd (elastic_speeds exen 1)) = Some vs /\ Rmax 2000 vs = 2000%R.
Proof.
  assert (NE : elastic_speeds exen 1 <> []). { intros H. apply (f_equal (@length _)) in H. unfold elastic_speeds in H. rewrite map_length in H. vm_compute in H. discriminate H. }
  destruct (max_of_some (map fst (elastic_speeds exen 1))) as [m1 E1]. { destruct (elastic_speeds exen 1); [contradiction|discriminate]. }
  destruct (max_of_some (map snd (elastic_speeds exen 1))) as [m2 E2]. { destruct (elastic_speeds exen 1); [contradiction|discriminate]. }
  exists m2. destruct (max_of_in _ _ E1) as (x & Hx & F1). destruct (max_of_in _ _ E2) as (y & Hy & F2). apply in_map_iff in Hx, Hy. destruct Hx as (x' & <- & Hx). destruct Hy as (y' & <- & Hy).
  apply exen_speeds in Hx, Hy. destruct Hx as [_ Hx]. destruct Hy as [Hy _]. rewrite Hy, Rabs_right in F2 by lra.
  assert (G : (2000 <= m1)%R).
  { assert (I : In 2000%R (map fst (elastic_speeds exen 1))).
    { replace 2000%R with (fst (sqrt (2000000 * 1 + 2 * sqrt (1000000 * 1) ^ 2), sqrt (1000000 * 1))).
      - apply in_map. unfold elastic_speeds. cbv zeta. apply in_map_iff. exists [0; 25]. split; [reflexivity|]. apply In_box_pts. reflexivity.
      - cbn [fst]. assert (E : sqrt (1000000 * 1) = 1000%R) by (rewrite Rmult_1_r; replace 1000000%R with (1000 * 1000)%R by lra; apply sqrt_square; lra). rewrite E.
        replace (2000000 * 1 + 2 * 1000 ^ 2)%R with (2000 * 2000)%R by lra. apply sqrt_square. lra. }
    pose proof (max_of_ge _ _ E1 _ I) as G. rewrite Rabs_right in G by lra. exact G. }
  assert (L : (m1 <= 2000)%R).
  { destruct Hx as [Hx|Hx]; rewrite Hx in F1; rewrite Rabs_right in F1; try lra; [|apply Rle_ge, sqrt_pos]. rewrite F1. replace 2000%R with (sqrt (2000 * 2000)) by (apply sqrt_square; lra). apply sqrt_le_1; lra. }
  assert (M1 : m1 = 2000%R) by lra. rewrite E1, E2. split; [f_equal; exact M1|]. split; [reflexivity|]. apply Rmax_left. lra.
Qed.
Lemma exen_setup : exists u, elastic_setup exen 1 = Some u /\ su_nt u = 12 /\ su_nb u = 2 /\ su_ratio u = 3 /\ su_ext u = [(10, 32)] /\ su_acc u = A2.
Proof.
  unfold elastic_setup.
  change (forallb (fun d => half_ok (e_lamb exen) 1 d (e_src exen (CV d)) && half_ok (e_lamb exen) 1 d (e_rec exen (CV d)))%bool (seq 0 1)) with true. cbn [negb].
  destruct exen_max as (vs & -> & -> & ->). cbn [e_opts exen]. rewrite exn_exo.
  match goal with |- context [stag_setup ?m _ ?a ?b ?c ?v _ ?nw _] =>
    assert (X : match extract_survey 0%R m b c (repeat None nw) (SPint 8) None [1; 0] [3; 3] (repeat Replicate (length m)) 2 1 with Some (E', _, _, _) => Some E' | None => None end = Some [(10, 32)]) by (vm_compute; reflexivity);
    destruct (extract_survey 0%R m b c (repeat None nw) (SPint 8) None [1; 0] [3; 3] (repeat Replicate (length m)) 2 1) as [[[[E' ms] si] ri]|] eqn:Y; [|discriminate];
    injection X as ->; apply (exo_setup m a b c v 2000 nw (SPint 8) 3 [[12; 2; 0]; [12; 2; 1]] [(10, 32)] ms si ri) end; [apply min_speed_nonneg; apply min_of_nonneg|reflexivity..|exact Y].
Qed.
Lemma exen_area : some_area (e_opts exen) 1 (map (e_src exen) (el_allC 1)) (map (e_rec exen) (el_allC 1)).
Proof. right. left. exists 1%nat, O, O, [20]. split; [reflexivity|]. split; [reflexivity|]. intros [|d] Hd; cbn; unfold IGNORE; lia. Qed.
