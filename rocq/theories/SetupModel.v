(** * Input handling in common.py: number of dimensions, time samples, callback views. *)
From Coq Require Import List ZArith QArith Qround Lia Bool.
From Verif Require Import Grid ScalarModel GeomModel Geom Geom2.
Import ListNotations.
Local Open Scope Z_scope.

(** ** [get_ndim] (common.py:2631-2731).  Tensors are given by their rank, locations by the
    size of their last dimension. *)

(** The wavefield loop (2659-2674); also the part of the field loop that fixes [ndim]. *)
Definition wf_step (acc : option Z) (o : option Z) : option Z :=
  match acc, o with
  | Some nd, Some rank =>
      if nd <? 0 then Some (rank - 1) else if nd =? rank - 1 then Some nd else None
  | acc, None => acc
  | None, _ => None
  end.

(** The location loop (2675-2689). *)
Definition loc_step (acc : option Z) (o : option Z) : option Z :=
  match acc, o with
  | Some nd, Some last =>
      if nd <? 0 then Some last else if nd =? last then Some nd else None
  | acc, None => acc
  | None, _ => None
  end.

(** The loop over x, y and z fields (2690-2714), [k = 0, 1, 2]. *)
Definition field_step (k : Z) (acc : option Z) (o : option Z) : option Z :=
  match acc, o with
  | Some nd, Some rank =>
      if nd <? 0 then Some (rank - 1)
      else if negb (nd =? rank - 1) then None
      else if nd <? k + 1 then None else Some nd
  | acc, None => acc
  | None, _ => None
  end.

Definition get_ndim (models : list Z) (wfs locs zf yf xf : list (option Z)) : option Z :=
  let r := fold_left wf_step wfs (Some (-1)) in
  let r := fold_left loc_step locs r in
  let r := fold_left (field_step 0) xf r in
  let r := fold_left (field_step 1) yf r in
  let r := fold_left (field_step 2) zf r in
  match r with
  | None => None
  | Some nd =>
      if forallb (fun m => (m =? nd) || (m =? nd + 1)) models then
        if nd <? 0 then None else Some nd
      else None
  end.

(** ** Time samples *)

(** [set_nt] (common.py:892-939); amplitude tensors are given by their shapes. *)
Definition set_nt (nt : option Z) (amps : list (option (list Z))) (step_ratio : Z) : option Z :=
  if step_ratio <? 1 then None else
  let ant := match present amps with a :: _ => Some (last a 0) | [] => None end in
  match (match nt, ant with
         | None, None => None
         | None, Some n => Some n
         | Some n, Some m => if n =? m then Some n else None
         | Some n, None => Some n
         end) with
  | None => None
  | Some n => if n <? 0 then None else Some (n * step_ratio)
  end.

(** Length of the final dimension after [upsample] (common.py:1333-1363); [numel = 0] and
    [step_ratio = 1] return the signal unchanged, padding in time is removed again. *)
Definition upsample_len (numel n step_ratio : Z) (time_pad_frac : Q) : Z :=
  if (numel =? 0) || (step_ratio =? 1) then n else
  let n_time_pad := if Qlt_le_dec 0 time_pad_frac then Qfloor (time_pad_frac * inject_Z n) else 0 in
  let n' := if 0 <? n_time_pad then n + n_time_pad else n in
  let up := n' * step_ratio in
  if 0 <? n_time_pad then up - n_time_pad * step_ratio else up.

(** [set_source_amplitudes] (common.py:1061-1150): the shapes of the results. *)
Definition set_source_amplitudes (amps : list (option (list Z))) (n_batch nt step_ratio : Z)
    (time_pad_frac : Q) : option (list (list Z)) :=
  sequence (map (fun o =>
    match o with
    | None => Some [nt; n_batch; 0]
    | Some [a0; a1; a2] =>
        if negb (a0 =? n_batch) then None
        else if negb (a2 * step_ratio =? nt) then None
        else Some [upsample_len (a0 * a1 * a2) a2 step_ratio time_pad_frac; a0; a1]
    | Some _ => None
    end) amps).

(** ** Callback views (common.py:372-399) *)

Inductive view := VFull | VPml | VInner.

(** The slices of [_get_view] for a tensor with one leading (batch) dimension. *)
Definition view_box (fdp pw : list Z) (s : list Z) (v : view) : list (Z * Z) :=
  map (fun d =>
    match v with
    | VPml => (nth (2 * d) fdp 0, nth d s 0 - nth (2 * d + 1) fdp 0)
    | _ => (nth (2 * d) fdp 0 + nth (2 * d) pw 0,
            nth d s 0 - nth (2 * d + 1) fdp 0 - nth (2 * d + 1) pw 0)
    end) (seq 0 (length s)).

Definition get_view {X} (fdp pw : list Z) (x : tens X) (v : view) : tens X :=
  match v with
  | VFull => x
  | _ => tslice x (None :: map Some (view_box fdp pw (tl (t_shape x)) v))
  end.

(** * Proofs *)

Lemma nd_none (f : option Z -> option Z -> option Z) (Hf : forall o, f None o = None) l :
  fold_left f l None = None.
Proof. induction l as [|o l IH]; cbn; [reflexivity|]. rewrite Hf. exact IH. Qed.

Lemma wf_none o : wf_step None o = None. Proof. destruct o; reflexivity. Qed.
Lemma loc_none o : loc_step None o = None. Proof. destruct o; reflexivity. Qed.
Lemma field_none k o : field_step k None o = None. Proof. destruct o; reflexivity. Qed.

(** Every present entry of [l] satisfies [P]. *)
Definition all_present (P : Z -> Prop) (l : list (option Z)) : Prop := forall x, In (Some x) l -> P x.

Lemma wf_fold l nd r :
  fold_left wf_step l (Some nd) = Some r -> all_present (fun k => 1 <= k) l -> -1 <= nd ->
  -1 <= r /\ (0 <= nd -> r = nd) /\ all_present (fun k => k = r + 1) l /\ (present l <> [] -> 0 <= r) /\ (present l = [] -> r = nd).
Proof.
  revert nd; induction l as [|[k|] l IH]; intros nd H H1 Hn; cbn [fold_left] in H.
  - injection H as <-. repeat split; try lia; intros x []; contradiction.
  - cbn [wf_step] in H. assert (1 <= k) by (apply H1; left; reflexivity).
    destruct (Z.ltb_spec nd 0).
    + apply IH in H; [|intros x Hx; apply H1; right; exact Hx|lia]. destruct H as (A & B & C & D & F).
      repeat split; try lia; try (cbn; intros; discriminate).
      * intros x [E|Hx]; [injection E as <-; lia|apply C; exact Hx].
    + destruct (Z.eqb_spec nd (k - 1)); [|rewrite (nd_none wf_step wf_none) in H; discriminate].
      apply IH in H; [|intros x Hx; apply H1; right; exact Hx|lia]. destruct H as (A & B & C & D & F).
      repeat split; try lia; try (cbn; intros; discriminate).
      * intros x [E|Hx]; [injection E as <-; lia|apply C; exact Hx].
  - cbn [wf_step] in H. apply IH in H; [|intros x Hx; apply H1; right; exact Hx|lia]. destruct H as (A & B & C & D & F).
    repeat split; auto. intros x [E|Hx]; [discriminate|apply C; exact Hx].
Qed.

Lemma loc_fold l nd r :
  fold_left loc_step l (Some nd) = Some r -> all_present (fun k => 0 <= k) l -> -1 <= nd ->
  -1 <= r /\ (0 <= nd -> r = nd) /\ all_present (fun k => k = r) l /\ (present l <> [] -> 0 <= r) /\ (present l = [] -> r = nd).
Proof.
  revert nd; induction l as [|[k|] l IH]; intros nd H H1 Hn; cbn [fold_left] in H.
  - injection H as <-. repeat split; try lia; intros x []; contradiction.
  - cbn [loc_step] in H. assert (0 <= k) by (apply H1; left; reflexivity).
    destruct (Z.ltb_spec nd 0).
    + apply IH in H; [|intros x Hx; apply H1; right; exact Hx|lia]. destruct H as (A & B & C & D & F).
      repeat split; try lia; try (cbn; intros; discriminate).
      * intros x [E|Hx]; [injection E as <-; lia|apply C; exact Hx].
    + destruct (Z.eqb_spec nd k); [|rewrite (nd_none loc_step loc_none) in H; discriminate].
      apply IH in H; [|intros x Hx; apply H1; right; exact Hx|lia]. destruct H as (A & B & C & D & F).
      repeat split; try lia; try (cbn; intros; discriminate).
      * intros x [E|Hx]; [injection E as <-; lia|apply C; exact Hx].
  - cbn [loc_step] in H. apply IH in H; [|intros x Hx; apply H1; right; exact Hx|lia]. destruct H as (A & B & C & D & F).
    repeat split; auto. intros x [E|Hx]; [discriminate|apply C; exact Hx].
Qed.

Lemma field_fold k l nd r :
  fold_left (field_step k) l (Some nd) = Some r -> all_present (fun k => 1 <= k) l -> -1 <= nd ->
  -1 <= r /\ (0 <= nd -> r = nd) /\ all_present (fun k => k = r + 1) l /\ (present l <> [] -> 0 <= r) /\
  (present l = [] -> r = nd) /\ (0 <= nd -> present l <> [] -> k + 1 <= r).
Proof.
  revert nd; induction l as [|[x|] l IH]; intros nd H H1 Hn; cbn [fold_left] in H.
  - injection H as <-. repeat split; try lia; try (intros x []; contradiction); cbn; intros; congruence.
  - cbn [field_step] in H. assert (1 <= x) by (apply H1; left; reflexivity).
    destruct (Z.ltb_spec nd 0).
    + apply IH in H; [|intros y Hy; apply H1; right; exact Hy|lia]. destruct H as (A & B & C & D & F & G).
      repeat split; try lia; try (cbn; intros; discriminate).
      * intros y [E|Hy]; [injection E as <-; lia|apply C; exact Hy].
    + destruct (Z.eqb_spec nd (x - 1)); cbn [negb] in H;
        [|rewrite (nd_none (field_step k) (field_none k)) in H; discriminate].
      destruct (Z.ltb_spec nd (k + 1)); [rewrite (nd_none (field_step k) (field_none k)) in H; discriminate|].
      apply IH in H; [|intros y Hy; apply H1; right; exact Hy|lia]. destruct H as (A & B & C & D & F & G).
      repeat split; try lia; try (cbn; intros; discriminate).
      * intros y [E|Hy]; [injection E as <-; lia|apply C; exact Hy].
  - cbn [field_step] in H. apply IH in H; [|intros y Hy; apply H1; right; exact Hy|lia]. destruct H as (A & B & C & D & F & G).
    repeat split; auto. intros y [E|Hy]; [discriminate|apply C; exact Hy].
Qed.

Lemma present_nil_all {X} (l : list (option X)) : present l = [] -> forall x, ~ In (Some x) l.
Proof. intros H x Hx. apply present_In in Hx. rewrite H in Hx. contradiction. Qed.

(** Completeness of the folds. *)
Lemma wf_fold_ok l nd : 0 <= nd -> all_present (fun k => k = nd + 1) l ->
  fold_left wf_step l (Some nd) = Some nd /\
  (fold_left wf_step l (Some (-1)) = Some (if (length (present l) =? 0)%nat then -1 else nd)).
Proof.
  intros Hn. induction l as [|[k|] l IH]; intros H; cbn [fold_left].
  - split; reflexivity.
  - assert (k = nd + 1) by (apply H; left; reflexivity). subst k.
    destruct IH as [I1 I2]; [intros x Hx; apply H; right; exact Hx|]. cbn [wf_step].
    destruct (Z.ltb_spec nd 0); [lia|]. destruct (Z.eqb_spec nd (nd + 1 - 1)); [|lia].
    split; [exact I1|]. cbn [Z.ltb Z.compare]. replace (nd + 1 - 1) with nd by lia. rewrite I1. reflexivity.
  - destruct IH as [I1 I2]; [intros x Hx; apply H; right; exact Hx|]. cbn [wf_step]. auto.
Qed.

Lemma loc_fold_ok l nd : 0 <= nd -> all_present (fun k => k = nd) l ->
  fold_left loc_step l (Some nd) = Some nd /\
  (fold_left loc_step l (Some (-1)) = Some (if (length (present l) =? 0)%nat then -1 else nd)).
Proof.
  intros Hn. induction l as [|[k|] l IH]; intros H; cbn [fold_left].
  - split; reflexivity.
  - assert (k = nd) by (apply H; left; reflexivity). subst k.
    destruct IH as [I1 I2]; [intros x Hx; apply H; right; exact Hx|]. cbn [loc_step].
    destruct (Z.ltb_spec nd 0); [lia|]. rewrite Z.eqb_refl.
    split; [exact I1|]. cbn [Z.ltb Z.compare]. rewrite I1. reflexivity.
  - destruct IH as [I1 I2]; [intros x Hx; apply H; right; exact Hx|]. cbn [loc_step]. auto.
Qed.

Lemma field_fold_ok k l nd : 0 <= nd -> all_present (fun r => r = nd + 1) l -> (present l <> [] -> k + 1 <= nd) ->
  fold_left (field_step k) l (Some nd) = Some nd /\
  (fold_left (field_step k) l (Some (-1)) = Some (if (length (present l) =? 0)%nat then -1 else nd)).
Proof.
  intros Hn. induction l as [|[x|] l IH]; intros H Hk; cbn [fold_left].
  - split; reflexivity.
  - assert (x = nd + 1) by (apply H; left; reflexivity). subst x. assert (k + 1 <= nd) by (apply Hk; cbn; discriminate).
    destruct IH as [I1 I2]; [intros x Hx; apply H; right; exact Hx|auto|]. cbn [field_step].
    destruct (Z.ltb_spec nd 0); [lia|]. destruct (Z.eqb_spec nd (nd + 1 - 1)); [|lia]. cbn [negb].
    destruct (Z.ltb_spec nd (k + 1)); [lia|].
    split; [exact I1|]. cbn [Z.ltb Z.compare]. replace (nd + 1 - 1) with nd by lia. rewrite I1. reflexivity.
  - destruct IH as [I1 I2]; [intros x Hx; apply H; right; exact Hx|exact Hk|]. cbn [field_step]. auto.
Qed.

(** What [get_ndim] guarantees for tensors of rank at least one. *)
Lemma get_ndim_spec models wfs locs zf yf xf nd :
  all_present (fun k => 1 <= k) wfs -> all_present (fun k => 0 <= k) locs ->
  all_present (fun k => 1 <= k) zf -> all_present (fun k => 1 <= k) yf -> all_present (fun k => 1 <= k) xf ->
  get_ndim models wfs locs zf yf xf = Some nd ->
  0 <= nd /\ Forall (fun m => m = nd \/ m = nd + 1) models /\
  all_present (fun k => k = nd + 1) wfs /\ all_present (fun k => k = nd) locs /\
  all_present (fun k => k = nd + 1) zf /\ all_present (fun k => k = nd + 1) yf /\
  all_present (fun k => k = nd + 1) xf /\
  (present wfs <> [] \/ present locs <> [] \/ present xf <> [] ->
     (present zf <> [] -> 3 <= nd) /\ (present yf <> [] -> 2 <= nd)).
Proof.
  intros P1 P2 P3 P4 P5 H. unfold get_ndim in H. cbv zeta in H.
  destruct (fold_left wf_step wfs (Some (-1))) as [n1|] eqn:F1.
  2:{ rewrite (nd_none loc_step loc_none), !(nd_none _ (field_none _)) in H. discriminate. }
  destruct (fold_left loc_step locs (Some n1)) as [n2|] eqn:F2.
  2:{ rewrite !(nd_none _ (field_none _)) in H. discriminate. }
  destruct (fold_left (field_step 0) xf (Some n2)) as [n3|] eqn:F3.
  2:{ rewrite !(nd_none _ (field_none _)) in H. discriminate. }
  destruct (fold_left (field_step 1) yf (Some n3)) as [n4|] eqn:F4.
  2:{ rewrite !(nd_none _ (field_none _)) in H. discriminate. }
  destruct (fold_left (field_step 2) zf (Some n4)) as [n5|] eqn:F5; [|discriminate].
  destruct (forallb _ models) eqn:Fm; [|discriminate].
  destruct (Z.ltb_spec n5 0) as [|Hn]; [discriminate|]. injection H as ->.
  apply wf_fold in F1; [|assumption|lia]. destruct F1 as (A1 & B1 & C1 & D1 & E1).
  apply loc_fold in F2; [|assumption|lia]. destruct F2 as (A2 & B2 & C2 & D2 & E2).
  apply field_fold in F3; [|assumption|lia]. destruct F3 as (A3 & B3 & C3 & D3 & E3 & G3).
  apply field_fold in F4; [|assumption|lia]. destruct F4 as (A4 & B4 & C4 & D4 & E4 & G4).
  apply field_fold in F5; [|assumption|lia]. destruct F5 as (A5 & B5 & C5 & D5 & E5 & G5).
  assert (dec : forall l : list (option Z), present l = [] \/ present l <> []).
  { intros l. destruct (present l); [left; reflexivity|right; discriminate]. }
  split; [exact Hn|]. split.
  { apply Forall_forall. intros m Hm. rewrite forallb_forall in Fm. specialize (Fm m Hm).
    rewrite orb_true_iff, !Z.eqb_eq in Fm. exact Fm. }
  split. { intros x Hx. assert (N : present wfs <> []) by (intros X; exact (present_nil_all _ X x Hx)). specialize (D1 N). rewrite (C1 x Hx). lia. }
  split. { intros x Hx. assert (N : present locs <> []) by (intros X; exact (present_nil_all _ X x Hx)). specialize (D2 N). rewrite (C2 x Hx). lia. }
  split. { exact C5. }
  split. { intros x Hx. assert (N : present yf <> []) by (intros X; exact (present_nil_all _ X x Hx)). specialize (D4 N). rewrite (C4 x Hx). lia. }
  split. { intros x Hx. assert (N : present xf <> []) by (intros X; exact (present_nil_all _ X x Hx)). specialize (D3 N). rewrite (C3 x Hx). lia. }
  intros Hp. assert (0 <= n3) by (destruct Hp as [Hp|[Hp|Hp]]; [specialize (D1 Hp)|specialize (D2 Hp)|specialize (D3 Hp)]; lia).
  assert (0 <= n4) by lia. split; intros Hz; [pose proof (G5 H0 Hz)|pose proof (G4 H Hz)]; lia.
Qed.

Lemma get_ndim_complete models wfs locs zf yf xf nd :
  1 <= nd -> Forall (fun m => m = nd \/ m = nd + 1) models ->
  all_present (fun k => k = nd + 1) wfs -> all_present (fun k => k = nd) locs ->
  all_present (fun k => k = nd + 1) zf -> all_present (fun k => k = nd + 1) yf ->
  all_present (fun k => k = nd + 1) xf ->
  (present zf <> [] -> 3 <= nd) -> (present yf <> [] -> 2 <= nd) ->
  present (wfs ++ locs ++ zf ++ yf ++ xf) <> [] ->
  get_ndim models wfs locs zf yf xf = Some nd.
Proof.
  intros Hn Hm P1 P2 P3 P4 P5 Hz Hy Hp.
  destruct (wf_fold_ok wfs nd ltac:(lia) P1) as [A1 B1].
  destruct (loc_fold_ok locs nd ltac:(lia) P2) as [A2 B2].
  destruct (field_fold_ok 2 zf nd ltac:(lia) P3 ltac:(intros X; specialize (Hz X); lia)) as [A3 B3].
  destruct (field_fold_ok 1 yf nd ltac:(lia) P4 ltac:(intros X; specialize (Hy X); lia)) as [A4 B4].
  destruct (field_fold_ok 0 xf nd ltac:(lia) P5 ltac:(intros _; lia)) as [A5 B5].
  assert (Hpl : (length (present wfs) <> 0 \/ length (present locs) <> 0 \/ length (present zf) <> 0 \/
                 length (present yf) <> 0 \/ length (present xf) <> 0)%nat).
  { unfold present in Hp. rewrite !flat_map_app in Hp. fold (present wfs) in Hp. fold (present locs) in Hp.
    fold (present zf) in Hp. fold (present yf) in Hp. fold (present xf) in Hp.
    destruct (present wfs), (present locs), (present zf), (present yf), (present xf); cbn in *;
      try congruence; repeat ((left; lia) || right); lia. }
  unfold get_ndim. cbv zeta. rewrite B1.
  assert (R : fold_left (field_step 2) zf (fold_left (field_step 1) yf (fold_left (field_step 0) xf
     (fold_left loc_step locs (Some (if (length (present wfs) =? 0)%nat then -1 else nd))))) = Some nd).
  { destruct (Nat.eqb_spec (length (present wfs)) 0); [rewrite B2|rewrite A2, A5, A4, A3; reflexivity].
    destruct (Nat.eqb_spec (length (present locs)) 0); [rewrite B5|rewrite A5, A4, A3; reflexivity].
    destruct (Nat.eqb_spec (length (present xf)) 0); [rewrite B4|rewrite A4, A3; reflexivity].
    destruct (Nat.eqb_spec (length (present yf)) 0); [rewrite B3|rewrite A3; reflexivity].
    destruct (Nat.eqb_spec (length (present zf)) 0); [lia|reflexivity]. }
  rewrite R. assert (forallb (fun m => (m =? nd) || (m =? nd + 1)) models = true) as ->.
  { apply forallb_forall. intros m Hin. rewrite Forall_forall in Hm. specialize (Hm m Hin).
    rewrite orb_true_iff, !Z.eqb_eq. exact Hm. }
  destruct (Z.ltb_spec nd 0); [lia|reflexivity].
Qed.

(** ** Time samples *)

Lemma upsample_len_spec numel n ratio frac : 1 <= ratio -> numel <> 0 -> upsample_len numel n ratio frac = n * ratio.
Proof.
  intros Hr Hn. unfold upsample_len. destruct (Z.eqb_spec numel 0); [contradiction|]. cbn [orb].
  destruct (Z.eqb_spec ratio 1); [subst; lia|]. cbv zeta. destruct (0 <? _); lia.
Qed.

Lemma source_amplitudes_spec nt_opt amps n_batch ratio frac nt out :
  set_nt nt_opt amps ratio = Some nt ->
  set_source_amplitudes amps n_batch nt ratio frac = Some out ->
  1 <= ratio /\
  exists n, 0 <= n /\ nt = n * ratio /\ (forall m, nt_opt = Some m -> n = m) /\
    length out = length amps /\
    forall k, match nth_error amps k with
      | Some (Some a) => exists a1, a = [n_batch; a1; n] /\
          exists len, nth_error out k = Some [len; n_batch; a1] /\ (0 < n_batch -> 0 < a1 -> len = nt)
      | Some None => nth_error out k = Some [nt; n_batch; 0]
      | None => nth_error out k = None
      end.
Proof.
  intros H1 H2. unfold set_nt in H1. destruct (Z.ltb_spec ratio 1) as [|Hr]; [discriminate|]. split; [lia|].
  set (ant := match present amps with a :: _ => Some (last a 0) | [] => None end) in *.
  destruct (match nt_opt with Some n => match ant with Some m => if n =? m then Some n else None | None => Some n end | None => match ant with Some n => Some n | None => None end end) as [n|] eqn:En; [|discriminate].
  cbv zeta in H1. destruct (Z.ltb_spec n 0); [discriminate|]. injection H1 as <-.
  exists n. split; [lia|]. split; [reflexivity|]. split.
  { intros m ->. destruct ant as [a|]; [|congruence]. destruct (Z.eqb_spec m a); congruence. }
  unfold set_source_amplitudes in H2. split. { apply sequence_length in H2. rewrite map_length in H2. exact H2. }
  intros k. pose proof (sequence_spec _ _ H2) as G.
  apply (f_equal (fun l => nth_error l k)) in G. rewrite !nth_error_map in G.
  destruct (nth_error amps k) as [[a|]|] eqn:Ea; cbn [option_map] in G.
  - destruct (nth_error out k) as [o|] eqn:Eo; [|discriminate]. cbn [option_map] in G. injection G as G.
    destruct a as [|a0 [|a1 [|a2 [|? ?]]]]; try discriminate.
    destruct (Z.eqb_spec a0 n_batch) as [E0|]; [|discriminate]. cbn [negb] in G.
    destruct (Z.eqb_spec (a2 * ratio) (n * ratio)) as [E2|]; [|discriminate]. cbn [negb] in G.
    injection G as <-. subst a0. assert (a2 = n) by nia. subst a2. exists a1. split; [reflexivity|].
    eexists. split; [reflexivity|]. intros Hb Ha. destruct (Z.eq_dec n 0) as [->|Hn0].
    + unfold upsample_len. replace (n_batch * a1 * 0) with 0 by lia. cbn. reflexivity.
    + apply upsample_len_spec; [lia|]. nia.
  - destruct (nth_error out k) as [o|]; [|discriminate]. cbn in G. congruence.
  - destruct (nth_error out k); [discriminate|reflexivity].
Qed.

(** ** Views *)

Lemma view_ext {X} (x : tens X) fdp pw E nd nb v :
  length fdp = (2 * nd)%nat -> length pw = (2 * nd)%nat -> length E = nd ->
  Forall (fun a => 0 <= a) fdp -> Forall (fun a => 0 <= a) pw ->
  (forall d, (d < nd)%nat -> fst (nth d E (0, 0)) <= snd (nth d E (0, 0))) ->
  t_shape x = nb :: padded_shape E (sum_pad fdp pw) ->
  ext_in (view_box fdp pw (tl (t_shape x)) v) (tl (t_shape x)).
Proof.
  intros Hf Hp HE Hf0 Hp0 HE0 Hs. rewrite Hs. cbn [tl]. split.
  { unfold view_box. rewrite map_length, seq_length. reflexivity. }
  unfold view_box. rewrite map_length, seq_length, padded_shape_length, HE. intros d Hd.
  rewrite nth_map_seq by exact Hd. specialize (HE0 d Hd).
  pose proof (pad_nonneg fdp pw nd Hf Hp ltac:(lia) Hf0 Hp0 (2 * d) ltac:(lia)) as A.
  pose proof (pad_nonneg fdp pw nd Hf Hp ltac:(lia) Hf0 Hp0 (2 * d + 1) ltac:(lia)) as B.
  unfold padded_shape. rewrite nth_map_seq by lia. destruct v; cbn [fst snd]; lia.
Qed.

(** The views of a padded tensor. *)
Lemma view_spec {X} (x : tens X) fdp pw E nd nb :
  length fdp = (2 * nd)%nat -> length pw = (2 * nd)%nat -> length E = nd ->
  Forall (fun a => 0 <= a) fdp -> Forall (fun a => 0 <= a) pw ->
  (forall d, (d < nd)%nat -> fst (nth d E (0, 0)) <= snd (nth d E (0, 0))) ->
  t_shape x = nb :: padded_shape E (sum_pad fdp pw) ->
  t_shape (get_view fdp pw x VFull) = nb :: padded_shape E (sum_pad fdp pw) /\
  t_shape (get_view fdp pw x VPml) = nb :: padded_shape E pw /\
  t_shape (get_view fdp pw x VInner) = nb :: map (fun e => snd e - fst e) E /\
  (forall b q, length q = nd ->
     t_at (get_view fdp pw x VPml) (b :: q) =
     t_at (get_view fdp pw x VFull) (b :: map (fun d => coord d q + nth (2 * d) fdp 0) (seq 0 nd))) /\
  (forall b q, length q = nd ->
     t_at (get_view fdp pw x VInner) (b :: q) =
     t_at (get_view fdp pw x VPml) (b :: map (fun d => coord d q + nth (2 * d) pw 0) (seq 0 nd))).
Proof.
  intros Hf Hp HE Hf0 Hp0 HE0 Hs.
  assert (V : forall v, v <> VFull ->
     t_shape (get_view fdp pw x v) = nb :: map (fun e => snd e - fst e) (view_box fdp pw (tl (t_shape x)) v) /\
     forall b q, length q = nd -> t_at (get_view fdp pw x v) (b :: q) =
        t_at x (b :: map (fun d => coord d q + fst (nth d (view_box fdp pw (tl (t_shape x)) v) (0, 0))) (seq 0 nd))).
  { intros v Hv. pose proof (view_ext x fdp pw E nd nb v Hf Hp HE Hf0 Hp0 HE0 Hs) as G.
    assert (get_view fdp pw x v = tslice x (None :: map Some (view_box fdp pw (tl (t_shape x)) v))) as -> by (destruct v; [congruence|reflexivity|reflexivity]).
    unfold tslice. cbn [t_shape t_at]. rewrite Hs in G |- *. cbn [slice_shape tl] in *. rewrite slice_shape_ext by exact G.
    split; [reflexivity|]. intros b q Hq. cbn [slice_pt].
    assert (L : length (view_box fdp pw (padded_shape E (sum_pad fdp pw)) v) = nd).
    { unfold view_box. rewrite map_length, seq_length, padded_shape_length. exact HE. }
    rewrite slice_pt_ext by (try exact G; congruence). rewrite L. reflexivity. }
  destruct (V VPml ltac:(discriminate)) as [V1 V2]. destruct (V VInner ltac:(discriminate)) as [V3 V4].
  split; [exact Hs|]. split; [|split; [|split]].
  - rewrite V1. f_equal. rewrite Hs. cbn [tl]. unfold view_box, padded_shape. rewrite map_map, !map_length, !seq_length.
    apply map_ext_in. intros d Hd. apply in_seq in Hd. cbn [fst snd]. rewrite nth_map_seq by lia.
    pose proof (pad_nonneg fdp pw nd Hf Hp ltac:(lia) Hf0 Hp0 (2 * d) ltac:(lia)) as A.
    pose proof (pad_nonneg fdp pw nd Hf Hp ltac:(lia) Hf0 Hp0 (2 * d + 1) ltac:(lia)) as B. lia.
  - rewrite V3. f_equal. rewrite Hs. cbn [tl]. unfold view_box, padded_shape. rewrite map_map, !map_length, !seq_length.
    rewrite (map_nth_seq (fun e => snd e - fst e) E).
    apply map_ext_in. intros d Hd. apply in_seq in Hd. cbn [fst snd]. rewrite nth_map_seq by lia.
    pose proof (pad_nonneg fdp pw nd Hf Hp ltac:(lia) Hf0 Hp0 (2 * d) ltac:(lia)) as A.
    pose proof (pad_nonneg fdp pw nd Hf Hp ltac:(lia) Hf0 Hp0 (2 * d + 1) ltac:(lia)) as B. lia.
  - intros b q Hq. rewrite V2 by exact Hq. cbn [get_view]. f_equal. f_equal. apply map_ext_in. intros d Hd.
    apply in_seq in Hd. rewrite Hs. cbn [tl]. unfold view_box. rewrite nth_map_seq by (rewrite padded_shape_length; lia).
    reflexivity.
  - intros b q Hq. rewrite V4 by exact Hq. rewrite V2 by (rewrite map_length, seq_length; reflexivity).
    f_equal. f_equal. apply map_ext_in. intros d Hd. apply in_seq in Hd. rewrite coord_map_seq by lia.
    rewrite Hs. cbn [tl]. unfold view_box. rewrite !nth_map_seq by (rewrite padded_shape_length; lia). cbn [fst]. lia.
Qed.
