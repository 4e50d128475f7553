(** Proofs about the look-up of compiled functions. *)
From Coq Require Import String Ascii DecimalString Decimal DecimalNat List Bool Arith Lia.
From Verif Require Import AbiTables Abi.
Import ListNotations.
Local Open Scope string_scope.
Local Open Scope list_scope.
Local Infix "+++" := String.append (at level 60, right associativity).

Lemma sapp_assoc (a b c : string) : (a +++ b) +++ c = a +++ b +++ c.
Proof. induction a; cbn; [reflexivity|]. now rewrite IHa. Qed.

(** Strings of decimal digits. *)
Fixpoint digits (s : string) : Prop :=
  match s with EmptyString => True | String c s' => (c <> "d" /\ c <> "_")%char /\ digits s' end.
Lemma digits_uint u : digits (NilEmpty.string_of_uint u).
Proof. induction u; cbn; repeat split; try exact IHu; discriminate. Qed.
Lemma digits_digit n : digits (digit n).
Proof. apply digits_uint. Qed.
Lemma digit_inj a b : digit a = digit b -> a = b.
Proof.
  unfold digit; intros H.
  assert (E : Some (Nat.to_uint a) = Some (Nat.to_uint b)) by (rewrite <- !NilEmpty.usu, H; reflexivity).
  injection E as E. rewrite <- (DecimalNat.Unsigned.of_to a), <- (DecimalNat.Unsigned.of_to b), E. reflexivity.
Qed.
Lemma digits_split (c : ascii) (a b x y : string) : (c = "d" \/ c = "_")%char -> digits a -> digits b ->
  a +++ String c x = b +++ String c y -> a = b /\ x = y.
Proof.
  intros Hc; revert b; induction a as [|k a IH]; intros [|l b] Ha Hb E; cbn in *.
  - now injection E as E.
  - injection E as E1 E2. subst. destruct Hb as [[? ?] _]; destruct Hc; congruence.
  - injection E as E1 E2. subst. destruct Ha as [[? ?] _]; destruct Hc; congruence.
  - injection E as E1 E2. subst. destruct Ha as [_ Ha], Hb as [_ Hb].
    destruct (IH b Ha Hb E2) as [-> ->]. auto.
Qed.
Lemma las_app a b : list_ascii_of_string (a +++ b) = list_ascii_of_string a ++ list_ascii_of_string b.
Proof. induction a; cbn; [reflexivity|]. now rewrite IHa. Qed.
Lemma las_inj a b : list_ascii_of_string a = list_ascii_of_string b -> a = b.
Proof. intros H. rewrite <- (string_of_list_ascii_of_string a), <- (string_of_list_ascii_of_string b), H. reflexivity. Qed.
Lemma dev_split f g d d' : f +++ "_" +++ device_str d = g +++ "_" +++ device_str d' -> f = g /\ d = d'.
Proof.
  intros H. apply (f_equal list_ascii_of_string) in H. rewrite !las_app in H.
  destruct d, d'; cbn [device_str] in H.
  - apply app_inv_tail in H. split; [apply las_inj, H | reflexivity].
  - exfalso. apply (f_equal (@rev ascii)) in H. rewrite !rev_app_distr in H. cbn in H. discriminate.
  - exfalso. apply (f_equal (@rev ascii)) in H. rewrite !rev_app_distr in H. cbn in H. discriminate.
  - apply app_inv_tail in H. split; [apply las_inj, H | reflexivity].
Qed.
Lemma sapp_cancel a x y : a +++ x = a +++ y -> x = y.
Proof. induction a; cbn; [auto|]. intros H; injection H; auto. Qed.

(** Names determine what they name. *)
Lemma name_inj p p' nd nd' ac ac' dt dt' f f' dev dev' :
  c_name (prop_str p) f nd ac (dtype_str dt) (device_str dev) =
  c_name (prop_str p') f' nd' ac' (dtype_str dt') (device_str dev') ->
  p = p' /\ nd = nd' /\ ac = ac' /\ dt = dt' /\ f = f' /\ dev = dev'.
Proof.
  unfold c_name; intros H.
  assert (Ep : p = p') by (destruct p, p'; try reflexivity; cbn in H; discriminate).
  subst p'. split; [reflexivity|].
  apply sapp_cancel in H.
  apply (sapp_cancel "_iso_") in H.
  apply (digits_split "d") in H; [|auto|apply digits_digit..].
  destruct H as [E1 H]. apply digit_inj in E1. subst nd'. split; [reflexivity|].
  apply (sapp_cancel "_") in H.
  apply (digits_split "_") in H; [|auto|apply digits_digit..].
  destruct H as [E2 H]. apply digit_inj in E2. subst ac'. split; [reflexivity|].
  assert (Et : dt = dt') by (destruct dt, dt'; try reflexivity; cbn in H; discriminate).
  subst dt'. split; [reflexivity|].
  apply sapp_cancel in H. apply (sapp_cancel "_") in H. exact (dev_split _ _ _ _ H).
Qed.

Lemma lookup_In {X} k (d : list (string * X)) x : lookup k d = Some x -> In (k, x) d.
Proof.
  induction d as [|[k' y] d IH]; cbn; [discriminate|].
  destruct (String.eqb_spec k k'); [intros E; injection E as ->; subst; auto | auto].
Qed.
Lemma in_dll_of n y dev : In (n, y) (dll_of dev) ->
  n = c_name (prop_str (y_prop y)) (y_fun y) (y_ndim y) (y_acc y) (dtype_str (y_dt y)) (device_str (y_dev y)).
Proof.
  unfold dll_of. rewrite in_flat_map; intros (nd & _ & H). rewrite in_flat_map in H; destruct H as (dt & _ & H).
  rewrite in_flat_map in H; destruct H as (ac & _ & H). rewrite in_flat_map in H; destruct H as (p & _ & H).
  rewrite in_map_iff in H; destruct H as (f & E & _). injection E as <- <-. reflexivity.
Qed.
Lemma in_dll n y cuda : In (n, y) (dll cuda) ->
  n = c_name (prop_str (y_prop y)) (y_fun y) (y_ndim y) (y_acc y) (dtype_str (y_dt y)) (device_str (y_dev y)).
Proof.
  unfold dll. rewrite in_app_iff; intros [H|H]; [exact (in_dll_of _ _ _ H)|].
  destruct cuda; cbn [if_] in H; [exact (in_dll_of _ _ _ H) | contradiction].
Qed.
Lemma func_c_name P nd ac dt pass extra dev : func_name P nd ac dt pass extra dev = c_name P (pass +++ extra) nd ac dt dev.
Proof. unfold func_name, c_name. now rewrite sapp_assoc. Qed.

(** A function that is found was compiled for what was asked for. *)
Lemma backend_unique cuda p ndim pass accuracy dt dev extra y a :
  get_backend_function cuda (prop_str p) ndim pass accuracy dt dev extra = Some (y, a) ->
  y_prop y = p /\ y_fun y = pass +++ extra /\ y_ndim y = ndim /\ y_acc y = accuracy /\ y_dt y = dt /\ y_dev y = dev.
Proof.
  unfold get_backend_function.
  destruct (lookup _ (dll cuda)) as [y'|] eqn:E; [|discriminate].
  intros H; injection H as <- _.
  apply lookup_In, in_dll in E. rewrite func_c_name in E.
  apply name_inj in E. intuition congruence.
Qed.

(** Everything the build makes can be found, with the types of its parameters. *)
Definition pytype_eq_dec (a b : pytype) : {a = b} + {a <> b}.
Proof. decide equality. Defined.
Definition combos (dev : device) : list (prop * (string * string) * nat * nat * dtype) :=
  flat_map (fun nd => flat_map (fun ac => flat_map (fun dt => map (fun pf => (fst pf, snd pf, nd, ac, dt))
    [(Scalar, ("forward", "")); (Scalar, ("backward", "")); (ScalarBorn, ("forward", "")); (ScalarBorn, ("backward", ""));
     (ScalarBorn, ("backward", "_sc")); (Acoustic, ("forward", "")); (Acoustic, ("backward", ""));
     (Elastic, ("forward", "")); (Elastic, ("backward", ""))]) [Float; Double]) [2; 4; 6; 8]) [1; 2; 3].
Definition dev_eqb (a b : device) : bool := match a, b with Cpu, Cpu | Cuda, Cuda => true | _, _ => false end.
Definition dt_eqb (a b : dtype) : bool := match a, b with Float, Float | Double, Double => true | _, _ => false end.
Definition prop_eqb (a b : prop) : bool :=
  match a, b with Scalar, Scalar | ScalarBorn, ScalarBorn | Elastic, Elastic | Acoustic, Acoustic => true | _, _ => false end.
Definition sym_eqb (a b : symbol) : bool :=
  prop_eqb (y_prop a) (y_prop b) && String.eqb (y_fun a) (y_fun b) && Nat.eqb (y_ndim a) (y_ndim b)
  && Nat.eqb (y_acc a) (y_acc b) && dt_eqb (y_dt a) (y_dt b) && dev_eqb (y_dev a) (y_dev b).
Lemma sym_eqb_eq a b : sym_eqb a b = true -> a = b.
Proof.
  destruct a as [p f n ac t d], b as [p' f' n' ac' t' d']; unfold sym_eqb; cbn [y_prop y_fun y_ndim y_acc y_dt y_dev].
  rewrite !andb_true_iff, !Nat.eqb_eq, String.eqb_eq.
  intros (((((Hp & ->) & ->) & ->) & Ht) & Hd).
  destruct p, p'; try discriminate Hp; destruct t, t'; try discriminate Ht; destruct d, d'; try discriminate Hd; reflexivity.
Qed.
Definition skip_ (dev : device) (p : prop) (extra : string) : bool :=
  dev_eqb dev Cpu && prop_eqb p ScalarBorn && String.eqb extra "_sc".
Definition types_of (y : symbol) : list pytype := map (fun q => ctypes_of (y_dt y) (fst q)) (params y).
(** [ok] on every combination; the two tables are computed once. *)
Definition check_with (cuda : bool) (dev : device) (ok : prop * (string * string) * nat * nat * dtype -> option symbol ->
    option (list pytype) -> bool) : bool :=
  let D := dll cuda in let A := assigned cuda in
  forallb (fun c => let '(p, (pass, extra), nd, ac, dt) := c in
    let n := func_name (prop_str p) nd ac (dtype_str dt) pass extra (device_str dev) in
    ok c (lookup n D) (lookup n A)) (combos dev).
Definition ok_found (dev : device) (c : prop * (string * string) * nat * nat * dtype) (o : option symbol) (a : option (list pytype)) : bool :=
  let '(p, (pass, extra), nd, ac, dt) := c in
  match o with Some y => sym_eqb y (mksymbol p (pass +++ extra) nd ac dt dev) | None => false end
  && match a with Some l => skip_ dev p extra || (if list_eq_dec pytype_eq_dec l (types_of (mksymbol p (pass +++ extra) nd ac dt dev)) then true else false)
     | None => false end.
Lemma check_cpu cuda : check_with cuda Cpu (ok_found Cpu) = true.
Proof. destruct cuda; vm_compute; reflexivity. Qed.
Lemma check_cuda : check_with true Cuda (ok_found Cuda) = true.
Proof. vm_compute. reflexivity. Qed.

(** The functions the propagators ask for. *)
Definition asked (p : prop) (pass extra : string) : Prop :=
  (pass = "forward" /\ extra = "") \/ (pass = "backward" /\ extra = "") \/ (p = ScalarBorn /\ pass = "backward" /\ extra = "_sc").

Lemma in_combos dev p pass extra nd ac dt : asked p pass extra -> 1 <= nd <= 3 -> In ac [2; 4; 6; 8] ->
  In (p, (pass, extra), nd, ac, dt) (combos dev).
Proof.
  intros Hf Hn Ha. unfold combos. rewrite in_flat_map. exists nd. split.
  { assert (nd = 1 \/ nd = 2 \/ nd = 3) as [->|[->| ->]] by lia; cbn; auto. }
  rewrite in_flat_map. exists ac. split; [exact Ha|]. rewrite in_flat_map. exists dt. split; [destruct dt; cbn; auto|].
  rewrite in_map_iff. exists (p, (pass, extra)). split; [reflexivity|].
  destruct Hf as [[-> ->]|[[-> ->]|(-> & -> & ->)]]; [destruct p; cbn; tauto.. | cbn; tauto].
Qed.
Lemma backend_found cuda p ndim pass accuracy dt dev extra :
  asked p pass extra -> 1 <= ndim <= 3 -> In accuracy [2; 4; 6; 8] -> (dev = Cuda -> cuda = true) ->
  exists a, get_backend_function cuda (prop_str p) ndim pass accuracy dt dev extra =
            Some (mksymbol p (pass +++ extra) ndim accuracy dt dev, Some a)
  /\ (~ (p = ScalarBorn /\ extra = "_sc" /\ dev = Cpu) ->
      a = map (fun q => ctypes_of dt (fst q)) (params (mksymbol p (pass +++ extra) ndim accuracy dt dev))).
Proof.
  intros Hf Hn Ha Hd.
  assert (C : check_with cuda dev (ok_found dev) = true).
  { destruct dev; [apply check_cpu | rewrite (Hd eq_refl); apply check_cuda]. }
  unfold check_with in C. cbv zeta in C. rewrite forallb_forall in C.
  specialize (C _ (in_combos dev p pass extra ndim accuracy dt Hf Hn Ha)). cbv beta iota in C.
  unfold get_backend_function. cbv zeta.
  destruct (lookup _ (dll cuda)) as [y|]; [|discriminate C].
  destruct (lookup _ (assigned cuda)) as [a|]; [|unfold ok_found in C; rewrite andb_false_r in C; discriminate C].
  unfold ok_found in C. apply andb_true_iff in C. destruct C as [C1 C2]. apply sym_eqb_eq in C1. subst y.
  exists a. split; [reflexivity|]. intros Hs.
  apply orb_true_iff in C2. destruct C2 as [C2|C2].
  - exfalso. apply Hs. unfold skip_ in C2. rewrite !andb_true_iff, String.eqb_eq in C2.
    destruct C2 as ((C1 & C2) & ->). destruct dev; try discriminate. destruct p; try discriminate. auto.
  - destruct list_eq_dec as [->|]; [reflexivity|discriminate].
Qed.

(** The parameter names the CUDA sources use for the parameters of the CPU sources. *)
Fixpoint strip (suf s : string) : option string :=
  if String.eqb s suf then Some "" else
  match s with EmptyString => None | String c s' => option_map (String c) (strip suf s') end.
Definition cuda_param (s : string) : string :=
  if String.eqb s "device" then "n_threads" else if String.eqb s "stream_compute" then "unused" else
  match strip "_h" s, strip "_store_1a" s, strip "_shot" s with
  | Some b, _, _ => b
  | None, Some b, _ => b +++ "_store_1"
  | None, None, Some b => b +++ "_thread"
  | None, None, None => s
  end.
Lemma dim_cases n : 1 <= n <= 3 -> n = 1 \/ n = 2 \/ n = 3. Proof. lia. Qed.
Lemma call_order_cpu p f ndim ac dt : In f (functions p) -> 1 <= ndim <= 3 -> f <> "backward_sc" ->
  call p f ndim = map snd (params (mksymbol p f ndim ac dt Cpu)).
Proof.
  intros Hf Hn Hs. destruct (dim_cases _ Hn) as [->|[->| ->]]; destruct p; cbn [functions In] in Hf;
    repeat destruct Hf as [<-|Hf]; try contradiction; try (exfalso; apply Hs; reflexivity); vm_compute; reflexivity.
Qed.
Lemma call_order_cuda p f ndim ac dt : In f (functions p) -> 1 <= ndim <= 3 ->
  call p f ndim = map (fun q => cuda_param (snd q)) (params (mksymbol p f ndim ac dt Cuda)).
Proof.
  intros Hf Hn. destruct (dim_cases _ Hn) as [->|[->| ->]]; destruct p; cbn [functions In] in Hf;
    repeat destruct Hf as [<-|Hf]; try contradiction; vm_compute; reflexivity.
Qed.
(** The exception: the CPU function lacks the last parameter. *)
Lemma sc_cpu ndim ac dt cuda : 1 <= ndim <= 3 -> In ac [2; 4; 6; 8] ->
  exists a, get_backend_function cuda "scalar_born" ndim "backward" ac dt Cpu "_sc" =
            Some (mksymbol ScalarBorn "backward_sc" ndim ac dt Cpu, Some (a ++ [c_void_p]))
  /\ a = map (fun q => ctypes_of dt (fst q)) (params (mksymbol ScalarBorn "backward_sc" ndim ac dt Cpu))
  /\ call ScalarBorn "backward_sc" ndim = map snd (params (mksymbol ScalarBorn "backward_sc" ndim ac dt Cpu)) ++ ["unused"].
Proof.
  intros Hn Ha.
  destruct (backend_found cuda ScalarBorn ndim "backward" ac dt Cpu "_sc") as (a & E & _); [right; right; auto|exact Hn|exact Ha|discriminate|].
  cbn [prop_str] in E.
  exists (map (fun q => ctypes_of dt (fst q)) (params (mksymbol ScalarBorn "backward_sc" ndim ac dt Cpu))).
  split; [|split; [reflexivity|]].
  2:{ destruct (dim_cases _ Hn) as [->|[->| ->]]; vm_compute; reflexivity. }
  rewrite E. cbn [String.append]. f_equal. f_equal. f_equal.
  unfold get_backend_function in E. cbv zeta in E.
  destruct (lookup _ (dll cuda)); [|discriminate].
  injection E as _ E.
  assert (C : check_with cuda Cpu (fun c o a => let '(p, (pass, extra), nd, ac, dt) := c in
     negb (skip_ Cpu p extra) || match a with Some l => if list_eq_dec pytype_eq_dec l
        (types_of (mksymbol p (pass +++ extra) nd ac dt Cpu) ++ [c_void_p]) then true else false | None => false end) = true)
    by (destruct cuda; vm_compute; reflexivity).
  unfold check_with in C. cbv zeta in C. rewrite forallb_forall in C.
  specialize (C (ScalarBorn, ("backward", "_sc"), ndim, ac, dt)). cbv beta iota in C.
  cbn [prop_str] in C. change (device_str Cpu) with "cpu" in *. rewrite E in C.
  assert (I : asked ScalarBorn "backward" "_sc") by (right; right; auto).
  specialize (C (in_combos Cpu _ _ _ _ _ dt I Hn Ha)).
  apply orb_true_iff in C. destruct C as [C|C]; [discriminate|].
  destruct list_eq_dec as [->|]; [|discriminate].
  reflexivity.
Qed.
