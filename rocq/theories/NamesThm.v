(** Proofs about names and orders of tensors ([Names]). *)
From Coq Require Import String List Bool Arith Lia.
From Verif Require Import AbiTables Abi AbiThm Names.
Import ListNotations.
Local Open Scope string_scope.
Local Open Scope list_scope.

(** The documented wavefields: the propagator's keyword, and the parameter of the compiled function that has this meaning;
    in the documented order of the outputs (scalar.py:350-366, scalar_born.py:330-347, acoustic.py:341-346, elastic.py:578-604). *)
Definition doc (p : prop) (nd : nat) : list (string * string) :=
  match p, nd with
  | Scalar, 1 => [("wavefield_0", "wfc"); ("wavefield_m1", "wfp"); ("psix_m1", "psix"); ("zetax_m1", "zetax")]
  | Scalar, 2 => [("wavefield_0", "wfc"); ("wavefield_m1", "wfp"); ("psiy_m1", "psiy"); ("psix_m1", "psix");
                  ("zetay_m1", "zetay"); ("zetax_m1", "zetax")]
  | Scalar, 3 => [("wavefield_0", "wfc"); ("wavefield_m1", "wfp"); ("psiz_m1", "psiz"); ("psiy_m1", "psiy"); ("psix_m1", "psix");
                  ("zetaz_m1", "zetaz"); ("zetay_m1", "zetay"); ("zetax_m1", "zetax")]
  | ScalarBorn, 1 => [("wavefield_0", "wfc"); ("wavefield_m1", "wfp"); ("psix_m1", "psix"); ("zetax_m1", "zetax");
                      ("wavefield_sc_0", "wfcsc"); ("wavefield_sc_m1", "wfpsc"); ("psix_sc_m1", "psixsc"); ("zetax_sc_m1", "zetaxsc")]
  | ScalarBorn, 2 => [("wavefield_0", "wfc"); ("wavefield_m1", "wfp"); ("psiy_m1", "psiy"); ("psix_m1", "psix");
                      ("zetay_m1", "zetay"); ("zetax_m1", "zetax");
                      ("wavefield_sc_0", "wfcsc"); ("wavefield_sc_m1", "wfpsc"); ("psiy_sc_m1", "psiysc"); ("psix_sc_m1", "psixsc");
                      ("zetay_sc_m1", "zetaysc"); ("zetax_sc_m1", "zetaxsc")]
  | ScalarBorn, 3 => [("wavefield_0", "wfc"); ("wavefield_m1", "wfp"); ("psiz_m1", "psiz"); ("psiy_m1", "psiy"); ("psix_m1", "psix");
                      ("zetaz_m1", "zetaz"); ("zetay_m1", "zetay"); ("zetax_m1", "zetax");
                      ("wavefield_sc_0", "wfcsc"); ("wavefield_sc_m1", "wfpsc"); ("psiz_sc_m1", "psizsc"); ("psiy_sc_m1", "psiysc");
                      ("psix_sc_m1", "psixsc"); ("zetaz_sc_m1", "zetazsc"); ("zetay_sc_m1", "zetaysc"); ("zetax_sc_m1", "zetaxsc")]
  | Acoustic, 1 => [("pressure_0", "p"); ("vx_0", "vx"); ("phi_x_0", "phi_x"); ("psi_x_0", "psi_x")]
  | Acoustic, 2 => [("pressure_0", "p"); ("vy_0", "vy"); ("vx_0", "vx"); ("phi_y_0", "phi_y"); ("phi_x_0", "phi_x");
                    ("psi_y_0", "psi_y"); ("psi_x_0", "psi_x")]
  | Acoustic, 3 => [("pressure_0", "p"); ("vz_0", "vz"); ("vy_0", "vy"); ("vx_0", "vx"); ("phi_z_0", "phi_z"); ("phi_y_0", "phi_y");
                    ("phi_x_0", "phi_x"); ("psi_z_0", "psi_z"); ("psi_y_0", "psi_y"); ("psi_x_0", "psi_x")]
  | Elastic, 1 => [("vx_0", "vx"); ("sigmaxx_0", "sigmaxx"); ("m_vxx_0", "m_vxx"); ("m_sigmaxxx_0", "m_sigmaxxx")]
  | Elastic, 2 => [("vy_0", "vy"); ("vx_0", "vx"); ("sigmayy_0", "sigmayy"); ("sigmaxy_0", "sigmaxy"); ("sigmaxx_0", "sigmaxx");
                   ("m_vyy_0", "m_vyy"); ("m_vyx_0", "m_vyx"); ("m_vxy_0", "m_vxy"); ("m_vxx_0", "m_vxx");
                   ("m_sigmayyy_0", "m_sigmayyy"); ("m_sigmaxyy_0", "m_sigmaxyy"); ("m_sigmaxyx_0", "m_sigmaxyx");
                   ("m_sigmaxxx_0", "m_sigmaxxx")]
  | Elastic, 3 => [("vz_0", "vz"); ("vy_0", "vy"); ("vx_0", "vx"); ("sigmazz_0", "sigmazz"); ("sigmayz_0", "sigmayz");
                   ("sigmaxz_0", "sigmaxz"); ("sigmayy_0", "sigmayy"); ("sigmaxy_0", "sigmaxy"); ("sigmaxx_0", "sigmaxx");
                   ("m_vzz_0", "m_vzz"); ("m_vzy_0", "m_vzy"); ("m_vzx_0", "m_vzx"); ("m_vyz_0", "m_vyz"); ("m_vxz_0", "m_vxz");
                   ("m_vyy_0", "m_vyy"); ("m_vyx_0", "m_vyx"); ("m_vxy_0", "m_vxy"); ("m_vxx_0", "m_vxx");
                   ("m_sigmazzz_0", "m_sigmazzz"); ("m_sigmayzy_0", "m_sigmayzy"); ("m_sigmaxzx_0", "m_sigmaxzx");
                   ("m_sigmayzz_0", "m_sigmayzz"); ("m_sigmaxzz_0", "m_sigmaxzz"); ("m_sigmayyy_0", "m_sigmayyy");
                   ("m_sigmaxyy_0", "m_sigmaxyy"); ("m_sigmaxyx_0", "m_sigmaxyx"); ("m_sigmaxxx_0", "m_sigmaxxx")]
  | _, _ => []
  end.
(** The models: callback name and parameter. *)
Definition doc_models (p : prop) (nd : nat) : list (string * string) :=
  match p, nd with
  | Scalar, _ => [("v", "v")]
  | ScalarBorn, _ => [("v", "v"); ("scatter", "scatter")]
  | Acoustic, 1 => [("K", "k"); ("Bx", "buoyancy_x")]
  | Acoustic, 2 => [("K", "k"); ("By", "buoyancy_y"); ("Bx", "buoyancy_x")]
  | Acoustic, 3 => [("K", "k"); ("Bz", "buoyancy_z"); ("By", "buoyancy_y"); ("Bx", "buoyancy_x")]
  | Elastic, 1 => [("lamb", "lamb"); ("mu", "mu"); ("buoyancy_x", "buoyancy_x")]
  | Elastic, 2 => [("lamb", "lamb"); ("mu", "mu"); ("mu_yx", "mu_yx"); ("buoyancy_y", "buoyancy_y"); ("buoyancy_x", "buoyancy_x")]
  | Elastic, 3 => [("lamb", "lamb"); ("mu", "mu"); ("mu_zy", "mu_zy"); ("mu_zx", "mu_zx"); ("mu_yx", "mu_yx");
                   ("buoyancy_z", "buoyancy_z"); ("buoyancy_y", "buoyancy_y"); ("buoyancy_x", "buoyancy_x")]
  | _, _ => []
  end.
(** The gradients of the models in backward callbacks. *)
Definition doc_grads (p : prop) (nd : nat) : list (string * string) :=
  match p with
  | Acoustic => map (fun qc => (fst qc, match fst qc with "K" => "grad_k" | "Bz" => "grad_bz" | "By" => "grad_by" | _ => "grad_bx" end))
                  (doc_models p nd)
  | _ => map (fun qc => (fst qc, String.append "grad_" (fst qc))) (doc_models p nd)
  end.
(** Pointers passed for one stored variable (storage.py) times the number of stored variables. *)
Definition nstore (p : prop) (nd : nat) : nat :=
  match p with Scalar => 5 | ScalarBorn => 10 | Acoustic => 5 * (nd + 1) | Elastic => 5 * match nd with 1 => 2 | 2 => 5 | _ => 9 end end.
Definition nfields (p : prop) (nd : nat) : nat := length (doc p nd).

(** Each listed name is in the dictionary, as the tensor given for its parameter. *)
Definition names_ok {T} (l : list (string * string)) (d params : dict T) : Prop :=
  forall q c, In (q, c) l -> exists x, lookup q d = Some x /\ lookup c params = Some x.
Fixpoint oks {T} (l : list (string * string)) (d params : dict T) : Prop :=
  match l with
  | [] => True
  | (q, c) :: l' => (match lookup q d, lookup c params with Some x, Some y => x = y | _, _ => False end) /\ oks l' d params
  end.
Lemma oks_ok {T} l (d params : dict T) : oks l d params -> names_ok l d params.
Proof.
  induction l as [|[q' c'] l IH]; intros H q c Hi; [destruct Hi|]. destruct H as [H1 H2].
  destruct Hi as [E|Hi]; [injection E as -> ->|exact (IH H2 q c Hi)].
  destruct (lookup q d) as [x|]; [|destruct H1]. destruct (lookup c params) as [y|]; [|destruct H1]. subst y. exists x. split; reflexivity.
Qed.

Ltac split_list l :=
  match goal with
  | H : length l = S _ |- _ => let x := fresh "x" in destruct l as [|x l]; [discriminate H|apply (f_equal pred) in H; cbn [length pred] in H; split_list l]
  | H : length l = 0 |- _ => destruct l; [clear H|discriminate H]
  | _ => idtac
  end.
Ltac norm H := match type of H with ?a = ?b => let k := eval vm_compute in b in change (a = k) in H end.
Ltac by_dims H := destruct (dim_cases _ H) as [->|[->| ->]].
Ltac oks_tac := apply oks_ok; vm_compute; repeat split.

Section C40.
Context {T : Type}.
Implicit Types (psi psin zeta zetan rest models f w aux gr : list T).

Lemma scalar_names nd ac dt dev (v s wfc wfp : T) psi psin zeta zetan rest :
  1 <= nd <= 3 -> length psi = nd -> length psin = nd -> length zeta = nd -> length zetan = nd ->
  names_ok (doc Scalar nd) (scalar_cb nd wfc wfp psi zeta)
    (bound (mksymbol Scalar "forward" nd ac dt dev) (scalar_fwd_args v s wfc wfp psi psin zeta rest))
  /\ names_ok (doc Scalar nd) (scalar_cb nd wfc wfp psi zeta)
    (bound (mksymbol Scalar "backward" nd ac dt dev) (scalar_bwd_args v s wfc wfp psi psin zeta zetan rest)).
Proof.
  intros Hn H1 H2 H3 H4. by_dims Hn; split_list psi; split_list psin; split_list zeta; split_list zetan; destruct dev; split; oks_tac.
Qed.

Lemma born_names nd ac dt dev (v sc s ssc wfc wfp wfcsc wfpsc : T) psi psin zeta zetan (psisc psinsc zetasc zetansc : list T) rest :
  1 <= nd <= 3 -> length psi = nd -> length psin = nd -> length zeta = nd -> length zetan = nd ->
  length psisc = nd -> length psinsc = nd -> length zetasc = nd -> length zetansc = nd ->
  names_ok (doc ScalarBorn nd) (born_cb nd wfc wfp wfcsc wfpsc psi zeta psisc zetasc)
    (bound (mksymbol ScalarBorn "forward" nd ac dt dev) (born_fwd_args v sc s ssc wfc wfp psi psin zeta wfcsc wfpsc psisc psinsc zetasc rest))
  /\ names_ok (doc ScalarBorn nd) (born_cb nd wfc wfp wfcsc wfpsc psi zeta psisc zetasc)
    (bound (mksymbol ScalarBorn "backward" nd ac dt dev)
       (born_bwd_args v sc s ssc wfc wfp psi psin zeta zetan wfcsc wfpsc psisc psinsc zetasc zetansc rest))
  /\ names_ok (skipn (2 + 2 * nd) (doc ScalarBorn nd)) (born_sc_cb nd wfcsc wfpsc psisc zetasc)
    (bound (mksymbol ScalarBorn "backward_sc" nd ac dt dev) (born_sc_args v ssc wfcsc wfpsc psisc psinsc zetasc zetansc rest)).
Proof.
  intros Hn H1 H2 H3 H4 H5 H6 H7 H8.
  by_dims Hn; split_list psi; split_list psin; split_list zeta; split_list zetan; split_list psisc; split_list psinsc; split_list zetasc;
    split_list zetansc; destruct dev; (split; [|split]); oks_tac.
Qed.

Lemma acoustic_names nd ac dt dev models f w aux rest store gf (gm : list T) :
  1 <= nd <= 3 -> length models = nd + 1 -> length f = nd + 1 -> length w = nfields Acoustic nd -> length aux = nd ->
  length store = nstore Acoustic nd -> length gf = nd + 1 -> length gm = nd + 1 ->
  let fwd := bound (mksymbol Acoustic "forward" nd ac dt dev) (ac_fwd_args models f w rest) in
  let bwd := bound (mksymbol Acoustic "backward" nd ac dt dev) (ac_bwd_args models f w aux (store ++ gf ++ gm ++ rest)) in
  names_ok (doc Acoustic nd) (dict_zip (ac_wf_names nd) w) fwd
  /\ names_ok (doc Acoustic nd) (dict_zip (ac_wf_names nd) w) bwd
  /\ names_ok (doc_models Acoustic nd) (dict_zip (ac_model_names nd) models) fwd
  /\ names_ok (doc_models Acoustic nd) (dict_zip (ac_model_names nd) models) bwd
  /\ names_ok (doc_grads Acoustic nd) (dict_zip (ac_model_names nd) gm) bwd.
Proof.
  intros Hn H1 H2 H3 H4 H5 H6 H7 fwd bwd. subst fwd bwd.
  by_dims Hn; norm H1; norm H2; norm H3; norm H4; norm H5; norm H6; norm H7;
    split_list models; split_list f; split_list w; split_list aux; split_list store; split_list gf; split_list gm; destruct dev;
    (split; [|split; [|split; [|split]]]); oks_tac.
Qed.

Definition naux (nd : nat) : nat := match nd with 1 => 1 | 2 => 4 | _ => 9 end.
Lemma elastic_names nd ac dt dev models f w aux rest store gf (gm : list T) :
  1 <= nd <= 3 -> length models = length (doc_models Elastic nd) -> length f = nd + 1 -> length w = nfields Elastic nd ->
  length aux = naux nd -> length store = nstore Elastic nd -> length gf = nd + 1 -> length gm = length (doc_models Elastic nd) ->
  let fwd := bound (mksymbol Elastic "forward" nd ac dt dev) (el_fwd_args models f w rest) in
  let bwd := bound (mksymbol Elastic "backward" nd ac dt dev) (el_bwd_args models f w aux (store ++ gf ++ gm ++ rest)) in
  names_ok (doc Elastic nd) (el_fwd_cb nd w) fwd
  /\ names_ok (removelast (doc Elastic nd)) (el_bwd_cb nd w) bwd
  /\ (nd <> 3 -> names_ok (doc_models Elastic nd) (dict_zip (el_model_names nd) models) fwd
                 /\ names_ok (doc_models Elastic nd) (dict_zip (el_model_names nd) models) bwd
                 /\ names_ok (doc_grads Elastic nd) (dict_zip (el_model_names nd) gm) bwd).
Proof.
  intros Hn H1 H2 H3 H4 H5 H6 H7 fwd bwd. subst fwd bwd.
  by_dims Hn; norm H1; norm H2; norm H3; norm H4; norm H5; norm H6; norm H7;
    split_list models; split_list f; split_list w; split_list aux; split_list store; split_list gf; split_list gm; destruct dev;
    (split; [|split; [|intros Hd; first [exfalso; apply Hd; reflexivity|split; [|split]]]]); oks_tac.
Qed.

(** The Python backends: the name refers to the variable that the wavefield of that name was put into at the start. *)
Lemma python_names (arg : string -> T) (d : T) nd q :
  1 <= nd <= 3 ->
  (In q (map fst (doc Scalar nd)) -> lookup q (scalar_python_cb d nd (scalar_initial nd arg)) = Some (arg q))
  /\ (In q (map fst (doc ScalarBorn nd)) -> lookup q (born_python_cb d nd (born_initial nd arg)) = Some (arg q))
  /\ (In q (map fst (doc Acoustic nd)) -> lookup q (ac_python_cb d nd (acoustic_initial nd arg)) = Some (arg q)).
Proof.
  intros Hn. by_dims Hn; (split; [|split]); intros H; cbn [doc map fst In] in H; repeat destruct H as [<-|H]; try destruct H; vm_compute; reflexivity.
Qed.
(** The names of normal components and velocities in [elastic_python]. *)
Definition normal_names (nd : nat) : list string :=
  match nd with
  | 1 => ["vx_0"; "sigmaxx_0"; "m_vxx_0"; "m_sigmaxxx_0"]
  | 2 => ["vy_0"; "vx_0"; "sigmayy_0"; "sigmaxx_0"; "m_vyy_0"; "m_vxx_0"; "m_sigmayyy_0"; "m_sigmaxxx_0"]
  | _ => ["vz_0"; "vy_0"; "vx_0"; "sigmazz_0"; "sigmayy_0"; "sigmaxx_0"; "m_vzz_0"; "m_vyy_0"; "m_vxx_0"; "m_sigmazzz_0"; "m_sigmayyy_0";
          "m_sigmaxxx_0"]
  end.
Lemma elastic_python_names (arg : string -> T) (e : T) nd models f w rest :
  1 <= nd <= 3 ->
  (forall q, In q (normal_names nd) -> lookup q (elpy_cb nd (elpy_of e nd (elastic_initial nd arg))) = Some (arg q))
  /\ (length models = length (doc_models Elastic nd) ->
      names_ok (doc_models Elastic nd) (dict_zip (elpy_model_names nd) models)
        (bound (mksymbol Elastic "forward" nd 4 Float Cpu) (el_fwd_args models f w rest))).
Proof.
  intros Hn. by_dims Hn; (split; [intros q H; cbn [normal_names In] in H; repeat destruct H as [<-|H]; try destruct H; vm_compute; reflexivity|]);
    intros H; norm H; split_list models; oks_tac.
Qed.

(** E3: shear components. *)
Lemma elastic_python_shear2 (arg : string -> T) (e : T) :
  let d := elpy_cb 2 (elpy_of e 2 (elastic_initial 2 arg)) in
  lookup "sigmaxy_0" d = Some e /\ lookup "m_vyx_0" d = Some e /\ lookup "m_vxy_0" d = Some (arg "m_vyx_0")
  /\ lookup "m_sigmaxyx_0" d = Some e /\ lookup "m_sigmaxyy_0" d = Some (arg "m_sigmaxyx_0").
Proof. vm_compute. repeat split. Qed.
Lemma elastic_python_shear3 (arg : string -> T) (e : T) :
  let d := elpy_cb 3 (elpy_of e 3 (elastic_initial 3 arg)) in
  lookup "sigmayz_0" d = Some e /\ lookup "sigmaxz_0" d = Some (arg "sigmayz_0") /\ lookup "sigmaxy_0" d = Some (arg "sigmayz_0")
  /\ lookup "m_vzy_0" d = Some e /\ lookup "m_vzx_0" d = Some (arg "m_vzy_0") /\ lookup "m_vyx_0" d = Some e
  /\ lookup "m_vxz_0" d = Some (arg "m_vxz_0") /\ lookup "m_vyz_0" d = Some (arg "m_vyz_0") /\ lookup "m_vxy_0" d = Some (arg "m_vxy_0")
  /\ lookup "m_sigmayzy_0" d = Some e /\ lookup "m_sigmaxzx_0" d = Some (arg "m_sigmayzy_0").
Proof. vm_compute. repeat split. Qed.
(** E1: the 3-D model names. *)
Lemma elastic_models3 (arg : string -> T) :
  let d := dict_zip (el_model_names 3) (map arg (map fst (doc_models Elastic 3))) in
  lookup "lamb" d = Some (arg "lamb") /\ lookup "mu" d = Some (arg "mu") /\ lookup "mu_yx" d = Some (arg "mu_zy")
  /\ lookup "buoyancy_y" d = Some (arg "mu_zx") /\ lookup "buoyancy_x" d = Some (arg "mu_yx")
  /\ lookup "mu_zy" d = None /\ lookup "mu_zx" d = None /\ lookup "buoyancy_z" d = None.
Proof. vm_compute. repeat split. Qed.
(** E2: the last wavefield in backward callbacks. *)
Lemma elastic_backward_last nd (w : list T) : 1 <= nd <= 3 -> length w = nfields Elastic nd -> lookup "m_sigmaxxx_0" (el_bwd_cb nd w) = None.
Proof. intros Hn H. by_dims Hn; norm H; split_list w; vm_compute; reflexivity. Qed.
End C40.

Section C47.
Context {T : Type}.
Implicit Types (psi psin zeta zetan rest models f w aux gr : list T).

(** Initial wavefields reach the parameter with their meaning. *)
Definition given (arg : string -> T) (l : list (string * string)) (params : dict T) : Prop :=
  forall q c, In (q, c) l -> lookup c params = Some (arg q).
Fixpoint givens (arg : string -> T) (l : list (string * string)) (params : dict T) : Prop :=
  match l with [] => True | (q, c) :: l' => lookup c params = Some (arg q) /\ givens arg l' params end.
Lemma givens_ok arg l params : givens arg l params -> given arg l params.
Proof. induction l as [|[q' c'] l IH]; intros H q c Hi; [destruct Hi|]. destruct H as [H1 H2]. destruct Hi as [E|Hi]; [injection E as -> ->; exact H1|exact (IH H2 q c Hi)]. Qed.

Lemma initial_given nd ac dt dev (arg : string -> T) (d v s ssc sc : T) psin (psinsc : list T) models f (emodels : list T) rest :
  1 <= nd <= 3 -> length psin = nd -> length psinsc = nd -> length models = nd + 1 -> length f = nd + 1 ->
  length emodels = length (doc_models Elastic nd) ->
  given arg (doc Scalar nd) (bound (mksymbol Scalar "forward" nd ac dt dev)
     (let l := scalar_initial nd arg in
      scalar_fwd_args v s (reg_wfc d l) (reg_wfp d l) (reg_psi nd l) psin (reg_zeta nd l) rest))
  /\ given arg (doc ScalarBorn nd) (bound (mksymbol ScalarBorn "forward" nd ac dt dev)
     (let l := born_bg nd (born_initial nd arg) in let lsc := born_sc nd (born_initial nd arg) in
      born_fwd_args v sc s ssc (reg_wfc d l) (reg_wfp d l) (reg_psi nd l) psin (reg_zeta nd l)
        (reg_wfc d lsc) (reg_wfp d lsc) (reg_psi nd lsc) psinsc (reg_zeta nd lsc) rest))
  /\ given arg (doc Acoustic nd) (bound (mksymbol Acoustic "forward" nd ac dt dev) (ac_fwd_args models f (acoustic_initial nd arg) rest))
  /\ given arg (doc Elastic nd) (bound (mksymbol Elastic "forward" nd ac dt dev) (el_fwd_args emodels f (elastic_initial nd arg) rest)).
Proof.
  intros Hn H1 H2 H3 H4 H5. by_dims Hn; norm H1; norm H2; norm H3; norm H4; norm H5;
    split_list psin; split_list psinsc; split_list models; split_list f; split_list emodels; destruct dev;
    (split; [|split; [|split]]); apply givens_ok; vm_compute; repeat split.
Qed.

(** Outputs are in the documented order: [w] is the state, in the order of the parameters of the compiled function. *)
Definition output_ok (p : prop) (nd : nat) (out : list T) (params : dict T) (recs : list T) : Prop :=
  Forall2 (fun qc x => lookup (snd qc) params = Some x) (doc p nd) (firstn (nfields p nd) out) /\ skipn (nfields p nd) out = recs.
Fixpoint outs (l : list (string * string)) (out : list T) (params : dict T) : Prop :=
  match l, out with
  | [], [] => True
  | (q, c) :: l', x :: out' => lookup c params = Some x /\ outs l' out' params
  | _, _ => False
  end.
Lemma outs_ok p nd out params recs : outs (doc p nd) (firstn (nfields p nd) out) params -> skipn (nfields p nd) out = recs -> output_ok p nd out params recs.
Proof.
  intros H Hr. split; [|exact Hr]. revert H. generalize (firstn (nfields p nd) out). induction (doc p nd) as [|[q c] l IH]; intros [|x o] H; cbn in H; try contradiction; constructor;
    [exact (proj1 H)|exact (IH _ (proj2 H))].
Qed.
Lemma output_order nd ac dt dev (v s sc ssc wfc wfp wfcsc wfpsc r rsc d : T) psi psin zeta (psisc psinsc zetasc : list T) models f w
    (emodels we rs : list T) rest :
  1 <= nd <= 3 -> length psi = nd -> length psin = nd -> length zeta = nd -> length psisc = nd -> length psinsc = nd -> length zetasc = nd ->
  length models = nd + 1 -> length f = nd + 1 -> length w = nfields Acoustic nd ->
  length emodels = length (doc_models Elastic nd) -> length we = nfields Elastic nd -> length rs = nd + 1 ->
  output_ok Scalar nd (scalar_ret wfc wfp psi zeta r)
    (bound (mksymbol Scalar "forward" nd ac dt dev) (scalar_fwd_args v s wfc wfp psi psin zeta rest)) [r]
  /\ output_ok ScalarBorn nd (born_ret wfc wfp psi zeta wfcsc wfpsc psisc zetasc r rsc)
    (bound (mksymbol ScalarBorn "forward" nd ac dt dev)
       (born_fwd_args v sc s ssc wfc wfp psi psin zeta wfcsc wfpsc psisc psinsc zetasc rest)) [r; rsc]
  /\ output_ok Acoustic nd (w ++ rs) (bound (mksymbol Acoustic "forward" nd ac dt dev) (ac_fwd_args models f w rest)) rs
  /\ output_ok Elastic nd (el_ret d nd we rs) (bound (mksymbol Elastic "forward" nd ac dt dev) (el_fwd_args emodels f we rest))
       (last rs d :: removelast rs).
Proof.
  intros Hn H1 H2 H3 H4 H5 H6 H7 H8 H9 Ha Hb Hc. by_dims Hn; norm H7; norm H8; norm H9; norm Ha; norm Hb; norm Hc;
    split_list psi; split_list psin; split_list zeta; split_list psisc; split_list psinsc; split_list zetasc;
    split_list models; split_list f; split_list w; split_list emodels; split_list we; split_list rs; destruct dev;
    (split; [|split; [|split]]); apply outs_ok; vm_compute; repeat split.
Qed.

(** The exchange of buffers after an odd number of backward steps. *)
Definition mem (q : string) (l : list string) : bool := existsb (String.eqb q) l.
Definition swapped (y : symbol) (names : list string) (before after : dict T) : Prop :=
  forall c, In c names ->
    if mem (String.append c "n") (map snd (params y))
    then lookup c after = lookup (String.append c "n") before /\ lookup (String.append c "n") after = lookup c before
    else lookup c after = lookup c before.
Fixpoint swaps (y : symbol) (names : list string) (before after : dict T) : Prop :=
  match names with
  | [] => True
  | c :: l => (if mem (String.append c "n") (map snd (params y))
               then lookup c after = lookup (String.append c "n") before /\ lookup (String.append c "n") after = lookup c before
               else lookup c after = lookup c before) /\ swaps y l before after
  end.
Lemma swaps_ok y names before after : swaps y names before after -> swapped y names before after.
Proof. induction names as [|c l IH]; intros H c' Hi; [destruct Hi|]. destruct H as [H1 H2]. destruct Hi as [<-|Hi]; [exact H1|exact (IH H2 c' Hi)]. Qed.
Lemma swap_buffers nd ac dt dev models f w aux (emodels we auxe : list T) rest :
  1 <= nd <= 3 -> length models = nd + 1 -> length f = nd + 1 -> length w = nfields Acoustic nd -> length aux = nd ->
  length emodels = length (doc_models Elastic nd) -> length we = nfields Elastic nd -> length auxe = naux nd ->
  (let y := mksymbol Acoustic "backward" nd ac dt dev in
   let b w a := bound y (ac_bwd_args models f w a rest) in
   swapped y (map snd (doc Acoustic nd)) (b w aux) (b (fst (ac_swap nd w aux)) (snd (ac_swap nd w aux))))
  /\ (let y := mksymbol Elastic "backward" nd ac dt dev in
      let b w a := bound y (el_bwd_args emodels f w a rest) in
      swapped y (map snd (doc Elastic nd)) (b we auxe) (b (fst (el_swap nd we auxe)) (snd (el_swap nd we auxe)))).
Proof.
  intros Hn H1 H2 H3 H4 H5 H6 H7. by_dims Hn; norm H1; norm H2; norm H3; norm H4; norm H5; norm H6; norm H7;
    split_list models; split_list f; split_list w; split_list aux; split_list emodels; split_list we; split_list auxe; destruct dev;
    split; apply swaps_ok; vm_compute; repeat split.
Qed.

(** [elastic_python] puts its wavefields into variables and returns them in the order in which they came. *)
Lemma elpy_roundtrip (e : T) nd (w : list T) : 1 <= nd <= 3 -> length w = nfields Elastic nd -> elpy_ret e nd (elpy_of e nd w) = w.
Proof. intros Hn H. by_dims Hn; norm H; split_list w; vm_compute; reflexivity. Qed.

Lemma pop_app (l x : list T) : pop (length x) (l ++ x) = (x, l).
Proof.
  unfold pop. rewrite app_length, Nat.add_sub. rewrite skipn_app, skipn_all, Nat.sub_diag, firstn_app, firstn_all, Nat.sub_diag. cbn.
  rewrite app_nil_r. reflexivity.
Qed.
Lemma parse_args nd (m f s r w : list T) : length f = nd + 1 -> length s = nd + 1 -> length r = nd + 1 ->
  staggered_parse (length m) (length w) nd (m ++ f ++ s ++ r ++ w) = (m, f, s, r, w, []).
Proof.
  intros Hf Hs Hr. unfold staggered_parse. rewrite !app_assoc, pop_app. rewrite <- Hr at 1. rewrite pop_app.
  rewrite <- Hs at 1. rewrite pop_app. rewrite <- Hf. rewrite pop_app. rewrite <- (app_nil_l m) at 2. rewrite pop_app. reflexivity.
Qed.
Lemma parse_grads nd (w r : list T) : length r = nd + 1 -> staggered_grads nd (w ++ r) = (w, r).
Proof.
  intros Hr. unfold staggered_grads. rewrite <- Hr. pose proof (pop_app w r) as H. unfold pop in H. injection H as H1 H2. rewrite H1, H2. reflexivity.
Qed.
End C47.

(** Gradients are returned at the positions of their arguments; arguments other than settings, locations and profiles have one. *)
Definition no_gradient : list string :=
  ["pml_profiles"; "sources_i"; "unused_tensor"; "receivers_i"; "receiverssc_i"; "sources_i_p"; "sources_i_z"; "sources_i_y"; "sources_i_x";
   "receivers_i_p"; "receivers_i_z"; "receivers_i_y"; "receivers_i_x"; "storage_manager"; "grid_spacing"; "dt"; "nt"; "step_ratio";
   "accuracy"; "pml_width"; "n_shots"; "forward_callback"; "backward_callback"; "callback_frequency"; "storage_mode_str"; "storage_path";
   "storage_compression"; "source_amplitudes_requires_grad"].
Lemma aligned p nd : 1 <= nd <= 3 -> returned p nd = map (fun q => if mem q no_gradient then None else Some q) (apply_args p nd).
Proof. intros Hn. by_dims Hn; destruct p; vm_compute; reflexivity. Qed.
Lemma aligned_sc nd : 1 <= nd <= 3 ->
  returned_sc nd = map (fun q => if mem q (["v"; "source_amplitudes"] ++ map fst (doc Scalar nd) ++ no_gradient) then None else Some q)
                     (apply_args ScalarBorn nd).
Proof. intros Hn. by_dims Hn; vm_compute; reflexivity. Qed.
Lemma aligned_double nd : 1 <= nd <= 3 ->
  returned_double nd = map (fun q => if mem q no_gradient then None else Some q) (apply_backward_args nd).
Proof. intros Hn. by_dims Hn; vm_compute; reflexivity. Qed.
