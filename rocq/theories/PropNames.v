(** * C40: the names of callbacks; C47: initial wavefields, outputs and gradients by name and position.

    [bound y args] binds the parameters of the compiled function [y] to the tensors it is called with; [doc p nd] pairs each documented
    wavefield name with the parameter of that meaning, in the documented order of outputs. *)
From Coq Require Import String List Bool Arith Lia.
From Verif Require Import AbiTables Abi AbiThm Names NamesThm.
Import ListNotations.
Local Open Scope string_scope.
Local Open Scope list_scope.

(** ** C40 *)

(** Scalar: the dictionaries of forward and backward callbacks give every documented name the tensor that the compiled function is
    called with for it. *)
Theorem C40_scalar {T : Type} (nd ac : nat) (dt : dtype) (dev : device) (v s wfc wfp : T) (psi psin zeta zetan rest : list T) :
  1 <= nd <= 3 -> length psi = nd -> length psin = nd -> length zeta = nd -> length zetan = nd ->
  names_ok (doc Scalar nd) (scalar_cb nd wfc wfp psi zeta)
    (bound (mksymbol Scalar "forward" nd ac dt dev) (scalar_fwd_args v s wfc wfp psi psin zeta rest))
  /\ names_ok (doc Scalar nd) (scalar_cb nd wfc wfp psi zeta)
    (bound (mksymbol Scalar "backward" nd ac dt dev) (scalar_bwd_args v s wfc wfp psi psin zeta zetan rest)).
Proof. exact (scalar_names nd ac dt dev v s wfc wfp psi psin zeta zetan rest). Qed.
Print Assumptions C40_scalar.

(** Born: likewise; when only the scattered part is propagated backward, its names are present. *)
Theorem C40_born {T : Type} (nd ac : nat) (dt : dtype) (dev : device) (v sc s ssc wfc wfp wfcsc wfpsc : T)
    (psi psin zeta zetan psisc psinsc zetasc zetansc rest : list T) :
  1 <= nd <= 3 -> length psi = nd -> length psin = nd -> length zeta = nd -> length zetan = nd ->
  length psisc = nd -> length psinsc = nd -> length zetasc = nd -> length zetansc = nd ->
  names_ok (doc ScalarBorn nd) (born_cb nd wfc wfp wfcsc wfpsc psi zeta psisc zetasc)
    (bound (mksymbol ScalarBorn "forward" nd ac dt dev) (born_fwd_args v sc s ssc wfc wfp psi psin zeta wfcsc wfpsc psisc psinsc zetasc rest))
  /\ names_ok (doc ScalarBorn nd) (born_cb nd wfc wfp wfcsc wfpsc psi zeta psisc zetasc)
    (bound (mksymbol ScalarBorn "backward" nd ac dt dev)
       (born_bwd_args v sc s ssc wfc wfp psi psin zeta zetan wfcsc wfpsc psisc psinsc zetasc zetansc rest))
  /\ names_ok (skipn (2 + 2 * nd) (doc ScalarBorn nd)) (born_sc_cb nd wfcsc wfpsc psisc zetasc)
    (bound (mksymbol ScalarBorn "backward_sc" nd ac dt dev) (born_sc_args v ssc wfcsc wfpsc psisc psinsc zetasc zetansc rest)).
Proof. exact (born_names nd ac dt dev v sc s ssc wfc wfp wfcsc wfpsc psi psin zeta zetan psisc psinsc zetasc zetansc rest). Qed.
Print Assumptions C40_born.

(** Acoustic: wavefields, models and gradients of models. *)
Theorem C40_acoustic {T : Type} (nd ac : nat) (dt : dtype) (dev : device) (models f w aux rest store gf gm : list T) :
  1 <= nd <= 3 -> length models = nd + 1 -> length f = nd + 1 -> length w = nfields Acoustic nd -> length aux = nd ->
  length store = nstore Acoustic nd -> length gf = nd + 1 -> length gm = nd + 1 ->
  let fwd := bound (mksymbol Acoustic "forward" nd ac dt dev) (ac_fwd_args models f w rest) in
  let bwd := bound (mksymbol Acoustic "backward" nd ac dt dev) (ac_bwd_args models f w aux (store ++ gf ++ gm ++ rest)) in
  names_ok (doc Acoustic nd) (dict_zip (ac_wf_names nd) w) fwd
  /\ names_ok (doc Acoustic nd) (dict_zip (ac_wf_names nd) w) bwd
  /\ names_ok (doc_models Acoustic nd) (dict_zip (ac_model_names nd) models) fwd
  /\ names_ok (doc_models Acoustic nd) (dict_zip (ac_model_names nd) models) bwd
  /\ names_ok (doc_grads Acoustic nd) (dict_zip (ac_model_names nd) gm) bwd.
Proof. exact (acoustic_names nd ac dt dev models f w aux rest store gf gm). Qed.
Print Assumptions C40_acoustic.

(** Elastic: all wavefields forward, all but the last backward; models and their gradients in 1-D and 2-D. *)
Theorem C40_elastic_partial {T : Type} (nd ac : nat) (dt : dtype) (dev : device) (models f w aux rest store gf gm : list T) :
  1 <= nd <= 3 -> length models = length (doc_models Elastic nd) -> length f = nd + 1 -> length w = nfields Elastic nd ->
  length aux = naux nd -> length store = nstore Elastic nd -> length gf = nd + 1 -> length gm = length (doc_models Elastic nd) ->
  let fwd := bound (mksymbol Elastic "forward" nd ac dt dev) (el_fwd_args models f w rest) in
  let bwd := bound (mksymbol Elastic "backward" nd ac dt dev) (el_bwd_args models f w aux (store ++ gf ++ gm ++ rest)) in
  names_ok (doc Elastic nd) (el_fwd_cb nd w) fwd
  /\ names_ok (removelast (doc Elastic nd)) (el_bwd_cb nd w) bwd
  /\ (nd <> 3 -> names_ok (doc_models Elastic nd) (dict_zip (el_model_names nd) models) fwd
                 /\ names_ok (doc_models Elastic nd) (dict_zip (el_model_names nd) models) bwd
                 /\ names_ok (doc_grads Elastic nd) (dict_zip (el_model_names nd) gm) bwd).
Proof. exact (elastic_names nd ac dt dev models f w aux rest store gf gm). Qed.
Print Assumptions C40_elastic_partial.

(** Python backends of the scalar, Born and acoustic propagators: the name refers to the variable that starts as the initial wavefield of
    that name. *)
Theorem C40_python {T : Type} (arg : string -> T) (d : T) (nd : nat) (q : string) :
  1 <= nd <= 3 ->
  (In q (map fst (doc Scalar nd)) -> lookup q (scalar_python_cb d nd (scalar_initial nd arg)) = Some (arg q))
  /\ (In q (map fst (doc ScalarBorn nd)) -> lookup q (born_python_cb d nd (born_initial nd arg)) = Some (arg q))
  /\ (In q (map fst (doc Acoustic nd)) -> lookup q (ac_python_cb d nd (acoustic_initial nd arg)) = Some (arg q)).
Proof. exact (python_names arg d nd q). Qed.
Print Assumptions C40_python.

(** [elastic_python]: the models, velocities and normal components. *)
Theorem C40_elastic_python_partial {T : Type} (arg : string -> T) (e : T) (nd : nat) (models f w rest : list T) :
  1 <= nd <= 3 ->
  (forall q, In q (normal_names nd) -> lookup q (elpy_cb nd (elpy_of e nd (elastic_initial nd arg))) = Some (arg q))
  /\ (length models = length (doc_models Elastic nd) ->
      names_ok (doc_models Elastic nd) (dict_zip (elpy_model_names nd) models)
        (bound (mksymbol Elastic "forward" nd 4 Float Cpu) (el_fwd_args models f w rest))).
Proof. exact (elastic_python_names arg e nd models f w rest). Qed.
Print Assumptions C40_elastic_python_partial.

(** Elastic 3-D callbacks name three models wrongly and lack three (the 2-D names replace the 3-D ones). *)
Theorem C40_models_3d_refuted {T : Type} (arg : string -> T) :
  let d := dict_zip (el_model_names 3) (map arg (map fst (doc_models Elastic 3))) in
  lookup "lamb" d = Some (arg "lamb") /\ lookup "mu" d = Some (arg "mu") /\ lookup "mu_yx" d = Some (arg "mu_zy")
  /\ lookup "buoyancy_y" d = Some (arg "mu_zx") /\ lookup "buoyancy_x" d = Some (arg "mu_yx")
  /\ lookup "mu_zy" d = None /\ lookup "mu_zx" d = None /\ lookup "buoyancy_z" d = None.
Proof. exact (elastic_models3 arg). Qed.
Print Assumptions C40_models_3d_refuted.

(** Elastic backward callbacks lack the last wavefield. *)
Theorem C40_last_refuted {T : Type} (nd : nat) (w : list T) :
  1 <= nd <= 3 -> length w = nfields Elastic nd -> lookup "m_sigmaxxx_0" (el_bwd_cb nd w) = None.
Proof. exact (elastic_backward_last nd w). Qed.
Print Assumptions C40_last_refuted.

(** [elastic_python] names shear components wrongly; some names refer to an empty tensor [e]. *)
Theorem C40_python_shear_2d_refuted {T : Type} (arg : string -> T) (e : T) :
  let d := elpy_cb 2 (elpy_of e 2 (elastic_initial 2 arg)) in
  lookup "sigmaxy_0" d = Some e /\ lookup "m_vyx_0" d = Some e /\ lookup "m_vxy_0" d = Some (arg "m_vyx_0")
  /\ lookup "m_sigmaxyx_0" d = Some e /\ lookup "m_sigmaxyy_0" d = Some (arg "m_sigmaxyx_0").
Proof. exact (elastic_python_shear2 arg e). Qed.
Print Assumptions C40_python_shear_2d_refuted.
Theorem C40_python_shear_3d_refuted {T : Type} (arg : string -> T) (e : T) :
  let d := elpy_cb 3 (elpy_of e 3 (elastic_initial 3 arg)) in
  lookup "sigmayz_0" d = Some e /\ lookup "sigmaxz_0" d = Some (arg "sigmayz_0") /\ lookup "sigmaxy_0" d = Some (arg "sigmayz_0")
  /\ lookup "m_vzy_0" d = Some e /\ lookup "m_vzx_0" d = Some (arg "m_vzy_0") /\ lookup "m_vyx_0" d = Some e
  /\ lookup "m_vxz_0" d = Some (arg "m_vxz_0") /\ lookup "m_vyz_0" d = Some (arg "m_vyz_0") /\ lookup "m_vxy_0" d = Some (arg "m_vxy_0")
  /\ lookup "m_sigmayzy_0" d = Some e /\ lookup "m_sigmaxzx_0" d = Some (arg "m_sigmayzy_0").
Proof. exact (elastic_python_shear3 arg e). Qed.
Print Assumptions C40_python_shear_3d_refuted.

(** With tensors named by numbers: 2-D elastic, forward and backward dictionaries; documented names are 13. *)
Example names_elastic_example :
  let w := seq 100 13 in
  map (fun qc => lookup (fst qc) (el_fwd_cb 2 w)) (doc Elastic 2) =
    map Some [100; 109; 101; 102; 110; 103; 104; 105; 111; 106; 107; 108; 112]
  /\ lookup "sigmaxy_0" (el_bwd_cb 2 w) = Some 102 /\ lookup "m_sigmaxxx_0" (el_bwd_cb 2 w) = None
  /\ lookup "sigmaxy" (bound (mksymbol Elastic "forward" 2 4 Double Cpu) (el_fwd_args [1; 2; 3; 4; 5] [6; 7; 8] w [])) = Some 102
  /\ lookup "mu_yx" (dict_zip (el_model_names 2) [1; 2; 3; 4; 5]) = Some 3
  /\ lookup "buoyancy_x" (dict_zip (el_model_names 3) [1; 2; 3; 4; 5; 6; 7; 8]) = Some 5
  /\ lookup "sigmaxy_0" (elpy_cb 2 (elpy_of 0 2 w)) = Some 0.
Proof. vm_compute. repeat split. Qed.
Example names_scalar_example :
  let d := scalar_cb 2 1 2 [3; 4] [5; 6] in
  lookup "wavefield_0" d = Some 1 /\ lookup "psix_m1" d = Some 4 /\ lookup "zetay_m1" d = Some 5 /\ lookup "psiz_m1" d = None.
Proof. vm_compute. repeat split. Qed.

(** ** C47 *)

(** An initial wavefield given by keyword is what the compiled function is called with for the parameter of that meaning. *)
Theorem C47_initial {T : Type} (nd ac : nat) (dt : dtype) (dev : device) (arg : string -> T) (d v s ssc sc : T)
    (psin psinsc models f emodels rest : list T) :
  1 <= nd <= 3 -> length psin = nd -> length psinsc = nd -> length models = nd + 1 -> length f = nd + 1 ->
  length emodels = length (doc_models Elastic nd) ->
  given arg (doc Scalar nd) (bound (mksymbol Scalar "forward" nd ac dt dev)
     (let l := scalar_initial nd arg in
      scalar_fwd_args v s (reg_wfc d l) (reg_wfp d l) (reg_psi nd l) psin (reg_zeta nd l) rest))
  /\ given arg (doc ScalarBorn nd) (bound (mksymbol ScalarBorn "forward" nd ac dt dev)
     (let l := born_bg nd (born_initial nd arg) in let lsc := born_sc nd (born_initial nd arg) in
      born_fwd_args v sc s ssc (reg_wfc d l) (reg_wfp d l) (reg_psi nd l) psin (reg_zeta nd l)
        (reg_wfc d lsc) (reg_wfp d lsc) (reg_psi nd lsc) psinsc (reg_zeta nd lsc) rest))
  /\ given arg (doc Acoustic nd) (bound (mksymbol Acoustic "forward" nd ac dt dev) (ac_fwd_args models f (acoustic_initial nd arg) rest))
  /\ given arg (doc Elastic nd) (bound (mksymbol Elastic "forward" nd ac dt dev) (el_fwd_args emodels f (elastic_initial nd arg) rest)).
Proof. exact (initial_given nd ac dt dev arg d v s ssc sc psin psinsc models f emodels rest). Qed.
Print Assumptions C47_initial.

(** The outputs are the variables of the documented meanings in the documented order, then the receivers (elastic: pressure first). *)
Theorem C47_outputs {T : Type} (nd ac : nat) (dt : dtype) (dev : device) (v s sc ssc wfc wfp wfcsc wfpsc r rsc d : T)
    (psi psin zeta psisc psinsc zetasc models f w emodels we rs rest : list T) :
  1 <= nd <= 3 -> length psi = nd -> length psin = nd -> length zeta = nd -> length psisc = nd -> length psinsc = nd -> length zetasc = nd ->
  length models = nd + 1 -> length f = nd + 1 -> length w = nfields Acoustic nd ->
  length emodels = length (doc_models Elastic nd) -> length we = nfields Elastic nd -> length rs = nd + 1 ->
  output_ok Scalar nd (scalar_ret wfc wfp psi zeta r)
    (bound (mksymbol Scalar "forward" nd ac dt dev) (scalar_fwd_args v s wfc wfp psi psin zeta rest)) [r]
  /\ output_ok ScalarBorn nd (born_ret wfc wfp psi zeta wfcsc wfpsc psisc zetasc r rsc)
    (bound (mksymbol ScalarBorn "forward" nd ac dt dev)
       (born_fwd_args v sc s ssc wfc wfp psi psin zeta wfcsc wfpsc psisc psinsc zetasc rest)) [r; rsc]
  /\ output_ok Acoustic nd (w ++ rs) (bound (mksymbol Acoustic "forward" nd ac dt dev) (ac_fwd_args models f w rest)) rs
  /\ output_ok Elastic nd (el_ret d nd we rs) (bound (mksymbol Elastic "forward" nd ac dt dev) (el_fwd_args emodels f we rest))
       (last rs d :: removelast rs).
Proof.
  exact (output_order nd ac dt dev v s sc ssc wfc wfp wfcsc wfpsc r rsc d psi psin zeta psisc psinsc zetasc models f w emodels we rs rest).
Qed.
Print Assumptions C47_outputs.

(** [elastic_python] returns each wavefield at the position at which it came in. *)
Theorem C47_elastic_python {T : Type} (e : T) (nd : nat) (w : list T) :
  1 <= nd <= 3 -> length w = nfields Elastic nd -> elpy_ret e nd (elpy_of e nd w) = w.
Proof. exact (elpy_roundtrip e nd w). Qed.
Print Assumptions C47_elastic_python.

(** Backward passes exchange, after an odd number of steps, each memory variable with its new value and nothing else. *)
Theorem C47_swap {T : Type} (nd ac : nat) (dt : dtype) (dev : device) (models f w aux emodels we auxe rest : list T) :
  1 <= nd <= 3 -> length models = nd + 1 -> length f = nd + 1 -> length w = nfields Acoustic nd -> length aux = nd ->
  length emodels = length (doc_models Elastic nd) -> length we = nfields Elastic nd -> length auxe = naux nd ->
  (let y := mksymbol Acoustic "backward" nd ac dt dev in
   let b w a := bound y (ac_bwd_args models f w a rest) in
   swapped y (map snd (doc Acoustic nd)) (b w aux) (b (fst (ac_swap nd w aux)) (snd (ac_swap nd w aux))))
  /\ (let y := mksymbol Elastic "backward" nd ac dt dev in
      let b w a := bound y (el_bwd_args emodels f w a rest) in
      swapped y (map snd (doc Elastic nd)) (b we auxe) (b (fst (el_swap nd we auxe)) (snd (el_swap nd we auxe)))).
Proof. exact (swap_buffers nd ac dt dev models f w aux emodels we auxe rest). Qed.
Print Assumptions C47_swap.

(** The argument lists of the staggered propagators are split into the groups from which they were put together, and the gradients of
    their outputs into those of wavefields and receivers. *)
Theorem C47_parse {T : Type} (nd : nat) (m f s r w : list T) :
  length f = nd + 1 -> length s = nd + 1 -> length r = nd + 1 ->
  staggered_parse (length m) (length w) nd (m ++ f ++ s ++ r ++ w) = (m, f, s, r, w, []) /\ staggered_grads nd (w ++ r) = (w, r).
Proof. exact (fun Hf Hs Hr => conj (parse_args nd m f s r w Hf Hs Hr) (parse_grads nd w r Hr)). Qed.
Print Assumptions C47_parse.

(** Each gradient is returned at the position of its argument, and every argument other than settings, locations and profiles has one. *)
Theorem C47_gradients (p : prop) (nd : nat) :
  1 <= nd <= 3 -> returned p nd = map (fun q => if mem q no_gradient then None else Some q) (apply_args p nd).
Proof. exact (aligned p nd). Qed.
Print Assumptions C47_gradients.
Theorem C47_gradients_scattered (nd : nat) :
  1 <= nd <= 3 ->
  returned_sc nd = map (fun q => if mem q (["v"; "source_amplitudes"] ++ map fst (doc Scalar nd) ++ no_gradient) then None else Some q)
                     (apply_args ScalarBorn nd).
Proof. exact (aligned_sc nd). Qed.
Print Assumptions C47_gradients_scattered.
Theorem C47_gradients_double (nd : nat) :
  1 <= nd <= 3 -> returned_double nd = map (fun q => if mem q no_gradient then None else Some q) (apply_backward_args nd).
Proof. exact (aligned_double nd). Qed.
Print Assumptions C47_gradients_double.

Example names_returned_example :
  nth_error (returned Elastic 2) 16 = Some (Some "mu_yx") /\ nth_error (apply_args Elastic 2) 16 = Some "mu_yx"
  /\ length (returned Elastic 3) = 61 /\ nth_error (returned_sc 2) 28 = Some (Some "wavefield_sc_0").
Proof. vm_compute. repeat split. Qed.
Example names_order_example :
  firstn 5 (el_ret 0 3 (seq 0 27) [100; 101; 102; 103]) = [0; 14; 23; 1; 2]
  /\ skipn 27 (el_ret 0 3 (seq 0 27) [100; 101; 102; 103]) = [103; 100; 101; 102].
Proof. vm_compute. repeat split. Qed.
Example names_swap_example : el_swap 2 (seq 0 13) [20; 21; 22; 23] = ([0; 1; 2; 3; 4; 5; 20; 21; 22; 9; 10; 11; 23], [6; 7; 8; 12]).
Proof. vm_compute. reflexivity. Qed.
