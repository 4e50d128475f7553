(** * C36: the compiled function that is looked up is the one for the request, and its declared argument types are those of
    its parameters, in order. *)
From Coq Require Import String List Bool Arith Lia.
From Verif Require Import AbiTables Abi AbiThm.
Import ListNotations.
Local Open Scope string_scope.
Local Open Scope list_scope.

(** Whatever is found was compiled for exactly the propagator, pass, number of dimensions, accuracy, dtype and device asked for. *)
Theorem C36_unique (cuda : bool) (p : prop) (ndim : nat) (pass : string) (accuracy : nat) (dt : dtype) (dev : device)
    (extra : string) (y : symbol) (a : option (list pytype)) :
  get_backend_function cuda (prop_str p) ndim pass accuracy dt dev extra = Some (y, a) ->
  y_prop y = p /\ y_fun y = String.append pass extra /\ y_ndim y = ndim /\ y_acc y = accuracy /\ y_dt y = dt /\ y_dev y = dev.
Proof. exact (backend_unique cuda p ndim pass accuracy dt dev extra y a). Qed.
Print Assumptions C36_unique.

(** Everything the propagators ask for is found, and the declared types are the types of the parameters; the CPU version of the
    function for the scattered part of the Born backward pass is excepted. *)
Theorem C36_types_partial (cuda : bool) (p : prop) (ndim : nat) (pass : string) (accuracy : nat) (dt : dtype) (dev : device)
    (extra : string) :
  asked p pass extra -> 1 <= ndim <= 3 -> In accuracy [2; 4; 6; 8] -> (dev = Cuda -> cuda = true) ->
  exists a, get_backend_function cuda (prop_str p) ndim pass accuracy dt dev extra =
            Some (mksymbol p (String.append pass extra) ndim accuracy dt dev, Some a)
  /\ (~ (p = ScalarBorn /\ extra = "_sc" /\ dev = Cpu) ->
      a = map (fun q => ctypes_of dt (fst q)) (params (mksymbol p (String.append pass extra) ndim accuracy dt dev))).
Proof. exact (backend_found cuda p ndim pass accuracy dt dev extra). Qed.
Print Assumptions C36_types_partial.

(** The arguments are passed in the order of the parameters' names. *)
Theorem C36_call_order_cpu_partial (p : prop) (f : string) (ndim accuracy : nat) (dt : dtype) :
  In f (functions p) -> 1 <= ndim <= 3 -> f <> "backward_sc" ->
  call p f ndim = map snd (params (mksymbol p f ndim accuracy dt Cpu)).
Proof. exact (call_order_cpu p f ndim accuracy dt). Qed.
Print Assumptions C36_call_order_cpu_partial.

(** The CUDA sources write some names differently ([cuda_param]). *)
Theorem C36_call_order_cuda (p : prop) (f : string) (ndim accuracy : nat) (dt : dtype) :
  In f (functions p) -> 1 <= ndim <= 3 ->
  call p f ndim = map (fun q => cuda_param (snd q)) (params (mksymbol p f ndim accuracy dt Cuda)).
Proof. exact (call_order_cuda p f ndim accuracy dt). Qed.
Print Assumptions C36_call_order_cuda.

(** The excepted function: Python declares and passes one argument (the stream) more than the CPU function has parameters;
    all others agree. *)
Theorem C36_scattered_refuted (cuda : bool) (ndim accuracy : nat) (dt : dtype) :
  1 <= ndim <= 3 -> In accuracy [2; 4; 6; 8] ->
  exists a, get_backend_function cuda "scalar_born" ndim "backward" accuracy dt Cpu "_sc" =
            Some (mksymbol ScalarBorn "backward_sc" ndim accuracy dt Cpu, Some (a ++ [c_void_p]))
  /\ a = map (fun q => ctypes_of dt (fst q)) (params (mksymbol ScalarBorn "backward_sc" ndim accuracy dt Cpu))
  /\ call ScalarBorn "backward_sc" ndim = map snd (params (mksymbol ScalarBorn "backward_sc" ndim accuracy dt Cpu)) ++ ["unused"].
Proof. exact (sc_cpu ndim accuracy dt cuda). Qed.
Print Assumptions C36_scattered_refuted.

(** Without CUDA, the 2-D fourth-order double-precision elastic backward function is found, with 108 arguments; its CUDA version
    is not; nor is a 4-D function. *)
Example abi_elastic_example :
  option_map (fun ya => (fst ya, option_map (@length pytype) (snd ya)))
    (get_backend_function false "elastic" 2 "backward" 4 Double Cpu "") =
    Some (mksymbol Elastic "backward" 2 4 Double Cpu, Some 108)
  /\ get_backend_function false "elastic" 2 "backward" 4 Double Cuda "" = None
  /\ get_backend_function true "elastic" 4 "backward" 4 Double Cpu "" = None.
Proof. vm_compute. repeat split; reflexivity. Qed.
Example abi_scalar_example : map snd (params (mksymbol Scalar "forward" 1 2 Float Cpu)) =
  ["v"; "f"; "wfc"; "wfp"; "psix"; "psixn"; "zetax"; "w_store_1"; "w_store_1b"; "w_store_2"; "w_store_3"; "w_filenames_ptr"; "r";
   "ax"; "bx"; "dbxdx"; "sources_i"; "receivers_i"; "rdx"; "rdx2"; "dt2"; "nt"; "n_shots"; "nx"; "n_sources_per_shot";
   "n_receivers_per_shot"; "step_ratio"; "storage_mode"; "shot_bytes_uncomp"; "shot_bytes_comp"; "v_requires_grad"; "v_batched";
   "storage_compression"; "start_t"; "pml_x0"; "pml_x1"; "n_threads"; "unused"].
Proof. vm_compute. reflexivity. Qed.
