(** Look-up of compiled functions, their declared argument types, and the arguments Python passes to them. *)
From Coq Require Import String DecimalString List Bool Arith.
From Verif Require Import AbiTables.
Import ListNotations.
Local Open Scope string_scope.
Local Open Scope list_scope.
Local Infix "+++" := String.append (at level 60, right associativity).

(** Types of the ctypes library used in backend_utils.py:12. *)
Inductive pytype := c_void_p | c_float | c_double | c_int64 | c_size_t | c_bool.
(** backend_utils.py:34 *)
Definition FLOAT_TYPE : pytype := c_float.

Definition rep (n : nat) (t : pytype) : list pytype := repeat t n.
Definition if_ {X} (b : bool) (l : list X) : list X := if b then l else [].

(** backend_utils.py:37-65 *)
Definition get_scalar_forward_template (ndim : nat) : list pytype :=
  rep 4 c_void_p ++ rep ndim c_void_p ++ rep ndim c_void_p ++ rep ndim c_void_p ++ rep 4 c_void_p ++ rep 1 c_void_p
  ++ rep 1 c_void_p ++ rep (3 * ndim) c_void_p ++ rep 2 c_void_p ++ rep ndim FLOAT_TYPE ++ rep ndim FLOAT_TYPE
  ++ rep 1 FLOAT_TYPE ++ rep 2 c_int64 ++ rep ndim c_int64 ++ rep 3 c_int64 ++ rep 1 c_int64 ++ rep 2 c_size_t
  ++ rep 3 c_bool ++ rep 1 c_int64 ++ rep (2 * ndim) c_int64 ++ rep 1 c_int64 ++ rep 1 c_void_p.
(** backend_utils.py:68-96 *)
Definition get_scalar_backward_template (ndim : nat) : list pytype :=
  rep 4 c_void_p ++ rep ndim c_void_p ++ rep ndim c_void_p ++ rep ndim c_void_p ++ rep ndim c_void_p ++ rep 4 c_void_p
  ++ rep 1 c_void_p ++ rep 3 c_void_p ++ rep (3 * ndim) c_void_p ++ rep 2 c_void_p ++ rep ndim FLOAT_TYPE
  ++ rep ndim FLOAT_TYPE ++ rep 2 c_int64 ++ rep ndim c_int64 ++ rep 3 c_int64 ++ rep 1 c_int64 ++ rep 2 c_size_t
  ++ rep 3 c_bool ++ rep 1 c_int64 ++ rep (2 * ndim) c_int64 ++ rep 1 c_int64 ++ rep 1 c_void_p.
(** backend_utils.py:99-142 *)
Definition get_scalar_born_forward_template (ndim : nat) : list pytype :=
  rep 4 c_void_p ++ rep 2 c_void_p ++ rep ndim c_void_p ++ rep ndim c_void_p ++ rep ndim c_void_p
  ++ rep 2 c_void_p ++ rep ndim c_void_p ++ rep ndim c_void_p ++ rep ndim c_void_p
  ++ rep 4 c_void_p ++ rep 1 c_void_p ++ rep 4 c_void_p ++ rep 1 c_void_p ++ rep 2 c_void_p
  ++ rep (3 * ndim) c_void_p ++ rep 3 c_void_p ++ rep ndim FLOAT_TYPE ++ rep ndim FLOAT_TYPE ++ rep 1 FLOAT_TYPE
  ++ rep 2 c_int64 ++ rep ndim c_int64 ++ rep 3 c_int64 ++ rep 1 c_int64 ++ rep 1 c_int64 ++ rep 2 c_size_t
  ++ rep 5 c_bool ++ rep 1 c_int64 ++ rep (2 * ndim) c_int64 ++ rep 1 c_int64 ++ rep 1 c_void_p.
(** backend_utils.py:145-191 *)
Definition get_scalar_born_backward_template (ndim : nat) : list pytype :=
  rep 4 c_void_p ++ rep 2 c_void_p ++ rep ndim c_void_p ++ rep ndim c_void_p ++ rep ndim c_void_p ++ rep ndim c_void_p
  ++ rep 2 c_void_p ++ rep ndim c_void_p ++ rep ndim c_void_p ++ rep ndim c_void_p ++ rep ndim c_void_p
  ++ rep 4 c_void_p ++ rep 1 c_void_p ++ rep 4 c_void_p ++ rep 1 c_void_p ++ rep 6 c_void_p
  ++ rep (3 * ndim) c_void_p ++ rep 3 c_void_p ++ rep ndim FLOAT_TYPE ++ rep ndim FLOAT_TYPE ++ rep 1 FLOAT_TYPE
  ++ rep 2 c_int64 ++ rep ndim c_int64 ++ rep 4 c_int64 ++ rep 1 c_int64 ++ rep 1 c_int64 ++ rep 2 c_size_t
  ++ rep 5 c_bool ++ rep 1 c_int64 ++ rep (2 * ndim) c_int64 ++ rep 1 c_int64 ++ rep 1 c_void_p.
(** backend_utils.py:194-228 *)
Definition get_scalar_born_backward_sc_template (ndim : nat) : list pytype :=
  rep 2 c_void_p ++ rep 2 c_void_p ++ rep ndim c_void_p ++ rep ndim c_void_p ++ rep ndim c_void_p ++ rep ndim c_void_p
  ++ rep 4 c_void_p ++ rep 1 c_void_p ++ rep 3 c_void_p ++ rep (3 * ndim) c_void_p ++ rep 2 c_void_p
  ++ rep ndim FLOAT_TYPE ++ rep ndim FLOAT_TYPE ++ rep 1 FLOAT_TYPE
  ++ rep 2 c_int64 ++ rep ndim c_int64 ++ rep 2 c_int64 ++ rep 1 c_int64 ++ rep 1 c_int64 ++ rep 2 c_size_t
  ++ rep 4 c_bool ++ rep 1 c_int64 ++ rep (2 * ndim) c_int64 ++ rep 1 c_int64 ++ rep 1 c_void_p.

(** The groups of elastic arguments that depend on the number of dimensions. *)
Definition el_models_t (ndim : nat) : list pytype :=
  rep 2 c_void_p ++ if_ (Nat.eqb ndim 3) (rep 2 c_void_p) ++ if_ (Nat.leb 2 ndim) (rep 1 c_void_p)
  ++ if_ (Nat.eqb ndim 3) (rep 1 c_void_p) ++ if_ (Nat.leb 2 ndim) (rep 1 c_void_p) ++ rep 1 c_void_p.
Definition el_332 (a b c ndim : nat) : list pytype :=
  if_ (Nat.eqb ndim 3) (rep a c_void_p) ++ if_ (Nat.leb 2 ndim) (rep b c_void_p) ++ rep c c_void_p.
Definition el_rest_t (ndim : nat) : list pytype :=
  el_332 4 4 4 ndim ++ el_332 1 1 2 ndim ++ el_332 1 1 2 ndim ++ rep ndim FLOAT_TYPE ++ rep 1 FLOAT_TYPE
  ++ rep 2 c_int64 ++ rep ndim c_int64 ++ rep (ndim + 1) c_int64 ++ rep (ndim + 1) c_int64 ++ rep 1 c_int64
  ++ rep 1 c_int64 ++ rep 2 c_size_t ++ rep 6 c_bool ++ rep 1 c_bool ++ rep 1 c_int64 ++ rep (2 * ndim) c_int64
  ++ rep 1 c_int64 ++ rep 1 c_void_p.
(** backend_utils.py:231-320 *)
Definition get_elastic_forward_template (ndim : nat) : list pytype :=
  el_models_t ndim ++ rep (ndim + 1) c_void_p ++ el_332 14 9 4 ndim ++ el_332 (4 * 5) (3 * 5) (2 * 5) ndim
  ++ el_332 1 1 2 ndim ++ el_rest_t ndim.
(** backend_utils.py:323-440 *)
Definition get_elastic_backward_template (ndim : nat) : list pytype :=
  el_models_t ndim ++ rep (ndim + 1) c_void_p ++ el_332 14 9 4 ndim ++ el_332 5 3 1 ndim
  ++ el_332 (4 * 5) (3 * 5) (2 * 5) ndim ++ el_332 1 1 2 ndim ++ el_models_t ndim ++ el_models_t ndim ++ el_rest_t ndim.
(** backend_utils.py:443-471 *)
Definition ac_rest_t (ndim : nat) : list pytype :=
  rep (4 * ndim) c_void_p ++ rep (1 + ndim) c_void_p ++ rep (1 + ndim) c_void_p ++ rep (ndim + 1) FLOAT_TYPE
  ++ rep 2 c_int64 ++ rep ndim c_int64 ++ rep (1 + ndim) c_int64 ++ rep (1 + ndim) c_int64 ++ rep 2 c_int64
  ++ rep 2 c_size_t ++ rep 5 c_bool ++ rep 1 c_int64 ++ rep (2 * ndim) c_int64 ++ rep 1 c_int64 ++ rep 1 c_void_p.
Definition get_acoustic_forward_template (ndim : nat) : list pytype :=
  rep (1 + ndim) c_void_p ++ rep (1 + ndim) c_void_p ++ rep (1 + 3 * ndim) c_void_p ++ rep 5 c_void_p
  ++ rep (5 * ndim) c_void_p ++ rep (1 + ndim) c_void_p ++ ac_rest_t ndim.
(** backend_utils.py:474-503 *)
Definition get_acoustic_backward_template (ndim : nat) : list pytype :=
  rep (1 + ndim) c_void_p ++ rep (1 + ndim) c_void_p ++ rep (1 + 3 * ndim) c_void_p ++ rep ndim c_void_p
  ++ rep 5 c_void_p ++ rep (5 * ndim) c_void_p ++ rep (1 + ndim) c_void_p ++ rep (2 + 2 * ndim) c_void_p
  ++ ac_rest_t ndim.

(** backend_utils.py:507-517 *)
Definition templates : list (string * (nat -> list pytype)) := [
  ("scalar_forward", get_scalar_forward_template);
  ("scalar_backward", get_scalar_backward_template);
  ("scalar_born_forward", get_scalar_born_forward_template);
  ("scalar_born_backward", get_scalar_born_backward_template);
  ("scalar_born_backward_sc", get_scalar_born_backward_sc_template);
  ("elastic_forward", get_elastic_forward_template);
  ("elastic_backward", get_elastic_backward_template);
  ("acoustic_forward", get_acoustic_forward_template);
  ("acoustic_backward", get_acoustic_backward_template)].

Fixpoint lookup {X} (k : string) (d : list (string * X)) : option X :=
  match d with [] => None | (k', x) :: d' => if String.eqb k k' then Some x else lookup k d' end.

Definition pytype_eqb (a b : pytype) : bool :=
  match a, b with
  | c_void_p, c_void_p | c_float, c_float | c_double, c_double | c_int64, c_int64 | c_size_t, c_size_t | c_bool, c_bool => true
  | _, _ => false
  end.
(** backend_utils.py:520-539; [None]: KeyError. *)
Definition get_argtypes (template_name : string) (ndim : nat) (float_type : pytype) : option (list pytype) :=
  match lookup template_name templates with
  | Some t => Some (map (fun x => if pytype_eqb x FLOAT_TYPE then float_type else x) (t ndim))
  | None => None
  end.

Inductive prop := Scalar | ScalarBorn | Elastic | Acoustic.
Inductive dtype := Float | Double.
Inductive device := Cpu | Cuda.
Definition prop_str (p : prop) : string :=
  match p with Scalar => "scalar" | ScalarBorn => "scalar_born" | Elastic => "elastic" | Acoustic => "acoustic" end.
Definition dtype_str (t : dtype) : string := match t with Float => "float" | Double => "double" end.
Definition device_str (d : device) : string := match d with Cpu => "cpu" | Cuda => "cuda" end.
(** Decimal notation of numbers. *)
Definition digit (n : nat) : string := NilEmpty.string_of_uint (Nat.to_uint n).

(** Name built in Python (backend_utils.py:574-576, 627-630). *)
Definition func_name (propagator : string) (ndim accuracy : nat) (dt direction extra dev : string) : string :=
  propagator +++ "_iso_" +++ digit ndim +++ "d_" +++ digit accuracy +++ "_" +++ dt +++ "_" +++ direction +++ extra +++ "_" +++ dev.
(** Name built by the C preprocessor (scalar.c:75-79, scalar_born.c:39-43, acoustic.c:16-20, elastic.c:62-66 and the same
    in the .cu files): [<propagator>_iso_##ndim##d_##accuracy##_##dtype##_##name##_##device]. *)
Definition c_name (base : string) (name : string) (ndim accuracy : nat) (dt dev : string) : string :=
  base +++ "_iso_" +++ digit ndim +++ "d_" +++ digit accuracy +++ "_" +++ dt +++ "_" +++ name +++ "_" +++ dev.

(** A compiled function and what it was compiled from. *)
Record symbol := mksymbol { y_prop : prop; y_fun : string; y_ndim : nat; y_acc : nat; y_dt : dtype; y_dev : device }.

(** CMakeLists.txt:144-146 *)
Definition NDIMS := [1; 2; 3].
Definition ACCURACIES := [2; 4; 6; 8].
Definition DTYPES := [Float; Double].
(** The functions each source file defines. *)
Definition functions (p : prop) : list string :=
  match p with ScalarBorn => ["forward"; "backward"; "backward_sc"] | _ => ["forward"; "backward"] end.
(** CMakeLists.txt:151-201 *)
Definition dll_of (dev : device) : list (string * symbol) :=
  flat_map (fun nd => flat_map (fun dt => flat_map (fun ac =>
    flat_map (fun p => map (fun f => (c_name (prop_str p) f nd ac (dtype_str dt) (device_str dev), mksymbol p f nd ac dt dev))
                           (functions p)) [Scalar; ScalarBorn; Elastic; Acoustic]) ACCURACIES) DTYPES) NDIMS.
(** The library, built with ([cuda = true]) or without CUDA. *)
Definition dll (cuda : bool) : list (string * symbol) := dll_of Cpu ++ if_ cuda (dll_of Cuda).

(** Parameters of a compiled function. *)
Definition params_of (y : symbol) : list cparam :=
  match y_dev y, y_prop y, y_fun y with
  | Cpu, Scalar, "forward" => ScF_cpu | Cpu, Scalar, "backward" => ScB_cpu
  | Cpu, ScalarBorn, "forward" => BoF_cpu | Cpu, ScalarBorn, "backward" => BoB_cpu | Cpu, ScalarBorn, "backward_sc" => BoS_cpu
  | Cpu, Acoustic, "forward" => AcF_cpu | Cpu, Acoustic, "backward" => AcB_cpu
  | Cpu, Elastic, "forward" => ElF_cpu | Cpu, Elastic, "backward" => ElB_cpu
  | Cuda, Scalar, "forward" => ScF_cuda | Cuda, Scalar, "backward" => ScB_cuda
  | Cuda, ScalarBorn, "forward" => BoF_cuda | Cuda, ScalarBorn, "backward" => BoB_cuda | Cuda, ScalarBorn, "backward_sc" => BoS_cuda
  | Cuda, Acoustic, "forward" => AcF_cuda | Cuda, Acoustic, "backward" => AcB_cuda
  | Cuda, Elastic, "forward" => ElF_cuda | Cuda, Elastic, "backward" => ElB_cuda
  | _, _, _ => []
  end.
Definition params (y : symbol) : list (ctype * string) :=
  map (fun q => (snd (fst q), snd q)) (filter (fun q => Nat.leb (fst (fst q)) (y_ndim y)) (params_of y)).

(** The ctypes type that describes a C parameter: all pointers are passed as [c_void_p]; [DW_DTYPE] is the dtype the function
    was compiled for. *)
Definition ctypes_of (dt : dtype) (t : ctype) : pytype :=
  match t with
  | Pdt | Pvoid | Pstr | Pi64 | Pstream => c_void_p
  | Sdt => match dt with Float => c_float | Double => c_double end
  | Si64 => c_int64 | Ssize => c_size_t | Sbool => c_bool
  end.

(** [_assign_argtypes] (backend_utils.py:542-583): the [argtypes] attributes set so far, latest first. *)
Definition assign_argtypes (cuda : bool) (propagator : string) (ndim accuracy : nat) (dt direction extra : string)
    (at_ : list (string * list pytype)) : list (string * list pytype) :=
  match get_argtypes (propagator +++ "_" +++ direction +++ extra) ndim (if String.eqb dt "float" then c_float else c_double) with
  | Some argtypes =>
      fold_left (fun acc dev =>
        let n := func_name propagator ndim accuracy dt direction extra dev in
        match lookup n (dll cuda) with Some _ => (n, argtypes) :: acc | None => acc end) ["cpu"; "cuda"] at_
  | None => at_
  end.
(** Module initialisation (backend_utils.py:639-676). *)
Definition assigned (cuda : bool) : list (string * list pytype) :=
  fold_left (fun acc nd => fold_left (fun acc ac => fold_left (fun acc dt =>
    fold_left (fun acc (pde : string * string * string) =>
      assign_argtypes cuda (fst (fst pde)) nd ac dt (snd (fst pde)) (snd pde) acc)
      [("scalar", "forward", ""); ("scalar", "backward", ""); ("scalar_born", "forward", "");
       ("scalar_born", "backward", ""); ("scalar_born", "backward", "_sc"); ("elastic", "forward", "");
       ("elastic", "backward", ""); ("acoustic", "forward", ""); ("acoustic", "backward", "")] acc)
    ["float"; "double"] acc) [2; 4; 6; 8] acc) [1; 2; 3] [].

(** [get_backend_function] (backend_utils.py:586-636); [None]: AttributeError. *)
Definition get_backend_function (cuda : bool) (propagator : string) (ndim : nat) (pass_name : string) (accuracy : nat)
    (dt : dtype) (dev : device) (extra : string) : option (symbol * option (list pytype)) :=
  let n := func_name propagator ndim accuracy (dtype_str dt) pass_name extra (device_str dev) in
  match lookup n (dll cuda) with
  | Some y => Some (y, lookup n (assigned cuda))
  | None => None
  end.

(** Arguments passed by Python, each written with the name of the parameter it is meant for. Lists with one element per
    dimension are in the order z, y, x. *)
Definition dims (ndim : nat) : list string := skipn (3 - ndim) ["z"; "y"; "x"].
Definition per (pre post : string) (ndim : nat) : list string := map (fun d => pre +++ d +++ post) (dims ndim).
(** [IntermediateStorage.get_ptrs] (common.py:96-113) *)
Definition storage_ptrs (q f : string) : list string :=
  [q +++ "_store_1"; q +++ "_store_1b"; q +++ "_store_2"; q +++ "_store_3"; f +++ "_filenames_ptr"].
(** regular_grid.py:62-79 *)
Definition profiles (ndim : nat) : list string := flat_map (fun d => ["a" +++ d; "b" +++ d; "db" +++ d +++ "d" +++ d]) (dims ndim).
(** staggered_grid.py:61-91 *)
Definition profiles_h (ndim : nat) : list string := flat_map (fun d => ["a" +++ d; "b" +++ d; "a" +++ d +++ "h"; "b" +++ d +++ "h"]) (dims ndim).
(** Start and end of the region without PML, number of threads and stream, at the end of all calls. *)
Definition tail (ndim : nat) : list string := "start_t" :: per "pml_" "0" ndim ++ per "pml_" "1" ndim ++ ["n_threads"; "unused"].
Definition store_opts : list string := ["step_ratio"; "storage_mode"; "shot_bytes_uncomp"; "shot_bytes_comp"].

(** scalar.py:878-917 *)
Definition call_scalar_forward (ndim : nat) : list string :=
  ["v"; "f"; "wfc"; "wfp"] ++ per "psi" "" ndim ++ per "psi" "n" ndim ++ per "zeta" "" ndim ++ storage_ptrs "w" "w" ++ ["r"]
  ++ profiles ndim ++ ["sources_i"; "receivers_i"] ++ per "rd" "" ndim ++ per "rd" "2" ndim ++ ["dt2"; "nt"; "n_shots"]
  ++ per "n" "" ndim ++ ["n_sources_per_shot"; "n_receivers_per_shot"] ++ store_opts
  ++ ["v_requires_grad"; "v_batched"; "storage_compression"] ++ tail ndim.
(** scalar.py:1253-1291 *)
Definition call_scalar_backward (ndim : nat) : list string :=
  ["v2dt2"; "grad_r"; "wfc"; "wfp"] ++ per "psi" "" ndim ++ per "psi" "n" ndim ++ per "zeta" "" ndim ++ per "zeta" "n" ndim
  ++ storage_ptrs "w" "w" ++ ["grad_f"; "grad_v"; "grad_v_thread"] ++ profiles ndim ++ ["sources_i"; "receivers_i"]
  ++ per "rd" "" ndim ++ per "rd" "2" ndim ++ ["nt"; "n_shots"] ++ per "n" "" ndim
  ++ ["n_sources_per_shot"; "n_receivers_per_shot"] ++ store_opts
  ++ ["v_requires_grad"; "v_batched"; "storage_compression"] ++ tail ndim.
(** scalar_born.py:860-910; the same order in scalar.py:1570-1617 *)
Definition call_born_forward (ndim : nat) : list string :=
  ["v"; "scatter"; "f"; "fsc"; "wfc"; "wfp"] ++ per "psi" "" ndim ++ per "psi" "n" ndim ++ per "zeta" "" ndim
  ++ ["wfcsc"; "wfpsc"] ++ per "psi" "sc" ndim ++ per "psi" "nsc" ndim ++ per "zeta" "sc" ndim
  ++ storage_ptrs "w" "w" ++ storage_ptrs "wsc" "wsc" ++ ["r"; "rsc"] ++ profiles ndim
  ++ ["sources_i"; "receivers_i"; "receiverssc_i"] ++ per "rd" "" ndim ++ per "rd" "2" ndim ++ ["dt2"; "nt"; "n_shots"]
  ++ per "n" "" ndim ++ ["n_sources_per_shot"; "n_receivers_per_shot"; "n_receiverssc_per_shot"] ++ store_opts
  ++ ["v_requires_grad"; "scatter_requires_grad"; "v_batched"; "scatter_batched"; "storage_compression"] ++ tail ndim.
(** scalar_born.py:1173-1228; the same order in scalar.py:1763-1816 *)
Definition call_born_backward (ndim : nat) : list string :=
  ["v"; "scatter"; "grad_r"; "grad_rsc"; "wfc"; "wfp"] ++ per "psi" "" ndim ++ per "psi" "n" ndim ++ per "zeta" "" ndim
  ++ per "zeta" "n" ndim ++ ["wfcsc"; "wfpsc"] ++ per "psi" "sc" ndim ++ per "psi" "nsc" ndim ++ per "zeta" "sc" ndim
  ++ per "zeta" "nsc" ndim ++ storage_ptrs "w" "w" ++ storage_ptrs "wsc" "wsc"
  ++ ["grad_f"; "grad_fsc"; "grad_v"; "grad_scatter"; "grad_v_thread"; "grad_scatter_thread"] ++ profiles ndim
  ++ ["sources_i"; "receivers_i"; "receiverssc_i"] ++ per "rd" "" ndim ++ per "rd" "2" ndim ++ ["dt2"; "nt"; "n_shots"]
  ++ per "n" "" ndim
  ++ ["n_sources_per_shot"; "n_sourcessc_per_shot"; "n_receivers_per_shot"; "n_receiverssc_per_shot"] ++ store_opts
  ++ ["v_requires_grad"; "scatter_requires_grad"; "v_batched"; "scatter_batched"; "storage_compression"] ++ tail ndim.
(** scalar_born.py:1298-1340 *)
Definition call_born_backward_sc (ndim : nat) : list string :=
  ["v"; "grad_rsc"; "wfcsc"; "wfpsc"] ++ per "psi" "sc" ndim ++ per "psi" "nsc" ndim ++ per "zeta" "sc" ndim
  ++ per "zeta" "nsc" ndim ++ firstn 5 (storage_ptrs "w" "w" ++ storage_ptrs "wsc" "wsc")
  ++ ["grad_fsc"; "grad_scatter"; "grad_scatter_thread"] ++ profiles ndim
  ++ ["sources_i"; "receiverssc_i"] ++ per "rd" "" ndim ++ per "rd" "2" ndim ++ ["dt2"; "nt"; "n_shots"]
  ++ per "n" "" ndim ++ ["n_sourcessc_per_shot"; "n_receiverssc_per_shot"] ++ store_opts
  ++ ["scatter_requires_grad"; "v_batched"; "scatter_batched"; "storage_compression"] ++ tail ndim.

(** Acoustic lists: pressure first, then one velocity per dimension (acoustic.py:540-620, 755-800). *)
Definition pv (pre post : string) (ndim : nat) : list string := (pre +++ "p" +++ post) :: per (pre +++ "v") post ndim.
Definition ac_rest (nsrc : list string) (ndim : nat) : list string :=
  profiles_h ndim ++ pv "sources_i_" "" ndim ++ pv "receivers_i_" "" ndim ++ per "rd" "" ndim ++ ["dt"; "nt"; "n_shots"]
  ++ per "n" "" ndim ++ nsrc ++ pv "n_receivers_" "_per_shot" ndim ++ store_opts
  ++ ["k_requires_grad"; "b_requires_grad"; "k_batched"; "b_batched"; "storage_compression"] ++ tail ndim.
Definition ac_store (ndim : nat) : list string :=
  storage_ptrs "k_grad" "k_grad" ++ flat_map (fun d => storage_ptrs ("b" +++ d +++ "_grad") ("b" +++ d +++ "_grad")) (dims ndim).
(** acoustic.py:966-1000 *)
Definition call_acoustic_forward (ndim : nat) : list string :=
  "k" :: per "buoyancy_" "" ndim ++ pv "f_" "" ndim ++ ("p" :: per "v" "" ndim ++ per "phi_" "" ndim ++ per "psi_" "" ndim)
  ++ ac_store ndim ++ pv "r_" "" ndim ++ ac_rest (pv "n_sources_" "_per_shot" ndim) ndim.
(** acoustic.py:1185-1225 *)
Definition call_acoustic_backward (ndim : nat) : list string :=
  "k" :: per "buoyancy_" "" ndim ++ pv "grad_r_" "" ndim ++ ("p" :: per "v" "" ndim ++ per "phi_" "" ndim ++ per "psi_" "" ndim)
  ++ per "psi_" "n" ndim ++ ac_store ndim ++ pv "grad_f_" "" ndim ++ ("grad_k" :: per "grad_b" "" ndim)
  ++ ("grad_k_thread" :: per "grad_b" "_thread" ndim) ++ ac_rest (pv "n_sources_" "_per_shot" ndim) ndim.

(** Elastic lists (elastic.py:1230-1290): models, wavefields, one entry per velocity and then pressure. *)
Definition el_models (pre post : string) (ndim : nat) : list string :=
  map (fun m => pre +++ m +++ post)
    (["lamb"; "mu"] ++ if_ (Nat.eqb ndim 3) ["mu_zy"; "mu_zx"] ++ if_ (Nat.leb 2 ndim) ["mu_yx"]) ++ per (pre +++ "buoyancy_") post ndim.
Definition el_vp (pre post : string) (ndim : nat) : list string := per pre post ndim ++ [pre +++ "p" +++ post].
Definition el_wavefields (ndim : nat) : list string :=
  if_ (Nat.leb 3 ndim) ["vz"; "sigmazz"; "sigmayz"; "sigmaxz"; "m_vzz"; "m_vzy"; "m_vzx"; "m_vyz"; "m_vxz"; "m_sigmazzz";
                    "m_sigmayzy"; "m_sigmaxzx"; "m_sigmayzz"; "m_sigmaxzz"]
  ++ if_ (Nat.leb 2 ndim) ["vy"; "sigmayy"; "sigmaxy"; "m_vyy"; "m_vyx"; "m_vxy"; "m_sigmayyy"; "m_sigmaxyy"; "m_sigmaxyx"]
  ++ ["vx"; "sigmaxx"; "m_vxx"; "m_sigmaxxx"].
(** elastic.py:1325-1353 *)
Definition el_store (ndim : nat) : list string :=
  flat_map (fun q => storage_ptrs q q)
   (if_ (Nat.leb 3 ndim) ["dvzdbuoyancy"; "dvzdz"; "dvzdx_plus_dvxdz"; "dvzdy_plus_dvydz"]
    ++ if_ (Nat.leb 2 ndim) ["dvydbuoyancy"; "dvydy"; "dvydx_plus_dvxdy"] ++ ["dvxdbuoyancy"; "dvxdx"]).
Definition el_rest (ndim : nat) : list string :=
  profiles_h ndim ++ el_vp "sources_" "_i" ndim ++ el_vp "receivers_" "_i" ndim ++ per "rd" "" ndim
  ++ ["dt"; "nt"; "n_shots"] ++ per "n" "" ndim ++ el_vp "n_sources_" "_per_shot" ndim
  ++ el_vp "n_receivers_" "_per_shot" ndim ++ store_opts
  ++ ["lamb_requires_grad"; "mu_requires_grad"; "buoyancy_requires_grad"; "lamb_batched"; "mu_batched"; "buoyancy_batched";
      "storage_compression"] ++ tail ndim.
(** elastic.py:1516-1558 *)
Definition call_elastic_forward (ndim : nat) : list string :=
  el_models "" "" ndim ++ el_vp "f_" "" ndim ++ el_wavefields ndim ++ el_store ndim ++ el_vp "r_" "" ndim ++ el_rest ndim.
(** elastic.py:1833-1882; auxiliary wavefields elastic.py:1697-1706 *)
Definition el_aux (ndim : nat) : list string :=
  if_ (Nat.leb 3 ndim) ["m_sigmazzzn"; "m_sigmayzyn"; "m_sigmaxzxn"; "m_sigmayzzn"; "m_sigmaxzzn"]
  ++ if_ (Nat.leb 2 ndim) ["m_sigmayyyn"; "m_sigmaxyyn"; "m_sigmaxyxn"] ++ ["m_sigmaxxxn"].
Definition call_elastic_backward (ndim : nat) : list string :=
  el_models "" "" ndim ++ el_vp "grad_r_" "" ndim ++ el_wavefields ndim ++ el_aux ndim ++ el_store ndim
  ++ el_vp "grad_f_" "" ndim ++ el_models "grad_" "" ndim ++ el_models "grad_" "_thread" ndim ++ el_rest ndim.

Definition call (p : prop) (f : string) (ndim : nat) : list string :=
  match p, f with
  | Scalar, "forward" => call_scalar_forward ndim | Scalar, "backward" => call_scalar_backward ndim
  | ScalarBorn, "forward" => call_born_forward ndim | ScalarBorn, "backward" => call_born_backward ndim
  | ScalarBorn, "backward_sc" => call_born_backward_sc ndim
  | Acoustic, "forward" => call_acoustic_forward ndim | Acoustic, "backward" => call_acoustic_backward ndim
  | Elastic, "forward" => call_elastic_forward ndim | Elastic, "backward" => call_elastic_backward ndim
  | _, _ => []
  end.
