(** Parameter lists of the compiled functions, transcribed from the C and CUDA sources. *)
From Coq Require Import String List.
Import ListNotations.
Local Open Scope string_scope.

(** Parameter types of the compiled functions: pointers to [DW_DTYPE], [void], strings, [int64_t], a CUDA stream;
    scalars [DW_DTYPE], [int64_t], [size_t], [bool]. *)
Inductive ctype := Pdt | Pvoid | Pstr | Pi64 | Pstream | Sdt | Si64 | Ssize | Sbool.
(** A parameter with the smallest [DW_NDIM] for which it is declared ([#if DW_NDIM >= n], 1: always). *)
Definition cparam : Type := nat * ctype * string.

(** scalar.c:149-232 *)
Definition ScF_cpu : list cparam := [
  (1, Pdt, "v"); (1, Pdt, "f"); (1, Pdt, "wfc"); (1, Pdt, "wfp"); (3, Pdt, "psiz"); (2, Pdt, "psiy");
  (1, Pdt, "psix"); (3, Pdt, "psizn"); (2, Pdt, "psiyn"); (1, Pdt, "psixn"); (3, Pdt, "zetaz"); (2, Pdt, "zetay");
  (1, Pdt, "zetax"); (1, Pdt, "w_store_1"); (1, Pdt, "w_store_1b"); (1, Pvoid, "w_store_2");
  (1, Pvoid, "w_store_3"); (1, Pstr, "w_filenames_ptr"); (1, Pdt, "r"); (3, Pdt, "az"); (3, Pdt, "bz");
  (3, Pdt, "dbzdz"); (2, Pdt, "ay"); (2, Pdt, "by"); (2, Pdt, "dbydy"); (1, Pdt, "ax"); (1, Pdt, "bx");
  (1, Pdt, "dbxdx"); (1, Pi64, "sources_i"); (1, Pi64, "receivers_i"); (3, Sdt, "rdz"); (2, Sdt, "rdy");
  (1, Sdt, "rdx"); (3, Sdt, "rdz2"); (2, Sdt, "rdy2"); (1, Sdt, "rdx2"); (1, Sdt, "dt2"); (1, Si64, "nt");
  (1, Si64, "n_shots"); (3, Si64, "nz"); (2, Si64, "ny"); (1, Si64, "nx"); (1, Si64, "n_sources_per_shot");
  (1, Si64, "n_receivers_per_shot"); (1, Si64, "step_ratio"); (1, Si64, "storage_mode");
  (1, Ssize, "shot_bytes_uncomp"); (1, Ssize, "shot_bytes_comp"); (1, Sbool, "v_requires_grad");
  (1, Sbool, "v_batched"); (1, Sbool, "storage_compression"); (1, Si64, "start_t"); (3, Si64, "pml_z0");
  (2, Si64, "pml_y0"); (1, Si64, "pml_x0"); (3, Si64, "pml_z1"); (2, Si64, "pml_y1"); (1, Si64, "pml_x1");
  (1, Si64, "n_threads"); (1, Pvoid, "unused")].

(** scalar.c:421-511 *)
Definition ScB_cpu : list cparam := [
  (1, Pdt, "v2dt2"); (1, Pdt, "grad_r"); (1, Pdt, "wfc"); (1, Pdt, "wfp"); (3, Pdt, "psiz"); (2, Pdt, "psiy");
  (1, Pdt, "psix"); (3, Pdt, "psizn"); (2, Pdt, "psiyn"); (1, Pdt, "psixn"); (3, Pdt, "zetaz"); (2, Pdt, "zetay");
  (1, Pdt, "zetax"); (3, Pdt, "zetazn"); (2, Pdt, "zetayn"); (1, Pdt, "zetaxn"); (1, Pdt, "w_store_1");
  (1, Pdt, "w_store_1b"); (1, Pvoid, "w_store_2"); (1, Pvoid, "w_store_3"); (1, Pstr, "w_filenames_ptr");
  (1, Pdt, "grad_f"); (1, Pdt, "grad_v"); (1, Pdt, "grad_v_thread"); (3, Pdt, "az"); (3, Pdt, "bz");
  (3, Pdt, "dbzdz"); (2, Pdt, "ay"); (2, Pdt, "by"); (2, Pdt, "dbydy"); (1, Pdt, "ax"); (1, Pdt, "bx");
  (1, Pdt, "dbxdx"); (1, Pi64, "sources_i"); (1, Pi64, "receivers_i"); (3, Sdt, "rdz"); (2, Sdt, "rdy");
  (1, Sdt, "rdx"); (3, Sdt, "rdz2"); (2, Sdt, "rdy2"); (1, Sdt, "rdx2"); (1, Si64, "nt"); (1, Si64, "n_shots");
  (3, Si64, "nz"); (2, Si64, "ny"); (1, Si64, "nx"); (1, Si64, "n_sources_per_shot");
  (1, Si64, "n_receivers_per_shot"); (1, Si64, "step_ratio"); (1, Si64, "storage_mode");
  (1, Ssize, "shot_bytes_uncomp"); (1, Ssize, "shot_bytes_comp"); (1, Sbool, "v_requires_grad");
  (1, Sbool, "v_batched"); (1, Sbool, "storage_compression"); (1, Si64, "start_t"); (3, Si64, "pml_z0");
  (2, Si64, "pml_y0"); (1, Si64, "pml_x0"); (3, Si64, "pml_z1"); (2, Si64, "pml_y1"); (1, Si64, "pml_x1");
  (1, Si64, "n_threads"); (1, Pvoid, "unused")].

(** scalar_born.c:166-282 *)
Definition BoF_cpu : list cparam := [
  (1, Pdt, "v"); (1, Pdt, "scatter"); (1, Pdt, "f"); (1, Pdt, "fsc"); (1, Pdt, "wfc"); (1, Pdt, "wfp");
  (3, Pdt, "psiz"); (2, Pdt, "psiy"); (1, Pdt, "psix"); (3, Pdt, "psizn"); (2, Pdt, "psiyn"); (1, Pdt, "psixn");
  (3, Pdt, "zetaz"); (2, Pdt, "zetay"); (1, Pdt, "zetax"); (1, Pdt, "wfcsc"); (1, Pdt, "wfpsc");
  (3, Pdt, "psizsc"); (2, Pdt, "psiysc"); (1, Pdt, "psixsc"); (3, Pdt, "psiznsc"); (2, Pdt, "psiynsc");
  (1, Pdt, "psixnsc"); (3, Pdt, "zetazsc"); (2, Pdt, "zetaysc"); (1, Pdt, "zetaxsc"); (1, Pdt, "w_store_1");
  (1, Pdt, "w_store_1b"); (1, Pvoid, "w_store_2"); (1, Pvoid, "w_store_3"); (1, Pstr, "w_filenames_ptr");
  (1, Pdt, "wsc_store_1"); (1, Pdt, "wsc_store_1b"); (1, Pvoid, "wsc_store_2"); (1, Pvoid, "wsc_store_3");
  (1, Pstr, "wsc_filenames_ptr"); (1, Pdt, "r"); (1, Pdt, "rsc"); (3, Pdt, "az"); (3, Pdt, "bz");
  (3, Pdt, "dbzdz"); (2, Pdt, "ay"); (2, Pdt, "by"); (2, Pdt, "dbydy"); (1, Pdt, "ax"); (1, Pdt, "bx");
  (1, Pdt, "dbxdx"); (1, Pi64, "sources_i"); (1, Pi64, "receivers_i"); (1, Pi64, "receiverssc_i"); (3, Sdt, "rdz");
  (2, Sdt, "rdy"); (1, Sdt, "rdx"); (3, Sdt, "rdz2"); (2, Sdt, "rdy2"); (1, Sdt, "rdx2"); (1, Sdt, "dt2");
  (1, Si64, "nt"); (1, Si64, "n_shots"); (3, Si64, "nz"); (2, Si64, "ny"); (1, Si64, "nx");
  (1, Si64, "n_sources_per_shot"); (1, Si64, "n_receivers_per_shot"); (1, Si64, "n_receiverssc_per_shot");
  (1, Si64, "step_ratio"); (1, Si64, "storage_mode"); (1, Ssize, "shot_bytes_uncomp");
  (1, Ssize, "shot_bytes_comp"); (1, Sbool, "v_requires_grad"); (1, Sbool, "scatter_requires_grad");
  (1, Sbool, "v_batched"); (1, Sbool, "scatter_batched"); (1, Sbool, "storage_compression"); (1, Si64, "start_t");
  (3, Si64, "pml_z0"); (2, Si64, "pml_y0"); (1, Si64, "pml_x0"); (3, Si64, "pml_z1"); (2, Si64, "pml_y1");
  (1, Si64, "pml_x1"); (1, Si64, "n_threads"); (1, Pvoid, "unused")].

(** scalar_born.c:556-690 *)
Definition BoB_cpu : list cparam := [
  (1, Pdt, "v"); (1, Pdt, "scatter"); (1, Pdt, "grad_r"); (1, Pdt, "grad_rsc"); (1, Pdt, "wfc"); (1, Pdt, "wfp");
  (3, Pdt, "psiz"); (2, Pdt, "psiy"); (1, Pdt, "psix"); (3, Pdt, "psizn"); (2, Pdt, "psiyn"); (1, Pdt, "psixn");
  (3, Pdt, "zetaz"); (2, Pdt, "zetay"); (1, Pdt, "zetax"); (3, Pdt, "zetazn"); (2, Pdt, "zetayn");
  (1, Pdt, "zetaxn"); (1, Pdt, "wfcsc"); (1, Pdt, "wfpsc"); (3, Pdt, "psizsc"); (2, Pdt, "psiysc");
  (1, Pdt, "psixsc"); (3, Pdt, "psiznsc"); (2, Pdt, "psiynsc"); (1, Pdt, "psixnsc"); (3, Pdt, "zetazsc");
  (2, Pdt, "zetaysc"); (1, Pdt, "zetaxsc"); (3, Pdt, "zetaznsc"); (2, Pdt, "zetaynsc"); (1, Pdt, "zetaxnsc");
  (1, Pdt, "w_store_1"); (1, Pdt, "w_store_1b"); (1, Pvoid, "w_store_2"); (1, Pvoid, "w_store_3");
  (1, Pstr, "w_filenames_ptr"); (1, Pdt, "wsc_store_1"); (1, Pdt, "wsc_store_1b"); (1, Pvoid, "wsc_store_2");
  (1, Pvoid, "wsc_store_3"); (1, Pstr, "wsc_filenames_ptr"); (1, Pdt, "grad_f"); (1, Pdt, "grad_fsc");
  (1, Pdt, "grad_v"); (1, Pdt, "grad_scatter"); (1, Pdt, "grad_v_thread"); (1, Pdt, "grad_scatter_thread");
  (3, Pdt, "az"); (3, Pdt, "bz"); (3, Pdt, "dbzdz"); (2, Pdt, "ay"); (2, Pdt, "by"); (2, Pdt, "dbydy");
  (1, Pdt, "ax"); (1, Pdt, "bx"); (1, Pdt, "dbxdx"); (1, Pi64, "sources_i"); (1, Pi64, "receivers_i");
  (1, Pi64, "receiverssc_i"); (3, Sdt, "rdz"); (2, Sdt, "rdy"); (1, Sdt, "rdx"); (3, Sdt, "rdz2");
  (2, Sdt, "rdy2"); (1, Sdt, "rdx2"); (1, Sdt, "dt2"); (1, Si64, "nt"); (1, Si64, "n_shots"); (3, Si64, "nz");
  (2, Si64, "ny"); (1, Si64, "nx"); (1, Si64, "n_sources_per_shot"); (1, Si64, "n_sourcessc_per_shot");
  (1, Si64, "n_receivers_per_shot"); (1, Si64, "n_receiverssc_per_shot"); (1, Si64, "step_ratio");
  (1, Si64, "storage_mode"); (1, Ssize, "shot_bytes_uncomp"); (1, Ssize, "shot_bytes_comp");
  (1, Sbool, "v_requires_grad"); (1, Sbool, "scatter_requires_grad"); (1, Sbool, "v_batched");
  (1, Sbool, "scatter_batched"); (1, Sbool, "storage_compression"); (1, Si64, "start_t"); (3, Si64, "pml_z0");
  (2, Si64, "pml_y0"); (1, Si64, "pml_x0"); (3, Si64, "pml_z1"); (2, Si64, "pml_y1"); (1, Si64, "pml_x1");
  (1, Si64, "n_threads"); (1, Pvoid, "unused")].

(** scalar_born.c:997-1091 *)
Definition BoS_cpu : list cparam := [
  (1, Pdt, "v"); (1, Pdt, "grad_rsc"); (1, Pdt, "wfcsc"); (1, Pdt, "wfpsc"); (3, Pdt, "psizsc");
  (2, Pdt, "psiysc"); (1, Pdt, "psixsc"); (3, Pdt, "psiznsc"); (2, Pdt, "psiynsc"); (1, Pdt, "psixnsc");
  (3, Pdt, "zetazsc"); (2, Pdt, "zetaysc"); (1, Pdt, "zetaxsc"); (3, Pdt, "zetaznsc"); (2, Pdt, "zetaynsc");
  (1, Pdt, "zetaxnsc"); (1, Pdt, "w_store_1"); (1, Pdt, "w_store_1b"); (1, Pvoid, "w_store_2");
  (1, Pvoid, "w_store_3"); (1, Pstr, "w_filenames_ptr"); (1, Pdt, "grad_fsc"); (1, Pdt, "grad_scatter");
  (1, Pdt, "grad_scatter_thread"); (3, Pdt, "az"); (3, Pdt, "bz"); (3, Pdt, "dbzdz"); (2, Pdt, "ay");
  (2, Pdt, "by"); (2, Pdt, "dbydy"); (1, Pdt, "ax"); (1, Pdt, "bx"); (1, Pdt, "dbxdx"); (1, Pi64, "sources_i");
  (1, Pi64, "receiverssc_i"); (3, Sdt, "rdz"); (2, Sdt, "rdy"); (1, Sdt, "rdx"); (3, Sdt, "rdz2");
  (2, Sdt, "rdy2"); (1, Sdt, "rdx2"); (1, Sdt, "dt2"); (1, Si64, "nt"); (1, Si64, "n_shots"); (3, Si64, "nz");
  (2, Si64, "ny"); (1, Si64, "nx"); (1, Si64, "n_sourcessc_per_shot"); (1, Si64, "n_receiverssc_per_shot");
  (1, Si64, "step_ratio"); (1, Si64, "storage_mode"); (1, Ssize, "shot_bytes_uncomp");
  (1, Ssize, "shot_bytes_comp"); (1, Sbool, "scatter_requires_grad"); (1, Sbool, "v_batched");
  (1, Sbool, "scatter_batched"); (1, Sbool, "storage_compression"); (1, Si64, "start_t"); (3, Si64, "pml_z0");
  (2, Si64, "pml_y0"); (1, Si64, "pml_x0"); (3, Si64, "pml_z1"); (2, Si64, "pml_y1"); (1, Si64, "pml_x1");
  (1, Si64, "n_threads")].

(** acoustic.c:117-266 *)
Definition AcF_cpu : list cparam := [
  (1, Pdt, "k"); (3, Pdt, "buoyancy_z"); (2, Pdt, "buoyancy_y"); (1, Pdt, "buoyancy_x"); (1, Pdt, "f_p");
  (3, Pdt, "f_vz"); (2, Pdt, "f_vy"); (1, Pdt, "f_vx"); (1, Pdt, "p"); (3, Pdt, "vz"); (2, Pdt, "vy");
  (1, Pdt, "vx"); (3, Pdt, "phi_z"); (2, Pdt, "phi_y"); (1, Pdt, "phi_x"); (3, Pdt, "psi_z"); (2, Pdt, "psi_y");
  (1, Pdt, "psi_x"); (1, Pdt, "k_grad_store_1"); (1, Pdt, "k_grad_store_1b"); (1, Pvoid, "k_grad_store_2");
  (1, Pvoid, "k_grad_store_3"); (1, Pstr, "k_grad_filenames_ptr"); (3, Pdt, "bz_grad_store_1");
  (3, Pdt, "bz_grad_store_1b"); (3, Pvoid, "bz_grad_store_2"); (3, Pvoid, "bz_grad_store_3");
  (3, Pstr, "bz_grad_filenames_ptr"); (2, Pdt, "by_grad_store_1"); (2, Pdt, "by_grad_store_1b");
  (2, Pvoid, "by_grad_store_2"); (2, Pvoid, "by_grad_store_3"); (2, Pstr, "by_grad_filenames_ptr");
  (1, Pdt, "bx_grad_store_1"); (1, Pdt, "bx_grad_store_1b"); (1, Pvoid, "bx_grad_store_2");
  (1, Pvoid, "bx_grad_store_3"); (1, Pstr, "bx_grad_filenames_ptr"); (1, Pdt, "r_p"); (3, Pdt, "r_vz");
  (2, Pdt, "r_vy"); (1, Pdt, "r_vx"); (3, Pdt, "az"); (3, Pdt, "bz"); (3, Pdt, "azh"); (3, Pdt, "bzh");
  (2, Pdt, "ay"); (2, Pdt, "by"); (2, Pdt, "ayh"); (2, Pdt, "byh"); (1, Pdt, "ax"); (1, Pdt, "bx");
  (1, Pdt, "axh"); (1, Pdt, "bxh"); (1, Pi64, "sources_i_p"); (3, Pi64, "sources_i_vz"); (2, Pi64, "sources_i_vy");
  (1, Pi64, "sources_i_vx"); (1, Pi64, "receivers_i_p"); (3, Pi64, "receivers_i_vz"); (2, Pi64, "receivers_i_vy");
  (1, Pi64, "receivers_i_vx"); (3, Sdt, "rdz"); (2, Sdt, "rdy"); (1, Sdt, "rdx"); (1, Sdt, "dt"); (1, Si64, "nt");
  (1, Si64, "n_shots"); (3, Si64, "nz"); (2, Si64, "ny"); (1, Si64, "nx"); (1, Si64, "n_sources_p_per_shot");
  (3, Si64, "n_sources_vz_per_shot"); (2, Si64, "n_sources_vy_per_shot"); (1, Si64, "n_sources_vx_per_shot");
  (1, Si64, "n_receivers_p_per_shot"); (3, Si64, "n_receivers_vz_per_shot"); (2, Si64, "n_receivers_vy_per_shot");
  (1, Si64, "n_receivers_vx_per_shot"); (1, Si64, "step_ratio"); (1, Si64, "storage_mode");
  (1, Ssize, "shot_bytes_uncomp"); (1, Ssize, "shot_bytes_comp"); (1, Sbool, "k_requires_grad");
  (1, Sbool, "b_requires_grad"); (1, Sbool, "k_batched"); (1, Sbool, "b_batched");
  (1, Sbool, "storage_compression"); (1, Si64, "start_t"); (3, Si64, "pml_z0"); (2, Si64, "pml_y0");
  (1, Si64, "pml_x0"); (3, Si64, "pml_z1"); (2, Si64, "pml_y1"); (1, Si64, "pml_x1"); (1, Si64, "n_threads");
  (1, Pvoid, "unused")].

(** acoustic.c:649-822 *)
Definition AcB_cpu : list cparam := [
  (1, Pdt, "k"); (3, Pdt, "buoyancy_z"); (2, Pdt, "buoyancy_y"); (1, Pdt, "buoyancy_x"); (1, Pdt, "grad_r_p");
  (3, Pdt, "grad_r_vz"); (2, Pdt, "grad_r_vy"); (1, Pdt, "grad_r_vx"); (1, Pdt, "p"); (3, Pdt, "vz");
  (2, Pdt, "vy"); (1, Pdt, "vx"); (3, Pdt, "phi_z"); (2, Pdt, "phi_y"); (1, Pdt, "phi_x"); (3, Pdt, "psi_z");
  (2, Pdt, "psi_y"); (1, Pdt, "psi_x"); (3, Pdt, "psi_zn"); (2, Pdt, "psi_yn"); (1, Pdt, "psi_xn");
  (1, Pdt, "k_grad_store_1"); (1, Pdt, "k_grad_store_1b"); (1, Pvoid, "k_grad_store_2");
  (1, Pvoid, "k_grad_store_3"); (1, Pstr, "k_grad_filenames_ptr"); (3, Pdt, "bz_grad_store_1");
  (3, Pdt, "bz_grad_store_1b"); (3, Pvoid, "bz_grad_store_2"); (3, Pvoid, "bz_grad_store_3");
  (3, Pstr, "bz_grad_filenames_ptr"); (2, Pdt, "by_grad_store_1"); (2, Pdt, "by_grad_store_1b");
  (2, Pvoid, "by_grad_store_2"); (2, Pvoid, "by_grad_store_3"); (2, Pstr, "by_grad_filenames_ptr");
  (1, Pdt, "bx_grad_store_1"); (1, Pdt, "bx_grad_store_1b"); (1, Pvoid, "bx_grad_store_2");
  (1, Pvoid, "bx_grad_store_3"); (1, Pstr, "bx_grad_filenames_ptr"); (1, Pdt, "grad_f_p"); (3, Pdt, "grad_f_vz");
  (2, Pdt, "grad_f_vy"); (1, Pdt, "grad_f_vx"); (1, Pdt, "grad_k"); (3, Pdt, "grad_bz"); (2, Pdt, "grad_by");
  (1, Pdt, "grad_bx"); (1, Pdt, "grad_k_thread"); (3, Pdt, "grad_bz_thread"); (2, Pdt, "grad_by_thread");
  (1, Pdt, "grad_bx_thread"); (3, Pdt, "az"); (3, Pdt, "bz"); (3, Pdt, "azh"); (3, Pdt, "bzh"); (2, Pdt, "ay");
  (2, Pdt, "by"); (2, Pdt, "ayh"); (2, Pdt, "byh"); (1, Pdt, "ax"); (1, Pdt, "bx"); (1, Pdt, "axh");
  (1, Pdt, "bxh"); (1, Pi64, "sources_i_p"); (3, Pi64, "sources_i_vz"); (2, Pi64, "sources_i_vy");
  (1, Pi64, "sources_i_vx"); (1, Pi64, "receivers_i_p"); (3, Pi64, "receivers_i_vz"); (2, Pi64, "receivers_i_vy");
  (1, Pi64, "receivers_i_vx"); (3, Sdt, "rdz"); (2, Sdt, "rdy"); (1, Sdt, "rdx"); (1, Sdt, "dt"); (1, Si64, "nt");
  (1, Si64, "n_shots"); (3, Si64, "nz"); (2, Si64, "ny"); (1, Si64, "nx"); (1, Si64, "n_sources_p_per_shot");
  (3, Si64, "n_sources_vz_per_shot"); (2, Si64, "n_sources_vy_per_shot"); (1, Si64, "n_sources_vx_per_shot");
  (1, Si64, "n_receivers_p_per_shot"); (3, Si64, "n_receivers_vz_per_shot"); (2, Si64, "n_receivers_vy_per_shot");
  (1, Si64, "n_receivers_vx_per_shot"); (1, Si64, "step_ratio"); (1, Si64, "storage_mode");
  (1, Ssize, "shot_bytes_uncomp"); (1, Ssize, "shot_bytes_comp"); (1, Sbool, "k_requires_grad");
  (1, Sbool, "b_requires_grad"); (1, Sbool, "k_batched"); (1, Sbool, "b_batched");
  (1, Sbool, "storage_compression"); (1, Si64, "start_t"); (3, Si64, "pml_z0"); (2, Si64, "pml_y0");
  (1, Si64, "pml_x0"); (3, Si64, "pml_z1"); (2, Si64, "pml_y1"); (1, Si64, "pml_x1"); (1, Si64, "n_threads");
  (1, Pvoid, "unused")].

(** elastic.c:425-613 *)
Definition ElF_cpu : list cparam := [
  (1, Pdt, "lamb"); (1, Pdt, "mu"); (3, Pdt, "mu_zy"); (3, Pdt, "mu_zx"); (2, Pdt, "mu_yx");
  (3, Pdt, "buoyancy_z"); (2, Pdt, "buoyancy_y"); (1, Pdt, "buoyancy_x"); (3, Pdt, "f_z"); (2, Pdt, "f_y");
  (1, Pdt, "f_x"); (1, Pdt, "f_p"); (3, Pdt, "vz"); (3, Pdt, "sigmazz"); (3, Pdt, "sigmayz"); (3, Pdt, "sigmaxz");
  (3, Pdt, "m_vzz"); (3, Pdt, "m_vzy"); (3, Pdt, "m_vzx"); (3, Pdt, "m_vyz"); (3, Pdt, "m_vxz");
  (3, Pdt, "m_sigmazzz"); (3, Pdt, "m_sigmayzy"); (3, Pdt, "m_sigmaxzx"); (3, Pdt, "m_sigmayzz");
  (3, Pdt, "m_sigmaxzz"); (2, Pdt, "vy"); (2, Pdt, "sigmayy"); (2, Pdt, "sigmaxy"); (2, Pdt, "m_vyy");
  (2, Pdt, "m_vyx"); (2, Pdt, "m_vxy"); (2, Pdt, "m_sigmayyy"); (2, Pdt, "m_sigmaxyy"); (2, Pdt, "m_sigmaxyx");
  (1, Pdt, "vx"); (1, Pdt, "sigmaxx"); (1, Pdt, "m_vxx"); (1, Pdt, "m_sigmaxxx"); (3, Pdt, "dvzdbuoyancy_store_1");
  (3, Pdt, "dvzdbuoyancy_store_1b"); (3, Pvoid, "dvzdbuoyancy_store_2"); (3, Pvoid, "dvzdbuoyancy_store_3");
  (3, Pstr, "dvzdbuoyancy_filenames_ptr"); (3, Pdt, "dvzdz_store_1"); (3, Pdt, "dvzdz_store_1b");
  (3, Pvoid, "dvzdz_store_2"); (3, Pvoid, "dvzdz_store_3"); (3, Pstr, "dvzdz_filenames_ptr");
  (3, Pdt, "dvzdx_plus_dvxdz_store_1"); (3, Pdt, "dvzdx_plus_dvxdz_store_1b");
  (3, Pvoid, "dvzdx_plus_dvxdz_store_2"); (3, Pvoid, "dvzdx_plus_dvxdz_store_3");
  (3, Pstr, "dvzdx_plus_dvxdz_filenames_ptr"); (3, Pdt, "dvzdy_plus_dvydz_store_1");
  (3, Pdt, "dvzdy_plus_dvydz_store_1b"); (3, Pvoid, "dvzdy_plus_dvydz_store_2");
  (3, Pvoid, "dvzdy_plus_dvydz_store_3"); (3, Pstr, "dvzdy_plus_dvydz_filenames_ptr");
  (2, Pdt, "dvydbuoyancy_store_1"); (2, Pdt, "dvydbuoyancy_store_1b"); (2, Pvoid, "dvydbuoyancy_store_2");
  (2, Pvoid, "dvydbuoyancy_store_3"); (2, Pstr, "dvydbuoyancy_filenames_ptr"); (2, Pdt, "dvydy_store_1");
  (2, Pdt, "dvydy_store_1b"); (2, Pvoid, "dvydy_store_2"); (2, Pvoid, "dvydy_store_3");
  (2, Pstr, "dvydy_filenames_ptr"); (2, Pdt, "dvydx_plus_dvxdy_store_1"); (2, Pdt, "dvydx_plus_dvxdy_store_1b");
  (2, Pvoid, "dvydx_plus_dvxdy_store_2"); (2, Pvoid, "dvydx_plus_dvxdy_store_3");
  (2, Pstr, "dvydx_plus_dvxdy_filenames_ptr"); (1, Pdt, "dvxdbuoyancy_store_1"); (1, Pdt, "dvxdbuoyancy_store_1b");
  (1, Pvoid, "dvxdbuoyancy_store_2"); (1, Pvoid, "dvxdbuoyancy_store_3"); (1, Pstr, "dvxdbuoyancy_filenames_ptr");
  (1, Pdt, "dvxdx_store_1"); (1, Pdt, "dvxdx_store_1b"); (1, Pvoid, "dvxdx_store_2"); (1, Pvoid, "dvxdx_store_3");
  (1, Pstr, "dvxdx_filenames_ptr"); (3, Pdt, "r_z"); (2, Pdt, "r_y"); (1, Pdt, "r_x"); (1, Pdt, "r_p");
  (3, Pdt, "az"); (3, Pdt, "bz"); (3, Pdt, "azh"); (3, Pdt, "bzh"); (2, Pdt, "ay"); (2, Pdt, "by");
  (2, Pdt, "ayh"); (2, Pdt, "byh"); (1, Pdt, "ax"); (1, Pdt, "bx"); (1, Pdt, "axh"); (1, Pdt, "bxh");
  (3, Pi64, "sources_z_i"); (2, Pi64, "sources_y_i"); (1, Pi64, "sources_x_i"); (1, Pi64, "sources_p_i");
  (3, Pi64, "receivers_z_i"); (2, Pi64, "receivers_y_i"); (1, Pi64, "receivers_x_i"); (1, Pi64, "receivers_p_i");
  (3, Sdt, "rdz"); (2, Sdt, "rdy"); (1, Sdt, "rdx"); (1, Sdt, "dt"); (1, Si64, "nt"); (1, Si64, "n_shots");
  (3, Si64, "nz"); (2, Si64, "ny"); (1, Si64, "nx"); (3, Si64, "n_sources_z_per_shot");
  (2, Si64, "n_sources_y_per_shot"); (1, Si64, "n_sources_x_per_shot"); (1, Si64, "n_sources_p_per_shot");
  (3, Si64, "n_receivers_z_per_shot"); (2, Si64, "n_receivers_y_per_shot"); (1, Si64, "n_receivers_x_per_shot");
  (1, Si64, "n_receivers_p_per_shot"); (1, Si64, "step_ratio"); (1, Si64, "storage_mode");
  (1, Ssize, "shot_bytes_uncomp"); (1, Ssize, "shot_bytes_comp"); (1, Sbool, "lamb_requires_grad");
  (1, Sbool, "mu_requires_grad"); (1, Sbool, "buoyancy_requires_grad"); (1, Sbool, "lamb_batched");
  (1, Sbool, "mu_batched"); (1, Sbool, "buoyancy_batched"); (1, Sbool, "storage_compression");
  (1, Si64, "start_t"); (3, Si64, "pml_z0"); (2, Si64, "pml_y0"); (1, Si64, "pml_x0"); (3, Si64, "pml_z1");
  (2, Si64, "pml_y1"); (1, Si64, "pml_x1"); (1, Si64, "n_threads"); (1, Pvoid, "unused")].

(** elastic.c:1283-1517 *)
Definition ElB_cpu : list cparam := [
  (1, Pdt, "lamb"); (1, Pdt, "mu"); (3, Pdt, "mu_zy"); (3, Pdt, "mu_zx"); (2, Pdt, "mu_yx");
  (3, Pdt, "buoyancy_z"); (2, Pdt, "buoyancy_y"); (1, Pdt, "buoyancy_x"); (3, Pdt, "grad_r_z");
  (2, Pdt, "grad_r_y"); (1, Pdt, "grad_r_x"); (1, Pdt, "grad_r_p"); (3, Pdt, "vz"); (3, Pdt, "sigmazz");
  (3, Pdt, "sigmayz"); (3, Pdt, "sigmaxz"); (3, Pdt, "m_vzz"); (3, Pdt, "m_vzy"); (3, Pdt, "m_vzx");
  (3, Pdt, "m_vyz"); (3, Pdt, "m_vxz"); (3, Pdt, "m_sigmazzz"); (3, Pdt, "m_sigmayzy"); (3, Pdt, "m_sigmaxzx");
  (3, Pdt, "m_sigmayzz"); (3, Pdt, "m_sigmaxzz"); (2, Pdt, "vy"); (2, Pdt, "sigmayy"); (2, Pdt, "sigmaxy");
  (2, Pdt, "m_vyy"); (2, Pdt, "m_vyx"); (2, Pdt, "m_vxy"); (2, Pdt, "m_sigmayyy"); (2, Pdt, "m_sigmaxyy");
  (2, Pdt, "m_sigmaxyx"); (1, Pdt, "vx"); (1, Pdt, "sigmaxx"); (1, Pdt, "m_vxx"); (1, Pdt, "m_sigmaxxx");
  (3, Pdt, "m_sigmazzzn"); (3, Pdt, "m_sigmayzyn"); (3, Pdt, "m_sigmaxzxn"); (3, Pdt, "m_sigmayzzn");
  (3, Pdt, "m_sigmaxzzn"); (2, Pdt, "m_sigmayyyn"); (2, Pdt, "m_sigmaxyyn"); (2, Pdt, "m_sigmaxyxn");
  (1, Pdt, "m_sigmaxxxn"); (3, Pdt, "dvzdbuoyancy_store_1"); (3, Pdt, "dvzdbuoyancy_store_1b");
  (3, Pvoid, "dvzdbuoyancy_store_2"); (3, Pvoid, "dvzdbuoyancy_store_3"); (3, Pstr, "dvzdbuoyancy_filenames_ptr");
  (3, Pdt, "dvzdz_store_1"); (3, Pdt, "dvzdz_store_1b"); (3, Pvoid, "dvzdz_store_2"); (3, Pvoid, "dvzdz_store_3");
  (3, Pstr, "dvzdz_filenames_ptr"); (3, Pdt, "dvzdx_plus_dvxdz_store_1"); (3, Pdt, "dvzdx_plus_dvxdz_store_1b");
  (3, Pvoid, "dvzdx_plus_dvxdz_store_2"); (3, Pvoid, "dvzdx_plus_dvxdz_store_3");
  (3, Pstr, "dvzdx_plus_dvxdz_filenames_ptr"); (3, Pdt, "dvzdy_plus_dvydz_store_1");
  (3, Pdt, "dvzdy_plus_dvydz_store_1b"); (3, Pvoid, "dvzdy_plus_dvydz_store_2");
  (3, Pvoid, "dvzdy_plus_dvydz_store_3"); (3, Pstr, "dvzdy_plus_dvydz_filenames_ptr");
  (2, Pdt, "dvydbuoyancy_store_1"); (2, Pdt, "dvydbuoyancy_store_1b"); (2, Pvoid, "dvydbuoyancy_store_2");
  (2, Pvoid, "dvydbuoyancy_store_3"); (2, Pstr, "dvydbuoyancy_filenames_ptr"); (2, Pdt, "dvydy_store_1");
  (2, Pdt, "dvydy_store_1b"); (2, Pvoid, "dvydy_store_2"); (2, Pvoid, "dvydy_store_3");
  (2, Pstr, "dvydy_filenames_ptr"); (2, Pdt, "dvydx_plus_dvxdy_store_1"); (2, Pdt, "dvydx_plus_dvxdy_store_1b");
  (2, Pvoid, "dvydx_plus_dvxdy_store_2"); (2, Pvoid, "dvydx_plus_dvxdy_store_3");
  (2, Pstr, "dvydx_plus_dvxdy_filenames_ptr"); (1, Pdt, "dvxdbuoyancy_store_1"); (1, Pdt, "dvxdbuoyancy_store_1b");
  (1, Pvoid, "dvxdbuoyancy_store_2"); (1, Pvoid, "dvxdbuoyancy_store_3"); (1, Pstr, "dvxdbuoyancy_filenames_ptr");
  (1, Pdt, "dvxdx_store_1"); (1, Pdt, "dvxdx_store_1b"); (1, Pvoid, "dvxdx_store_2"); (1, Pvoid, "dvxdx_store_3");
  (1, Pstr, "dvxdx_filenames_ptr"); (3, Pdt, "grad_f_z"); (2, Pdt, "grad_f_y"); (1, Pdt, "grad_f_x");
  (1, Pdt, "grad_f_p"); (1, Pdt, "grad_lamb"); (1, Pdt, "grad_mu"); (3, Pdt, "grad_mu_zy"); (3, Pdt, "grad_mu_zx");
  (2, Pdt, "grad_mu_yx"); (3, Pdt, "grad_buoyancy_z"); (2, Pdt, "grad_buoyancy_y"); (1, Pdt, "grad_buoyancy_x");
  (1, Pdt, "grad_lamb_thread"); (1, Pdt, "grad_mu_thread"); (3, Pdt, "grad_mu_zy_thread");
  (3, Pdt, "grad_mu_zx_thread"); (2, Pdt, "grad_mu_yx_thread"); (3, Pdt, "grad_buoyancy_z_thread");
  (2, Pdt, "grad_buoyancy_y_thread"); (1, Pdt, "grad_buoyancy_x_thread"); (3, Pdt, "az"); (3, Pdt, "bz");
  (3, Pdt, "azh"); (3, Pdt, "bzh"); (2, Pdt, "ay"); (2, Pdt, "by"); (2, Pdt, "ayh"); (2, Pdt, "byh");
  (1, Pdt, "ax"); (1, Pdt, "bx"); (1, Pdt, "axh"); (1, Pdt, "bxh"); (3, Pi64, "sources_z_i");
  (2, Pi64, "sources_y_i"); (1, Pi64, "sources_x_i"); (1, Pi64, "sources_p_i"); (3, Pi64, "receivers_z_i");
  (2, Pi64, "receivers_y_i"); (1, Pi64, "receivers_x_i"); (1, Pi64, "receivers_p_i"); (3, Sdt, "rdz");
  (2, Sdt, "rdy"); (1, Sdt, "rdx"); (1, Sdt, "dt"); (1, Si64, "nt"); (1, Si64, "n_shots"); (3, Si64, "nz");
  (2, Si64, "ny"); (1, Si64, "nx"); (3, Si64, "n_sources_z_per_shot"); (2, Si64, "n_sources_y_per_shot");
  (1, Si64, "n_sources_x_per_shot"); (1, Si64, "n_sources_p_per_shot"); (3, Si64, "n_receivers_z_per_shot");
  (2, Si64, "n_receivers_y_per_shot"); (1, Si64, "n_receivers_x_per_shot"); (1, Si64, "n_receivers_p_per_shot");
  (1, Si64, "step_ratio"); (1, Si64, "storage_mode"); (1, Ssize, "shot_bytes_uncomp");
  (1, Ssize, "shot_bytes_comp"); (1, Sbool, "lamb_requires_grad"); (1, Sbool, "mu_requires_grad");
  (1, Sbool, "buoyancy_requires_grad"); (1, Sbool, "lamb_batched"); (1, Sbool, "mu_batched");
  (1, Sbool, "buoyancy_batched"); (1, Sbool, "storage_compression"); (1, Si64, "start_t"); (3, Si64, "pml_z0");
  (2, Si64, "pml_y0"); (1, Si64, "pml_x0"); (3, Si64, "pml_z1"); (2, Si64, "pml_y1"); (1, Si64, "pml_x1");
  (1, Si64, "n_threads"); (1, Pvoid, "unused")].

(** scalar.cu:440-526 *)
Definition ScF_cuda : list cparam := [
  (1, Pdt, "v"); (1, Pdt, "f"); (1, Pdt, "wfc"); (1, Pdt, "wfp"); (3, Pdt, "psiz"); (2, Pdt, "psiy");
  (1, Pdt, "psix"); (3, Pdt, "psizn"); (2, Pdt, "psiyn"); (1, Pdt, "psixn"); (3, Pdt, "zetaz"); (2, Pdt, "zetay");
  (1, Pdt, "zetax"); (1, Pdt, "w_store_1a"); (1, Pdt, "w_store_1b"); (1, Pvoid, "w_store_2");
  (1, Pvoid, "w_store_3"); (1, Pstr, "w_filenames_ptr"); (1, Pdt, "r"); (3, Pdt, "az"); (3, Pdt, "bz");
  (3, Pdt, "dbzdz"); (2, Pdt, "ay"); (2, Pdt, "by"); (2, Pdt, "dbydy"); (1, Pdt, "ax"); (1, Pdt, "bx");
  (1, Pdt, "dbxdx"); (1, Pi64, "sources_i"); (1, Pi64, "receivers_i"); (3, Sdt, "rdz_h"); (2, Sdt, "rdy_h");
  (1, Sdt, "rdx_h"); (3, Sdt, "rdz2_h"); (2, Sdt, "rdy2_h"); (1, Sdt, "rdx2_h"); (1, Sdt, "dt2_h");
  (1, Si64, "nt"); (1, Si64, "n_shots_h"); (3, Si64, "nz_h"); (2, Si64, "ny_h"); (1, Si64, "nx_h");
  (1, Si64, "n_sources_per_shot_h"); (1, Si64, "n_receivers_per_shot_h"); (1, Si64, "step_ratio_h");
  (1, Si64, "storage_mode"); (1, Ssize, "shot_bytes_uncomp"); (1, Ssize, "shot_bytes_comp");
  (1, Sbool, "v_requires_grad"); (1, Sbool, "v_batched_h"); (1, Sbool, "storage_compression");
  (1, Si64, "start_t"); (3, Si64, "pml_z0_h"); (2, Si64, "pml_y0_h"); (1, Si64, "pml_x0_h"); (3, Si64, "pml_z1_h");
  (2, Si64, "pml_y1_h"); (1, Si64, "pml_x1_h"); (1, Si64, "device"); (1, Pstream, "stream_compute")].

(** scalar.cu:697-790 *)
Definition ScB_cuda : list cparam := [
  (1, Pdt, "v2dt2"); (1, Pdt, "grad_r"); (1, Pdt, "wfc"); (1, Pdt, "wfp"); (3, Pdt, "psiz"); (2, Pdt, "psiy");
  (1, Pdt, "psix"); (3, Pdt, "psizn"); (2, Pdt, "psiyn"); (1, Pdt, "psixn"); (3, Pdt, "zetaz"); (2, Pdt, "zetay");
  (1, Pdt, "zetax"); (3, Pdt, "zetazn"); (2, Pdt, "zetayn"); (1, Pdt, "zetaxn"); (1, Pdt, "w_store_1a");
  (1, Pdt, "w_store_1b"); (1, Pvoid, "w_store_2"); (1, Pvoid, "w_store_3"); (1, Pstr, "w_filenames_ptr");
  (1, Pdt, "grad_f"); (1, Pdt, "grad_v"); (1, Pdt, "grad_v_shot"); (3, Pdt, "az"); (3, Pdt, "bz");
  (3, Pdt, "dbzdz"); (2, Pdt, "ay"); (2, Pdt, "by"); (2, Pdt, "dbydy"); (1, Pdt, "ax"); (1, Pdt, "bx");
  (1, Pdt, "dbxdx"); (1, Pi64, "sources_i"); (1, Pi64, "receivers_i"); (3, Sdt, "rdz_h"); (2, Sdt, "rdy_h");
  (1, Sdt, "rdx_h"); (3, Sdt, "rdz2_h"); (2, Sdt, "rdy2_h"); (1, Sdt, "rdx2_h"); (1, Si64, "nt");
  (1, Si64, "n_shots_h"); (3, Si64, "nz_h"); (2, Si64, "ny_h"); (1, Si64, "nx_h");
  (1, Si64, "n_sources_per_shot_h"); (1, Si64, "n_receivers_per_shot_h"); (1, Si64, "step_ratio_h");
  (1, Si64, "storage_mode"); (1, Ssize, "shot_bytes_uncomp"); (1, Ssize, "shot_bytes_comp");
  (1, Sbool, "v_requires_grad"); (1, Sbool, "v_batched_h"); (1, Sbool, "storage_compression");
  (1, Si64, "start_t"); (3, Si64, "pml_z0_h"); (2, Si64, "pml_y0_h"); (1, Si64, "pml_x0_h"); (3, Si64, "pml_z1_h");
  (2, Si64, "pml_y1_h"); (1, Si64, "pml_x1_h"); (1, Si64, "device"); (1, Pstream, "stream_compute")].

(** scalar_born.cu:824-942 *)
Definition BoF_cuda : list cparam := [
  (1, Pdt, "v"); (1, Pdt, "scatter"); (1, Pdt, "f"); (1, Pdt, "fsc"); (1, Pdt, "wfc"); (1, Pdt, "wfp");
  (3, Pdt, "psiz"); (2, Pdt, "psiy"); (1, Pdt, "psix"); (3, Pdt, "psizn"); (2, Pdt, "psiyn"); (1, Pdt, "psixn");
  (3, Pdt, "zetaz"); (2, Pdt, "zetay"); (1, Pdt, "zetax"); (1, Pdt, "wfcsc"); (1, Pdt, "wfpsc");
  (3, Pdt, "psizsc"); (2, Pdt, "psiysc"); (1, Pdt, "psixsc"); (3, Pdt, "psiznsc"); (2, Pdt, "psiynsc");
  (1, Pdt, "psixnsc"); (3, Pdt, "zetazsc"); (2, Pdt, "zetaysc"); (1, Pdt, "zetaxsc"); (1, Pdt, "w_store_1a");
  (1, Pdt, "w_store_1b"); (1, Pvoid, "w_store_2"); (1, Pvoid, "w_store_3"); (1, Pstr, "w_filenames_ptr");
  (1, Pdt, "wsc_store_1a"); (1, Pdt, "wsc_store_1b"); (1, Pvoid, "wsc_store_2"); (1, Pvoid, "wsc_store_3");
  (1, Pstr, "wsc_filenames_ptr"); (1, Pdt, "r"); (1, Pdt, "rsc"); (3, Pdt, "az"); (3, Pdt, "bz");
  (3, Pdt, "dbzdz"); (2, Pdt, "ay"); (2, Pdt, "by"); (2, Pdt, "dbydy"); (1, Pdt, "ax"); (1, Pdt, "bx");
  (1, Pdt, "dbxdx"); (1, Pi64, "sources_i"); (1, Pi64, "receivers_i"); (1, Pi64, "receiverssc_i");
  (3, Sdt, "rdz_h"); (2, Sdt, "rdy_h"); (1, Sdt, "rdx_h"); (3, Sdt, "rdz2_h"); (2, Sdt, "rdy2_h");
  (1, Sdt, "rdx2_h"); (1, Sdt, "dt2_h"); (1, Si64, "nt"); (1, Si64, "n_shots_h"); (3, Si64, "nz_h");
  (2, Si64, "ny_h"); (1, Si64, "nx_h"); (1, Si64, "n_sources_per_shot_h"); (1, Si64, "n_receivers_per_shot_h");
  (1, Si64, "n_receiverssc_per_shot_h"); (1, Si64, "step_ratio_h"); (1, Si64, "storage_mode");
  (1, Ssize, "shot_bytes_uncomp"); (1, Ssize, "shot_bytes_comp"); (1, Sbool, "v_requires_grad");
  (1, Sbool, "scatter_requires_grad"); (1, Sbool, "v_batched_h"); (1, Sbool, "scatter_batched_h");
  (1, Sbool, "storage_compression"); (1, Si64, "start_t"); (3, Si64, "pml_z0_h"); (2, Si64, "pml_y0_h");
  (1, Si64, "pml_x0_h"); (3, Si64, "pml_z1_h"); (2, Si64, "pml_y1_h"); (1, Si64, "pml_x1_h"); (1, Si64, "device");
  (1, Pstream, "stream_compute")].

(** scalar_born.cu:1215-1353 *)
Definition BoB_cuda : list cparam := [
  (1, Pdt, "v"); (1, Pdt, "scatter"); (1, Pdt, "grad_r"); (1, Pdt, "grad_rsc"); (1, Pdt, "wfc"); (1, Pdt, "wfp");
  (3, Pdt, "psiz"); (2, Pdt, "psiy"); (1, Pdt, "psix"); (3, Pdt, "psizn"); (2, Pdt, "psiyn"); (1, Pdt, "psixn");
  (3, Pdt, "zetaz"); (2, Pdt, "zetay"); (1, Pdt, "zetax"); (3, Pdt, "zetazn"); (2, Pdt, "zetayn");
  (1, Pdt, "zetaxn"); (1, Pdt, "wfcsc"); (1, Pdt, "wfpsc"); (3, Pdt, "psizsc"); (2, Pdt, "psiysc");
  (1, Pdt, "psixsc"); (3, Pdt, "psiznsc"); (2, Pdt, "psiynsc"); (1, Pdt, "psixnsc"); (3, Pdt, "zetazsc");
  (2, Pdt, "zetaysc"); (1, Pdt, "zetaxsc"); (3, Pdt, "zetaznsc"); (2, Pdt, "zetaynsc"); (1, Pdt, "zetaxnsc");
  (1, Pdt, "w_store_1a"); (1, Pdt, "w_store_1b"); (1, Pvoid, "w_store_2"); (1, Pvoid, "w_store_3");
  (1, Pstr, "w_filenames_ptr"); (1, Pdt, "wsc_store_1a"); (1, Pdt, "wsc_store_1b"); (1, Pvoid, "wsc_store_2");
  (1, Pvoid, "wsc_store_3"); (1, Pstr, "wsc_filenames_ptr"); (1, Pdt, "grad_f"); (1, Pdt, "grad_fsc");
  (1, Pdt, "grad_v"); (1, Pdt, "grad_scatter"); (1, Pdt, "grad_v_shot"); (1, Pdt, "grad_scatter_shot");
  (3, Pdt, "az"); (3, Pdt, "bz"); (3, Pdt, "dbzdz"); (2, Pdt, "ay"); (2, Pdt, "by"); (2, Pdt, "dbydy");
  (1, Pdt, "ax"); (1, Pdt, "bx"); (1, Pdt, "dbxdx"); (1, Pi64, "sources_i"); (1, Pi64, "receivers_i");
  (1, Pi64, "receiverssc_i"); (3, Sdt, "rdz_h"); (2, Sdt, "rdy_h"); (1, Sdt, "rdx_h"); (3, Sdt, "rdz2_h");
  (2, Sdt, "rdy2_h"); (1, Sdt, "rdx2_h"); (1, Sdt, "dt2_h"); (1, Si64, "nt"); (1, Si64, "n_shots_h");
  (3, Si64, "nz_h"); (2, Si64, "ny_h"); (1, Si64, "nx_h"); (1, Si64, "n_sources_per_shot_h");
  (1, Si64, "n_sourcessc_per_shot_h"); (1, Si64, "n_receivers_per_shot_h"); (1, Si64, "n_receiverssc_per_shot_h");
  (1, Si64, "step_ratio_h"); (1, Si64, "storage_mode"); (1, Ssize, "shot_bytes_uncomp");
  (1, Ssize, "shot_bytes_comp"); (1, Sbool, "v_requires_grad"); (1, Sbool, "scatter_requires_grad");
  (1, Sbool, "v_batched_h"); (1, Sbool, "scatter_batched_h"); (1, Sbool, "storage_compression");
  (1, Si64, "start_t"); (3, Si64, "pml_z0_h"); (2, Si64, "pml_y0_h"); (1, Si64, "pml_x0_h"); (3, Si64, "pml_z1_h");
  (2, Si64, "pml_y1_h"); (1, Si64, "pml_x1_h"); (1, Si64, "device"); (1, Pstream, "stream_compute")].

(** scalar_born.cu:1662-1757 *)
Definition BoS_cuda : list cparam := [
  (1, Pdt, "v"); (1, Pdt, "grad_rsc"); (1, Pdt, "wfcsc"); (1, Pdt, "wfpsc"); (3, Pdt, "psizsc");
  (2, Pdt, "psiysc"); (1, Pdt, "psixsc"); (3, Pdt, "psiznsc"); (2, Pdt, "psiynsc"); (1, Pdt, "psixnsc");
  (3, Pdt, "zetazsc"); (2, Pdt, "zetaysc"); (1, Pdt, "zetaxsc"); (3, Pdt, "zetaznsc"); (2, Pdt, "zetaynsc");
  (1, Pdt, "zetaxnsc"); (1, Pdt, "w_store_1a"); (1, Pdt, "w_store_1b"); (1, Pvoid, "w_store_2");
  (1, Pvoid, "w_store_3"); (1, Pstr, "w_filenames_ptr"); (1, Pdt, "grad_fsc"); (1, Pdt, "grad_scatter");
  (1, Pdt, "grad_scatter_shot"); (3, Pdt, "az"); (3, Pdt, "bz"); (3, Pdt, "dbzdz"); (2, Pdt, "ay"); (2, Pdt, "by");
  (2, Pdt, "dbydy"); (1, Pdt, "ax"); (1, Pdt, "bx"); (1, Pdt, "dbxdx"); (1, Pi64, "sources_i");
  (1, Pi64, "receiverssc_i"); (3, Sdt, "rdz_h"); (2, Sdt, "rdy_h"); (1, Sdt, "rdx_h"); (3, Sdt, "rdz2_h");
  (2, Sdt, "rdy2_h"); (1, Sdt, "rdx2_h"); (1, Sdt, "dt2_h"); (1, Si64, "nt"); (1, Si64, "n_shots_h");
  (3, Si64, "nz_h"); (2, Si64, "ny_h"); (1, Si64, "nx_h"); (1, Si64, "n_sourcessc_per_shot_h");
  (1, Si64, "n_receiverssc_per_shot_h"); (1, Si64, "step_ratio_h"); (1, Si64, "storage_mode");
  (1, Ssize, "shot_bytes_uncomp"); (1, Ssize, "shot_bytes_comp"); (1, Sbool, "scatter_requires_grad");
  (1, Sbool, "v_batched_h"); (1, Sbool, "scatter_batched_h"); (1, Sbool, "storage_compression");
  (1, Si64, "start_t"); (3, Si64, "pml_z0_h"); (2, Si64, "pml_y0_h"); (1, Si64, "pml_x0_h"); (3, Si64, "pml_z1_h");
  (2, Si64, "pml_y1_h"); (1, Si64, "pml_x1_h"); (1, Si64, "device"); (1, Pstream, "stream_compute")].

(** acoustic.cu:698-854 *)
Definition AcF_cuda : list cparam := [
  (1, Pdt, "k"); (3, Pdt, "buoyancy_z"); (2, Pdt, "buoyancy_y"); (1, Pdt, "buoyancy_x"); (1, Pdt, "f_p");
  (3, Pdt, "f_vz"); (2, Pdt, "f_vy"); (1, Pdt, "f_vx"); (1, Pdt, "p"); (3, Pdt, "vz"); (2, Pdt, "vy");
  (1, Pdt, "vx"); (3, Pdt, "phi_z"); (2, Pdt, "phi_y"); (1, Pdt, "phi_x"); (3, Pdt, "psi_z"); (2, Pdt, "psi_y");
  (1, Pdt, "psi_x"); (1, Pdt, "k_grad_store_1a"); (1, Pdt, "k_grad_store_1b"); (1, Pvoid, "k_grad_store_2");
  (1, Pvoid, "k_grad_store_3"); (1, Pstr, "k_grad_filenames_ptr"); (3, Pdt, "bz_grad_store_1a");
  (3, Pdt, "bz_grad_store_1b"); (3, Pvoid, "bz_grad_store_2"); (3, Pvoid, "bz_grad_store_3");
  (3, Pstr, "bz_grad_filenames_ptr"); (2, Pdt, "by_grad_store_1a"); (2, Pdt, "by_grad_store_1b");
  (2, Pvoid, "by_grad_store_2"); (2, Pvoid, "by_grad_store_3"); (2, Pstr, "by_grad_filenames_ptr");
  (1, Pdt, "bx_grad_store_1a"); (1, Pdt, "bx_grad_store_1b"); (1, Pvoid, "bx_grad_store_2");
  (1, Pvoid, "bx_grad_store_3"); (1, Pstr, "bx_grad_filenames_ptr"); (1, Pdt, "r_p"); (3, Pdt, "r_vz");
  (2, Pdt, "r_vy"); (1, Pdt, "r_vx"); (3, Pdt, "az"); (3, Pdt, "bz"); (3, Pdt, "azh"); (3, Pdt, "bzh");
  (2, Pdt, "ay"); (2, Pdt, "by"); (2, Pdt, "ayh"); (2, Pdt, "byh"); (1, Pdt, "ax"); (1, Pdt, "bx");
  (1, Pdt, "axh"); (1, Pdt, "bxh"); (1, Pi64, "sources_i_p"); (3, Pi64, "sources_i_vz"); (2, Pi64, "sources_i_vy");
  (1, Pi64, "sources_i_vx"); (1, Pi64, "receivers_i_p"); (3, Pi64, "receivers_i_vz"); (2, Pi64, "receivers_i_vy");
  (1, Pi64, "receivers_i_vx"); (3, Sdt, "rdz_h"); (2, Sdt, "rdy_h"); (1, Sdt, "rdx_h"); (1, Sdt, "dt_h");
  (1, Si64, "nt"); (1, Si64, "n_shots_h"); (3, Si64, "nz_h"); (2, Si64, "ny_h"); (1, Si64, "nx_h");
  (1, Si64, "n_sources_p_per_shot_h"); (3, Si64, "n_sources_vz_per_shot_h"); (2, Si64, "n_sources_vy_per_shot_h");
  (1, Si64, "n_sources_vx_per_shot_h"); (1, Si64, "n_receivers_p_per_shot_h");
  (3, Si64, "n_receivers_vz_per_shot_h"); (2, Si64, "n_receivers_vy_per_shot_h");
  (1, Si64, "n_receivers_vx_per_shot_h"); (1, Si64, "step_ratio_h"); (1, Si64, "storage_mode");
  (1, Ssize, "shot_bytes_uncomp"); (1, Ssize, "shot_bytes_comp"); (1, Sbool, "k_requires_grad");
  (1, Sbool, "b_requires_grad"); (1, Sbool, "k_batched_h"); (1, Sbool, "b_batched_h");
  (1, Sbool, "storage_compression"); (1, Si64, "start_t"); (3, Si64, "pml_z0_h"); (2, Si64, "pml_y0_h");
  (1, Si64, "pml_x0_h"); (3, Si64, "pml_z1_h"); (2, Si64, "pml_y1_h"); (1, Si64, "pml_x1_h"); (1, Si64, "device");
  (1, Pstream, "stream_compute")].

(** acoustic.cu:1184-1364 *)
Definition AcB_cuda : list cparam := [
  (1, Pdt, "k"); (3, Pdt, "buoyancy_z"); (2, Pdt, "buoyancy_y"); (1, Pdt, "buoyancy_x"); (1, Pdt, "grad_r_p");
  (3, Pdt, "grad_r_vz"); (2, Pdt, "grad_r_vy"); (1, Pdt, "grad_r_vx"); (1, Pdt, "p"); (3, Pdt, "vz");
  (2, Pdt, "vy"); (1, Pdt, "vx"); (3, Pdt, "phi_z"); (2, Pdt, "phi_y"); (1, Pdt, "phi_x"); (3, Pdt, "psi_z");
  (2, Pdt, "psi_y"); (1, Pdt, "psi_x"); (3, Pdt, "psi_zn"); (2, Pdt, "psi_yn"); (1, Pdt, "psi_xn");
  (1, Pdt, "k_grad_store_1a"); (1, Pdt, "k_grad_store_1b"); (1, Pvoid, "k_grad_store_2");
  (1, Pvoid, "k_grad_store_3"); (1, Pstr, "k_grad_filenames_ptr"); (3, Pdt, "bz_grad_store_1a");
  (3, Pdt, "bz_grad_store_1b"); (3, Pvoid, "bz_grad_store_2"); (3, Pvoid, "bz_grad_store_3");
  (3, Pstr, "bz_grad_filenames_ptr"); (2, Pdt, "by_grad_store_1a"); (2, Pdt, "by_grad_store_1b");
  (2, Pvoid, "by_grad_store_2"); (2, Pvoid, "by_grad_store_3"); (2, Pstr, "by_grad_filenames_ptr");
  (1, Pdt, "bx_grad_store_1a"); (1, Pdt, "bx_grad_store_1b"); (1, Pvoid, "bx_grad_store_2");
  (1, Pvoid, "bx_grad_store_3"); (1, Pstr, "bx_grad_filenames_ptr"); (1, Pdt, "grad_f_p"); (3, Pdt, "grad_f_vz");
  (2, Pdt, "grad_f_vy"); (1, Pdt, "grad_f_vx"); (1, Pdt, "grad_k"); (3, Pdt, "grad_bz"); (2, Pdt, "grad_by");
  (1, Pdt, "grad_bx"); (1, Pdt, "grad_k_shot"); (3, Pdt, "grad_bz_shot"); (2, Pdt, "grad_by_shot");
  (1, Pdt, "grad_bx_shot"); (3, Pdt, "az"); (3, Pdt, "bz"); (3, Pdt, "azh"); (3, Pdt, "bzh"); (2, Pdt, "ay");
  (2, Pdt, "by"); (2, Pdt, "ayh"); (2, Pdt, "byh"); (1, Pdt, "ax"); (1, Pdt, "bx"); (1, Pdt, "axh");
  (1, Pdt, "bxh"); (1, Pi64, "sources_i_p"); (3, Pi64, "sources_i_vz"); (2, Pi64, "sources_i_vy");
  (1, Pi64, "sources_i_vx"); (1, Pi64, "receivers_i_p"); (3, Pi64, "receivers_i_vz"); (2, Pi64, "receivers_i_vy");
  (1, Pi64, "receivers_i_vx"); (3, Sdt, "rdz_h"); (2, Sdt, "rdy_h"); (1, Sdt, "rdx_h"); (1, Sdt, "dt_h");
  (1, Si64, "nt"); (1, Si64, "n_shots_h"); (3, Si64, "nz_h"); (2, Si64, "ny_h"); (1, Si64, "nx_h");
  (1, Si64, "n_sources_p_per_shot_h"); (3, Si64, "n_sources_vz_per_shot_h"); (2, Si64, "n_sources_vy_per_shot_h");
  (1, Si64, "n_sources_vx_per_shot_h"); (1, Si64, "n_receivers_p_per_shot_h");
  (3, Si64, "n_receivers_vz_per_shot_h"); (2, Si64, "n_receivers_vy_per_shot_h");
  (1, Si64, "n_receivers_vx_per_shot_h"); (1, Si64, "step_ratio_h"); (1, Si64, "storage_mode");
  (1, Ssize, "shot_bytes_uncomp"); (1, Ssize, "shot_bytes_comp"); (1, Sbool, "k_requires_grad");
  (1, Sbool, "b_requires_grad"); (1, Sbool, "k_batched_h"); (1, Sbool, "b_batched_h");
  (1, Sbool, "storage_compression"); (1, Si64, "start_t"); (3, Si64, "pml_z0_h"); (2, Si64, "pml_y0_h");
  (1, Si64, "pml_x0_h"); (3, Si64, "pml_z1_h"); (2, Si64, "pml_y1_h"); (1, Si64, "pml_x1_h"); (1, Si64, "device");
  (1, Pstream, "stream_compute")].

(** elastic.cu:1729-1924 *)
Definition ElF_cuda : list cparam := [
  (1, Pdt, "lamb"); (1, Pdt, "mu"); (3, Pdt, "mu_zy"); (3, Pdt, "mu_zx"); (2, Pdt, "mu_yx");
  (3, Pdt, "buoyancy_z"); (2, Pdt, "buoyancy_y"); (1, Pdt, "buoyancy_x"); (3, Pdt, "f_z"); (2, Pdt, "f_y");
  (1, Pdt, "f_x"); (1, Pdt, "f_p"); (3, Pdt, "vz"); (3, Pdt, "sigmazz"); (3, Pdt, "sigmayz"); (3, Pdt, "sigmaxz");
  (3, Pdt, "m_vzz"); (3, Pdt, "m_vzy"); (3, Pdt, "m_vzx"); (3, Pdt, "m_vyz"); (3, Pdt, "m_vxz");
  (3, Pdt, "m_sigmazzz"); (3, Pdt, "m_sigmayzy"); (3, Pdt, "m_sigmaxzx"); (3, Pdt, "m_sigmayzz");
  (3, Pdt, "m_sigmaxzz"); (2, Pdt, "vy"); (2, Pdt, "sigmayy"); (2, Pdt, "sigmaxy"); (2, Pdt, "m_vyy");
  (2, Pdt, "m_vyx"); (2, Pdt, "m_vxy"); (2, Pdt, "m_sigmayyy"); (2, Pdt, "m_sigmaxyy"); (2, Pdt, "m_sigmaxyx");
  (1, Pdt, "vx"); (1, Pdt, "sigmaxx"); (1, Pdt, "m_vxx"); (1, Pdt, "m_sigmaxxx");
  (3, Pdt, "dvzdbuoyancy_store_1a"); (3, Pdt, "dvzdbuoyancy_store_1b"); (3, Pvoid, "dvzdbuoyancy_store_2");
  (3, Pvoid, "dvzdbuoyancy_store_3"); (3, Pstr, "dvzdbuoyancy_filenames_ptr"); (3, Pdt, "dvzdz_store_1a");
  (3, Pdt, "dvzdz_store_1b"); (3, Pvoid, "dvzdz_store_2"); (3, Pvoid, "dvzdz_store_3");
  (3, Pstr, "dvzdz_filenames_ptr"); (3, Pdt, "dvzdx_plus_dvxdz_store_1a"); (3, Pdt, "dvzdx_plus_dvxdz_store_1b");
  (3, Pvoid, "dvzdx_plus_dvxdz_store_2"); (3, Pvoid, "dvzdx_plus_dvxdz_store_3");
  (3, Pstr, "dvzdx_plus_dvxdz_filenames_ptr"); (3, Pdt, "dvzdy_plus_dvydz_store_1a");
  (3, Pdt, "dvzdy_plus_dvydz_store_1b"); (3, Pvoid, "dvzdy_plus_dvydz_store_2");
  (3, Pvoid, "dvzdy_plus_dvydz_store_3"); (3, Pstr, "dvzdy_plus_dvydz_filenames_ptr");
  (2, Pdt, "dvydbuoyancy_store_1a"); (2, Pdt, "dvydbuoyancy_store_1b"); (2, Pvoid, "dvydbuoyancy_store_2");
  (2, Pvoid, "dvydbuoyancy_store_3"); (2, Pstr, "dvydbuoyancy_filenames_ptr"); (2, Pdt, "dvydy_store_1a");
  (2, Pdt, "dvydy_store_1b"); (2, Pvoid, "dvydy_store_2"); (2, Pvoid, "dvydy_store_3");
  (2, Pstr, "dvydy_filenames_ptr"); (2, Pdt, "dvydx_plus_dvxdy_store_1a"); (2, Pdt, "dvydx_plus_dvxdy_store_1b");
  (2, Pvoid, "dvydx_plus_dvxdy_store_2"); (2, Pvoid, "dvydx_plus_dvxdy_store_3");
  (2, Pstr, "dvydx_plus_dvxdy_filenames_ptr"); (1, Pdt, "dvxdbuoyancy_store_1a");
  (1, Pdt, "dvxdbuoyancy_store_1b"); (1, Pvoid, "dvxdbuoyancy_store_2"); (1, Pvoid, "dvxdbuoyancy_store_3");
  (1, Pstr, "dvxdbuoyancy_filenames_ptr"); (1, Pdt, "dvxdx_store_1a"); (1, Pdt, "dvxdx_store_1b");
  (1, Pvoid, "dvxdx_store_2"); (1, Pvoid, "dvxdx_store_3"); (1, Pstr, "dvxdx_filenames_ptr"); (3, Pdt, "r_z");
  (2, Pdt, "r_y"); (1, Pdt, "r_x"); (1, Pdt, "r_p"); (3, Pdt, "az"); (3, Pdt, "bz"); (3, Pdt, "azh");
  (3, Pdt, "bzh"); (2, Pdt, "ay"); (2, Pdt, "by"); (2, Pdt, "ayh"); (2, Pdt, "byh"); (1, Pdt, "ax");
  (1, Pdt, "bx"); (1, Pdt, "axh"); (1, Pdt, "bxh"); (3, Pi64, "sources_z_i"); (2, Pi64, "sources_y_i");
  (1, Pi64, "sources_x_i"); (1, Pi64, "sources_p_i"); (3, Pi64, "receivers_z_i"); (2, Pi64, "receivers_y_i");
  (1, Pi64, "receivers_x_i"); (1, Pi64, "receivers_p_i"); (3, Sdt, "rdz_h"); (2, Sdt, "rdy_h"); (1, Sdt, "rdx_h");
  (1, Sdt, "dt_h"); (1, Si64, "nt"); (1, Si64, "n_shots_h"); (3, Si64, "nz_h"); (2, Si64, "ny_h");
  (1, Si64, "nx_h"); (3, Si64, "n_sources_z_per_shot_h"); (2, Si64, "n_sources_y_per_shot_h");
  (1, Si64, "n_sources_x_per_shot_h"); (1, Si64, "n_sources_p_per_shot_h"); (3, Si64, "n_receivers_z_per_shot_h");
  (2, Si64, "n_receivers_y_per_shot_h"); (1, Si64, "n_receivers_x_per_shot_h");
  (1, Si64, "n_receivers_p_per_shot_h"); (1, Si64, "step_ratio_h"); (1, Si64, "storage_mode");
  (1, Ssize, "shot_bytes_uncomp"); (1, Ssize, "shot_bytes_comp"); (1, Sbool, "lamb_requires_grad");
  (1, Sbool, "mu_requires_grad"); (1, Sbool, "buoyancy_requires_grad"); (1, Sbool, "lamb_batched_h");
  (1, Sbool, "mu_batched_h"); (1, Sbool, "buoyancy_batched_h"); (1, Sbool, "storage_compression");
  (1, Si64, "start_t"); (3, Si64, "pml_z0_h"); (2, Si64, "pml_y0_h"); (1, Si64, "pml_x0_h"); (3, Si64, "pml_z1_h");
  (2, Si64, "pml_y1_h"); (1, Si64, "pml_x1_h"); (1, Si64, "device"); (1, Pstream, "stream_compute")].

(** elastic.cu:2326-2558 *)
Definition ElB_cuda : list cparam := [
  (1, Pdt, "lamb"); (1, Pdt, "mu"); (3, Pdt, "mu_zy"); (3, Pdt, "mu_zx"); (2, Pdt, "mu_yx");
  (3, Pdt, "buoyancy_z"); (2, Pdt, "buoyancy_y"); (1, Pdt, "buoyancy_x"); (3, Pdt, "grad_r_z");
  (2, Pdt, "grad_r_y"); (1, Pdt, "grad_r_x"); (1, Pdt, "grad_r_p"); (3, Pdt, "vz"); (3, Pdt, "sigmazz");
  (3, Pdt, "sigmayz"); (3, Pdt, "sigmaxz"); (3, Pdt, "m_vzz"); (3, Pdt, "m_vzy"); (3, Pdt, "m_vzx");
  (3, Pdt, "m_vyz"); (3, Pdt, "m_vxz"); (3, Pdt, "m_sigmazzz"); (3, Pdt, "m_sigmayzy"); (3, Pdt, "m_sigmaxzx");
  (3, Pdt, "m_sigmayzz"); (3, Pdt, "m_sigmaxzz"); (2, Pdt, "vy"); (2, Pdt, "sigmayy"); (2, Pdt, "sigmaxy");
  (2, Pdt, "m_vyy"); (2, Pdt, "m_vyx"); (2, Pdt, "m_vxy"); (2, Pdt, "m_sigmayyy"); (2, Pdt, "m_sigmaxyy");
  (2, Pdt, "m_sigmaxyx"); (1, Pdt, "vx"); (1, Pdt, "sigmaxx"); (1, Pdt, "m_vxx"); (1, Pdt, "m_sigmaxxx");
  (3, Pdt, "m_sigmazzzn"); (3, Pdt, "m_sigmayzyn"); (3, Pdt, "m_sigmaxzxn"); (3, Pdt, "m_sigmayzzn");
  (3, Pdt, "m_sigmaxzzn"); (2, Pdt, "m_sigmayyyn"); (2, Pdt, "m_sigmaxyyn"); (2, Pdt, "m_sigmaxyxn");
  (1, Pdt, "m_sigmaxxxn"); (3, Pdt, "dvzdbuoyancy_store_1a"); (3, Pdt, "dvzdbuoyancy_store_1b");
  (3, Pvoid, "dvzdbuoyancy_store_2"); (3, Pvoid, "dvzdbuoyancy_store_3"); (3, Pstr, "dvzdbuoyancy_filenames_ptr");
  (3, Pdt, "dvzdz_store_1a"); (3, Pdt, "dvzdz_store_1b"); (3, Pvoid, "dvzdz_store_2"); (3, Pvoid, "dvzdz_store_3");
  (3, Pstr, "dvzdz_filenames_ptr"); (3, Pdt, "dvzdx_plus_dvxdz_store_1a"); (3, Pdt, "dvzdx_plus_dvxdz_store_1b");
  (3, Pvoid, "dvzdx_plus_dvxdz_store_2"); (3, Pvoid, "dvzdx_plus_dvxdz_store_3");
  (3, Pstr, "dvzdx_plus_dvxdz_filenames_ptr"); (3, Pdt, "dvzdy_plus_dvydz_store_1a");
  (3, Pdt, "dvzdy_plus_dvydz_store_1b"); (3, Pvoid, "dvzdy_plus_dvydz_store_2");
  (3, Pvoid, "dvzdy_plus_dvydz_store_3"); (3, Pstr, "dvzdy_plus_dvydz_filenames_ptr");
  (2, Pdt, "dvydbuoyancy_store_1a"); (2, Pdt, "dvydbuoyancy_store_1b"); (2, Pvoid, "dvydbuoyancy_store_2");
  (2, Pvoid, "dvydbuoyancy_store_3"); (2, Pstr, "dvydbuoyancy_filenames_ptr"); (2, Pdt, "dvydy_store_1a");
  (2, Pdt, "dvydy_store_1b"); (2, Pvoid, "dvydy_store_2"); (2, Pvoid, "dvydy_store_3");
  (2, Pstr, "dvydy_filenames_ptr"); (2, Pdt, "dvydx_plus_dvxdy_store_1a"); (2, Pdt, "dvydx_plus_dvxdy_store_1b");
  (2, Pvoid, "dvydx_plus_dvxdy_store_2"); (2, Pvoid, "dvydx_plus_dvxdy_store_3");
  (2, Pstr, "dvydx_plus_dvxdy_filenames_ptr"); (1, Pdt, "dvxdbuoyancy_store_1a");
  (1, Pdt, "dvxdbuoyancy_store_1b"); (1, Pvoid, "dvxdbuoyancy_store_2"); (1, Pvoid, "dvxdbuoyancy_store_3");
  (1, Pstr, "dvxdbuoyancy_filenames_ptr"); (1, Pdt, "dvxdx_store_1a"); (1, Pdt, "dvxdx_store_1b");
  (1, Pvoid, "dvxdx_store_2"); (1, Pvoid, "dvxdx_store_3"); (1, Pstr, "dvxdx_filenames_ptr"); (3, Pdt, "grad_f_z");
  (2, Pdt, "grad_f_y"); (1, Pdt, "grad_f_x"); (1, Pdt, "grad_f_p"); (1, Pdt, "grad_lamb"); (1, Pdt, "grad_mu");
  (3, Pdt, "grad_mu_zy"); (3, Pdt, "grad_mu_zx"); (2, Pdt, "grad_mu_yx"); (3, Pdt, "grad_buoyancy_z");
  (2, Pdt, "grad_buoyancy_y"); (1, Pdt, "grad_buoyancy_x"); (1, Pdt, "grad_lamb_shot"); (1, Pdt, "grad_mu_shot");
  (3, Pdt, "grad_mu_zy_shot"); (3, Pdt, "grad_mu_zx_shot"); (2, Pdt, "grad_mu_yx_shot");
  (3, Pdt, "grad_buoyancy_z_shot"); (2, Pdt, "grad_buoyancy_y_shot"); (1, Pdt, "grad_buoyancy_x_shot");
  (3, Pdt, "az"); (3, Pdt, "bz"); (3, Pdt, "azh"); (3, Pdt, "bzh"); (2, Pdt, "ay"); (2, Pdt, "by");
  (2, Pdt, "ayh"); (2, Pdt, "byh"); (1, Pdt, "ax"); (1, Pdt, "bx"); (1, Pdt, "axh"); (1, Pdt, "bxh");
  (3, Pi64, "sources_z_i"); (2, Pi64, "sources_y_i"); (1, Pi64, "sources_x_i"); (1, Pi64, "sources_p_i");
  (3, Pi64, "receivers_z_i"); (2, Pi64, "receivers_y_i"); (1, Pi64, "receivers_x_i"); (1, Pi64, "receivers_p_i");
  (3, Sdt, "rdz_h"); (2, Sdt, "rdy_h"); (1, Sdt, "rdx_h"); (1, Sdt, "dt_h"); (1, Si64, "nt");
  (1, Si64, "n_shots_h"); (3, Si64, "nz_h"); (2, Si64, "ny_h"); (1, Si64, "nx_h");
  (3, Si64, "n_sources_z_per_shot_h"); (2, Si64, "n_sources_y_per_shot_h"); (1, Si64, "n_sources_x_per_shot_h");
  (1, Si64, "n_sources_p_per_shot_h"); (3, Si64, "n_receivers_z_per_shot_h");
  (2, Si64, "n_receivers_y_per_shot_h"); (1, Si64, "n_receivers_x_per_shot_h");
  (1, Si64, "n_receivers_p_per_shot_h"); (1, Si64, "step_ratio_h"); (1, Si64, "storage_mode");
  (1, Ssize, "shot_bytes_uncomp"); (1, Ssize, "shot_bytes_comp"); (1, Sbool, "lamb_requires_grad");
  (1, Sbool, "mu_requires_grad"); (1, Sbool, "buoyancy_requires_grad"); (1, Sbool, "lamb_batched_h");
  (1, Sbool, "mu_batched_h"); (1, Sbool, "buoyancy_batched_h"); (1, Sbool, "storage_compression");
  (1, Si64, "start_t"); (3, Si64, "pml_z0_h"); (2, Si64, "pml_y0_h"); (1, Si64, "pml_x0_h"); (3, Si64, "pml_z1_h");
  (2, Si64, "pml_y1_h"); (1, Si64, "pml_x1_h"); (1, Si64, "device"); (1, Pstream, "stream_compute")].
