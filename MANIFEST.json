{
 "claims": [
  {
   "property": "C01",
   "status": "proved",
   "theorems": [
    "C01_scalar_linear_gradient"
   ],
   "note": ""
  },
  {
   "property": "C02",
   "status": "proved",
   "theorems": [
    "C02_scalar_gradient_exact"
   ],
   "note": "exact for one snapshot per internal step"
  },
  {
   "property": "C03",
   "status": "proved",
   "theorems": [
    "C03_scalar_gradient_sampled",
    "C03_contribution_exists",
    "C03_other_gradients_independent",
    "C03_interval_2_not_exact"
   ],
   "note": "includes a witness that interval 2 is not exact"
  },
  {
   "property": "C04",
   "status": "partial",
   "theorems": [
    "C04_born_is_derivative_partial",
    "C04_born_any_sources_partial",
    "C04_padding_refuted"
   ],
   "note": "stated for the padded models the kernels receive, with the source scaling included; the user-level models differ because scatter is padded with zeros (C04_padding_refuted)"
  },
  {
   "property": "C05",
   "status": "proved",
   "theorems": [
    "C05_born_gradient_exact",
    "C05_born_linear_gradient",
    "C05_backward_sc"
   ],
   "note": "derivative of both models with every step stored; sources and initial wavefields for any snapshot interval; backward_sc for all inputs"
  },
  {
   "property": "C06",
   "status": "partial",
   "theorems": [
    "C06_acoustic_gradient_partial",
    "C06_acoustic_linear_gradient_partial",
    "C06_narrow_refuted"
   ],
   "note": "Any dimension, shape, accuracy, PML, step count, visiting order; requires each padded dimension to be at least 3 stencil halves wider than its first PML (sroom). C06_narrow_refuted: without that the backward kernel returns wrong gradients. Model gradients exact when every step is stored; source and wavefield gradients exact for any step ratio."
  },
  {
   "property": "C07",
   "status": "partial",
   "theorems": [
    "C07_elastic_gradient_partial",
    "C07_elastic_linear_gradient_partial",
    "C07_narrow_refuted"
   ],
   "note": "Any dimension, shape, accuracy, PML, step count, visiting order; requires each padded dimension to be at least 3 stencil halves wider than its first PML (sroom). C07_narrow_refuted: without that the backward kernel returns wrong gradients. Model gradients exact when every step is stored; source and wavefield gradients exact for any step ratio. Gradients are with respect to the staggered models (mu and buoyancy averages); the averaging itself (prepare_parameters) is not part of this theorem."
  },
  {
   "property": "C08",
   "status": "partial",
   "theorems": [
    "C08_backends_agree_partial",
    "C08_zero_steps_refuted"
   ],
   "note": "for runs with at least one step the two backends agree; the zero-step difference in the PML fields is C08_zero_steps_refuted"
  },
  {
   "property": "C09",
   "status": "proved",
   "theorems": [
    "C09_born_callbacks_passive",
    "C09_callbacks_passive",
    "C09_callback_calls",
    "C09_acoustic_callbacks_passive",
    "C09_elastic_callbacks_passive",
    "C09_acoustic_callback_calls",
    "C09_elastic_callback_calls"
   ],
   "note": "scalar, Born, acoustic and elastic"
  },
  {
   "property": "C10",
   "status": "partial",
   "theorems": [
    "C10_born_backward_callbacks_passive",
    "C10_other_gradients",
    "C10_model_gradient_partial",
    "C10_threads_refuted",
    "C10_acoustic_backward_callbacks_passive",
    "C10_elastic_backward_callbacks_passive",
    "C10_acoustic_other_gradients",
    "C10_acoustic_model_gradient_partial",
    "C10_acoustic_threads_refuted",
    "C10_elastic_other_gradients",
    "C10_elastic_model_gradient_partial",
    "C10_elastic_threads_refuted"
   ],
   "note": "scalar, acoustic and elastic; gradients of wavefields and sources: proved for all; model gradient: proved for a batched model or one thread, false for a shared model with several threads (C10_threads_refuted, C10_acoustic_threads_refuted, C10_elastic_threads_refuted); Born: one thread or a batched model"
  },
  {
   "property": "C11",
   "status": "proved",
   "theorems": [
    "C11_sum_of_shots",
    "C11_any_threads",
    "C11_acoustic_sum_of_shots",
    "C11_acoustic_any_threads",
    "C11_elastic_sum_of_shots",
    "C11_elastic_any_threads"
   ],
   "note": "scalar, acoustic and elastic kernels; threads interleave at the granularity of one cell update or one injection/recording of a shot"
  },
  {
   "property": "C12",
   "status": "partial",
   "theorems": [
    "C12_born_all_steps_partial",
    "C12_born_truncated",
    "C12_born_short_run_raises",
    "C12_all_steps_partial",
    "C12_source_samples",
    "C12_truncated",
    "C12_short_run_raises",
    "C12_refuted",
    "C12_acoustic_truncated",
    "C12_elastic_truncated",
    "C12_acoustic_all_steps_partial",
    "C12_elastic_all_steps_partial",
    "C12_acoustic_source_samples",
    "C12_elastic_source_samples",
    "C12_acoustic_short_raises",
    "C12_elastic_short_raises"
   ],
   "note": "scalar, Born, acoustic and elastic: proved when the interval divides the number of steps; false otherwise (C12_refuted, C12_truncated, C12_short_run_raises and their analogues)"
  },
  {
   "property": "C13",
   "status": "proved",
   "theorems": [
    "C13_born_superposition",
    "C13_superposition",
    "C13_acoustic_superposition",
    "C13_elastic_superposition"
   ],
   "note": "scalar, Born, acoustic and elastic"
  },
  {
   "property": "C14",
   "status": "proved",
   "theorems": [
    "C14_born_time_reversal",
    "C14_time_reversal"
   ],
   "note": "scalar and Born; the staggered propagators are C51"
  },
  {
   "property": "C15",
   "status": "partial",
   "theorems": [
    "C15_born_restart_partial",
    "C15_restart_partial",
    "C15_refuted",
    "C15_acoustic_restart_partial",
    "C15_elastic_restart_partial"
   ],
   "note": "scalar, Born, acoustic and elastic: proved when the first run is a multiple of the storage interval; false otherwise (C15_refuted)"
  },
  {
   "property": "C16",
   "status": "proved",
   "theorems": [
    "C16_first",
    "C16_second",
    "C16_staggered",
    "C16_sharp"
   ],
   "note": ""
  },
  {
   "property": "C17",
   "status": "proved",
   "theorems": [
    "C17_symmetry"
   ],
   "note": ""
  },
  {
   "property": "C18",
   "status": "proved",
   "theorems": [
    "C18_born_ignored_source",
    "C18_born_ignored_receiver",
    "C18_born_ignored_source_gradient",
    "C18_ignored_source",
    "C18_ignored_receiver",
    "C18_ignored_source_gradient",
    "C18_acoustic_ignored_source",
    "C18_elastic_ignored_source",
    "C18_acoustic_ignored_receiver",
    "C18_elastic_ignored_receiver",
    "C18_acoustic_ignored_source_gradient",
    "C18_elastic_ignored_source_gradient"
   ],
   "note": "scalar, Born, acoustic and elastic"
  },
  {
   "property": "C19",
   "status": "partial",
   "theorems": [
    "C19_location_cell",
    "C19_ignored",
    "C19_injective",
    "C19_unique",
    "C19_kernel_locations",
    "C19_partly_ignored_refuted"
   ],
   "note": "proved for locations that are fully active or fully ignored; a location with only some coordinates ignored is mapped to a halo cell (C19_partly_ignored_refuted)"
  },
  {
   "property": "C20",
   "status": "partial",
   "theorems": [
    "C20_survey_area",
    "C20_all_ignored_refuted"
   ],
   "note": "proved whenever some location is active (or no padding is requested); with all locations ignored the area is inverted (C20_all_ignored_refuted)"
  },
  {
   "property": "C21",
   "status": "proved",
   "theorems": [
    "C21_padded_models"
   ],
   "note": "survey area inside the model, non-empty batch"
  },
  {
   "property": "C22",
   "status": "proved",
   "theorems": [
    "C22_forward_reads",
    "C22_backward_reads",
    "C22_forward_writes",
    "C22_backward_writes",
    "C22_acoustic_forward_reads",
    "C22_acoustic_backward_reads",
    "C22_acoustic_forward_writes",
    "C22_acoustic_backward_writes",
    "C22_elastic_forward_reads",
    "C22_elastic_backward_reads",
    "C22_elastic_forward_writes",
    "C22_elastic_backward_writes"
   ],
   "note": "arrays poisoned outside their allocation give unpoisoned results, and writes stay inside the shot's block, for the scalar, acoustic and elastic kernels (the latter two for any sequence of actions of a call, the sum over threads included); Born and double-backward kernels, and the flat layout of the snapshot buffer and files, are not covered here"
  },
  {
   "property": "C23",
   "status": "proved",
   "theorems": [
    "C23_read_back",
    "C23_inside"
   ],
   "note": "CPU backend: modes device and disk (cpu is mapped to device there), with the kernel's snapshot values as an arbitrary function of shot, step and cell; the CUDA path (store_3, streams) is not modelled"
  },
  {
   "property": "C24",
   "status": "proved",
   "theorems": [
    "C24_error",
    "C24_size",
    "C24_conversion",
    "C24_read_back"
   ],
   "note": "over exact reals; the CUDA compression kernel is not modelled"
  },
  {
   "property": "C25",
   "status": "proved",
   "theorems": [
    "C25_cfl",
    "C25_returns",
    "C25_zero_dt_raises"
   ],
   "note": "over exact reals; dt = 0 raises (C25_zero_dt_raises)"
  },
  {
   "property": "C26",
   "status": "proved",
   "theorems": [
    "C26_conserved",
    "C26_positive",
    "C26_stable",
    "C26_increments"
   ],
   "note": "exact conservation in any ring; positivity, boundedness of values and increments over exact reals with the code's CFL time step; zero-wavespeed cells included (values bounded only if such cells start at rest)"
  },
  {
   "property": "C27",
   "status": "proved",
   "theorems": [
    "C27_born_reciprocity",
    "C27_reciprocity"
   ],
   "note": "scalar and Born (scattered data); the staggered propagators are C52"
  },
  {
   "property": "C28",
   "status": "proved",
   "theorems": [
    "C28_born_causality",
    "C28_born_finite_speed",
    "C28_causality",
    "C28_finite_speed",
    "C28_acoustic_finite_speed",
    "C28_elastic_finite_speed",
    "C28_acoustic_causality",
    "C28_elastic_causality"
   ],
   "note": "causality and finite speed for scalar, Born, acoustic and elastic"
  },
  {
   "property": "C29",
   "status": "partial",
   "theorems": [
    "C29_profiles_partial",
    "C29_geom_ok",
    "C29_zero_freq_refuted",
    "C29_staggered_geom"
   ],
   "note": "proved for pml_freq > 0, including that the parameters built from the profiles (scalar and staggered) satisfy the geometry conditions of the kernels. The API accepts pml_freq = 0, for which 0/0 is evaluated (C29_zero_freq_refuted)"
  },
  {
   "property": "C30",
   "status": "proved",
   "theorems": [
    "C30_forward",
    "C30_backward",
    "C30_acoustic_forward",
    "C30_acoustic_backward",
    "C30_elastic_forward",
    "C30_elastic_backward"
   ],
   "note": "scalar, acoustic and elastic kernels; forward and backward, any interleaving of the shots"
  },
  {
   "property": "C31",
   "status": "partial",
   "theorems": [
    "C31_round_trip",
    "C31_round_trip_odd",
    "C31_odd_refuted",
    "C31_interpolates",
    "C31_ratio_one",
    "C31_upsample_length",
    "C31_downsample_length",
    "C31_upsample_linear",
    "C31_downsample_linear"
   ],
   "note": "Over the reals, for every length, ratio and index. The round trip removes exactly the Nyquist component when the length is even (C31_round_trip). For odd lengths there is no Nyquist component but the code still zeroes the last rfft bin, a genuine frequency: C31_round_trip_odd gives what is removed and C31_odd_refuted is the counterexample to the claim as worded. Lengths and linearity hold for every taper, padding, window and shift."
  },
  {
   "property": "C32",
   "status": "proved",
   "theorems": [
    "C32_views",
    "C32_inner_model"
   ],
   "note": ""
  },
  {
   "property": "C33",
   "status": "partial",
   "theorems": [
    "C33_agrees_partial",
    "C33_consistent_accepted",
    "C33_range_refuted",
    "C33_z_field_refuted",
    "C33_scalar_refuted"
   ],
   "note": "agreement of all inputs and acceptance of consistent inputs proved; the range 1..3 is not enforced and a leading z/y field or a rank-0 tensor escapes the check (C33_*_refuted)"
  },
  {
   "property": "C34",
   "status": "partial",
   "theorems": [
    "C34_transpose",
    "C34_spread",
    "C34_gather",
    "C34_locations",
    "C34_weights",
    "C34_free_surface_partial",
    "C34_float32_refuted",
    "C34_cache_refuted"
   ],
   "note": "Exact arithmetic: transposition, no loss or double count, distinct locations and (without free surfaces) the weights, for all locations, batches and amplitudes; weight functions arbitrary; image weights for the first location with its fraction. Refuted: binary32 cells (a contribution is lost) and the weight cache with free surfaces (weights depend on other points). One time sample."
  },
  {
   "property": "C35",
   "status": "proved",
   "theorems": [
    "C35_round_trip",
    "C35_exact_without_eps"
   ],
   "note": "over exact reals, with explicit bounds in the code's eps"
  },
  {
   "property": "C36",
   "status": "partial",
   "theorems": [
    "C36_unique",
    "C36_types_partial",
    "C36_call_order_cpu_partial",
    "C36_call_order_cuda",
    "C36_scattered_refuted"
   ],
   "note": "All 9 functions, 3 dimensions, 4 accuracies, 2 dtypes, 2 devices. The parameter lists of the C and CUDA functions are transcribed in AbiTables.v. Refuted for the CPU version of scalar_born backward_sc: Python declares and passes one argument (the stream) more than the function has parameters (C36_scattered_refuted); every other argument agrees."
  },
  {
   "property": "C37",
   "status": "partial",
   "theorems": [
    "C37_double_backward_exact",
    "C37_truncated_refuted"
   ],
   "note": "Exact when every step is stored (model_gradient_sampling_interval 1 and no internal time step refinement in the gradient interval). When the interval does not divide the number of steps the claim is false of the code: C37_truncated_refuted. Intervals above 1 that divide the number of steps give sampled first gradients, whose derivative is not compared."
  },
  {
   "property": "C38",
   "status": "partial",
   "theorems": [
    "C38_writes_inside_partial",
    "C38_reads_inside_partial",
    "C38_refuted"
   ],
   "note": "Proved when the sampling interval divides the number of steps. False otherwise: C38_refuted gives the out-of-bounds slot."
  },
  {
   "property": "C39",
   "status": "proved",
   "theorems": [
    "C39_acoustic_backends_agree"
   ],
   "note": "one shot, eager whole-array formulas (vmap, jit and compile modes are taken to compute the same formulas); locations not ignored lie inside the domain of their wavefield"
  },
  {
   "property": "C40",
   "status": "partial",
   "theorems": [
    "C40_scalar",
    "C40_born",
    "C40_acoustic",
    "C40_elastic_partial",
    "C40_python",
    "C40_elastic_python_partial",
    "C40_models_3d_refuted",
    "C40_last_refuted",
    "C40_python_shear_2d_refuted",
    "C40_python_shear_3d_refuted"
   ],
   "note": "Tensors abstract; dictionaries, argument lists and parameter names as in the code, all dimensions. Proved for scalar, Born, acoustic (compiled and Python) and for the elastic wavefields and 1-D/2-D models. Refuted: 3-D elastic model names (C40_models_3d_refuted), m_sigmaxxx_0 missing in elastic backward callbacks (C40_last_refuted), shear names in elastic_python (C40_python_shear_*_refuted)."
  },
  {
   "property": "C41",
   "status": "proved",
   "theorems": [
    "C41_born_zero_steps",
    "C41_zero_steps",
    "C41_acoustic_zero_steps",
    "C41_elastic_zero_steps"
   ],
   "note": "scalar, Born, acoustic and elastic"
  },
  {
   "property": "C42",
   "status": "proved",
   "theorems": [
    "C42_amplitudes"
   ],
   "note": "an amplitude tensor without shots or sources keeps its length"
  },
  {
   "property": "C43",
   "status": "proved",
   "theorems": [
    "C43_born_backends_agree"
   ],
   "note": "for runs with at least one step the PML fields agree too"
  },
  {
   "property": "C44",
   "status": "proved",
   "theorems": [
    "C44_born_writes",
    "C44_born_reads"
   ],
   "note": "model of the kernels for one shot; allocation itself is read off scalar_born.py:705-710, not modelled"
  },
  {
   "property": "C45",
   "status": "proved",
   "theorems": [
    "C45_elastic_backends_agree"
   ],
   "note": "elastic_python returns receiver_amplitudes rather than the masked copy it computes; the theorem covers this (ignored receivers read a padding cell that stays zero)."
  },
  {
   "property": "C46",
   "status": "proved",
   "theorems": [
    "C46_scalar_equation",
    "C46_acoustic_equations",
    "C46_elastic_equations"
   ],
   "note": "Exact arithmetic, one shot, after padding and model preparation: the models are the padded bulk modulus / Lame parameters and the staggered averages. Existence of a trajectory that satisfies the equations at every step and from which outputs and receivers are read; step_ratio of the time resampling is 1. Compiled backend; the Python backends agree by C08, C39 and C45."
  },
  {
   "property": "C47",
   "status": "proved",
   "theorems": [
    "C47_initial",
    "C47_outputs",
    "C47_elastic_python",
    "C47_swap",
    "C47_parse",
    "C47_gradients",
    "C47_gradients_scattered",
    "C47_gradients_double"
   ],
   "note": "Tensors abstract; padding, views and zeroing of edges keep positions and are not part of this model (see C32, C33)."
  },
  {
   "property": "C48",
   "status": "partial",
   "theorems": [
    "C48_conserved",
    "C48_positive",
    "C48_stable_partial",
    "C48_refuted"
   ],
   "note": "conservation in any ring, heterogeneous models; positivity and boundedness over exact reals with the code's CFL time step and prepared models, if densities within accuracy/2 cells differ by at most a factor 100, 36, 16 (accuracy 4, 6, 8; no restriction for 2). False without that bound: C48_refuted (steel and air, accuracy 4, grows sixfold per step). No PML."
  },
  {
   "property": "C49",
   "status": "proved",
   "theorems": [
    "C49_conserved",
    "C49_strain"
   ],
   "note": "conservation in any ring; no positivity or stability statement for the elastic energy. No PML."
  },
  {
   "property": "C50",
   "status": "proved",
   "theorems": [
    "C50_acoustic_buoyancy",
    "C50_elastic_shear",
    "C50_elastic_buoyancy"
   ],
   "note": "over exact reals, values above the cut-off of the guarded inverse (1 / sqrt of the largest float in the code, a parameter here)"
  },
  {
   "property": "C51",
   "status": "proved",
   "theorems": [
    "C51_acoustic_time_reversal",
    "C51_elastic_time_reversal"
   ],
   "note": "Acoustic and elastic. The reversed run starts from the velocities of one step further, because velocities and stresses are known at different half steps."
  },
  {
   "property": "C52",
   "status": "partial",
   "theorems": [
    "C52_acoustic_reciprocity",
    "C52_acoustic_mixed",
    "C52_elastic_force",
    "C52_elastic_pressure_partial",
    "C52_elastic_pressure_refuted",
    "C52_elastic_mixed"
   ],
   "note": "Acoustic proved for all pairs of kinds. Elastic: forces and velocities proved, pressure source against velocity receiver proved with the factor nd*lamb+2*mu at the source. Two pressures: false as worded (refuted), proved after weighting with that factor."
  },
  {
   "property": "C53",
   "status": "partial",
   "theorems": [
    "C53_preconditions",
    "C53_runs",
    "C53_interval_zero_refuted"
   ],
   "note": "Exact reals, no initial wavefields, no callbacks. Proved for locations ignored in all or no coordinates, a non-empty survey area, pml_freq other than 0 (see C19, C20, C29 for these) and a positive interval not longer than the run; interval 0 is accepted and divides by zero (C53_interval_zero_refuted)."
  },
  {
   "property": "C54",
   "status": "proved",
   "theorems": [
    "C54_survey_area",
    "C54_survey_pad"
   ],
   "note": "scalar; exact reals, no initial wavefields, no callbacks"
  },
  {
   "property": "C55",
   "status": "proved",
   "theorems": [
    "C55_born_linear",
    "C55_born_linear_scatter"
   ],
   "note": ""
  },
  {
   "property": "C56",
   "status": "proved",
   "theorems": [
    "C56_scalar_solves"
   ],
   "note": "calls of scalar without initial wavefields and callbacks"
  },
  {
   "property": "C57",
   "status": "partial",
   "theorems": [
    "C57_acoustic_solves",
    "C57_velocity_locations",
    "C57_time_step",
    "C57_velocity_locations_refuted"
   ],
   "note": "calls of acoustic without initial wavefields and callbacks. The equations, data and wavefields are proved; that every accepted velocity location is an updated cell holds for survey_pad None or a PML at the far side (C57_velocity_locations) and is false otherwise (C57_velocity_locations_refuted)"
  },
  {
   "property": "C58",
   "status": "partial",
   "theorems": [
    "C58_elastic_solves",
    "C58_velocity_locations",
    "C58_velocity_locations_refuted",
    "C58_time_step"
   ],
   "note": "calls of elastic without initial wavefields and callbacks. The equations, data and wavefields are proved; that every accepted velocity location is an updated cell holds for survey_pad None or a PML at the far side (C58_velocity_locations) and is false otherwise (C58_velocity_locations_refuted)"
  },
  {
   "property": "C59",
   "status": "partial",
   "theorems": [
    "C59_forward",
    "C59_backward",
    "C59_gradient_partial",
    "C59_runs",
    "C59_callback_gradient_refuted",
    "C59_same_cell_refuted",
    "C59_shots_limit"
   ],
   "note": "Forward runs, wavefield and source gradients are proved for every interleaving. The wavespeed gradient is proved except for a shared model with several shots and backward callbacks, where it is false (C59_callback_gradient_refuted). Snapshots on the device without compression"
  },
  {
   "property": "C60",
   "status": "partial",
   "theorems": [
    "C60_snapshots_partial",
    "C60_forward",
    "C60_runs",
    "C60_last_snapshot_refuted"
   ],
   "note": "proved for acoustic and elastic, and for scalar and scalar_born if there is a snapshot in every step or the number of snapshots is odd at the end of each call; otherwise false of scalar and scalar_born (C60_last_snapshot_refuted). C60_forward: the snapshots are right once all commands have finished"
  },
  {
   "property": "C61",
   "status": "partial",
   "theorems": [
    "C61_scalar",
    "C61_scalar_misfit",
    "C61_born_data",
    "C61_born",
    "C61_born_misfit",
    "C61_acoustic_partial",
    "C61_elastic_partial"
   ],
   "note": "proved for scalar and scalar_born (C61_scalar, C61_scalar_misfit, C61_born, C61_born_misfit, C61_born_data); for acoustic and elastic only with room for the backward kernel in each dimension, where C06 and C07 are proved (elsewhere C06_narrow_refuted, C07_narrow_refuted). Gradients with a snapshot in every step"
  },
  {
   "property": "C62",
   "status": "proved",
   "theorems": [
    "C62_as_cpu",
    "C62_error",
    "C62_inside"
   ],
   "note": "exact arithmetic; up to 2^31 - 1 blocks, the limit of a launch (more are rejected or, from 2^32 on, truncated)"
  },
  {
   "property": "C63",
   "status": "partial",
   "theorems": [
    "C63_acoustic_forward",
    "C63_acoustic_backward",
    "C63_acoustic_gradient_partial",
    "C63_acoustic_runs",
    "C63_elastic_forward",
    "C63_elastic_backward",
    "C63_elastic_gradient_partial",
    "C63_elastic_runs",
    "C63_callback_gradient_refuted"
   ],
   "note": "forward, backward and existence of runs proved for acoustic and elastic; the model gradient not for a shared model with several shots and callbacks, where it is wrong (C63_callback_gradient_refuted). Sources (backward: receivers) of one shot and kind in different cells, which setup_propagator checks"
  },
  {
   "property": "C64",
   "status": "partial",
   "theorems": [
    "C64_forward",
    "C64_snapshots",
    "C64_backward",
    "C64_velocity_gradient_partial",
    "C64_scatter_gradient_partial",
    "C64_runs",
    "C64_callback_gradient_refuted"
   ],
   "note": "forward, backward and existence of runs proved; the gradients of wavespeed and scattering potential not for a shared model with several shots and callbacks, where they are wrong (C64_callback_gradient_refuted). Sources (backward: receivers) of one shot and kind in different cells, which setup_propagator checks. The kernels for the scattered wavefield alone (backward_sc) are not modelled"
  },
  {
   "property": "C65",
   "status": "proved",
   "theorems": [
    "C65_born_solves",
    "C65_unique",
    "C65_background",
    "C65_background_area",
    "C65_linear",
    "C65_time_step"
   ],
   "note": "calls of scalar_born without initial wavefields and callbacks"
  },
  {
   "property": "C66",
   "status": "partial",
   "theorems": [
    "C66_backward",
    "C66_scatter_gradient_partial",
    "C66_reduced_is_full",
    "C66_runs",
    "C66_callback_gradient_refuted"
   ],
   "note": "C66_callback_gradient_refuted: false for the gradient of a shared scattering potential with several shots and callbacks; proved otherwise"
  },
  {
   "property": "C67",
   "status": "proved",
   "theorems": [
    "C67_accepts",
    "C67_samples",
    "C67_second_derivative",
    "C67_units",
    "C67_symmetric"
   ],
   "note": "over the reals; the dtype only concerns rounding"
  },
  {
   "property": "C68",
   "status": "proved",
   "theorems": [
    "C68_device_is_cpu",
    "C68_device_solves",
    "C68_runs"
   ],
   "note": "over the reals; no initial wavefields or callbacks at this level (C59 has them)"
  },
  {
   "property": "C69",
   "status": "proved",
   "theorems": [
    "C69_gradient",
    "C69_outside",
    "C69_ignored"
   ],
   "note": "over the reals; max_vel given, step ratio and gradient sampling interval one (as stated), no initial wavefields or callbacks at this level (C61 has them); the gradient of the Python code around the kernels is modelled as the sum over the copies of a cell and the product rule for the scaled amplitudes"
  },
  {
   "property": "C70",
   "status": "proved",
   "theorems": [
    "C70_gradient",
    "C70_outside"
   ],
   "note": "over the reals; step ratio and gradient sampling interval one (as stated), no initial wavefields or callbacks at this level (C61 has them); gradients of the wavespeed and the amplitudes through scalar_born, and objectives of the background data, are not covered at the user level"
  }
 ]
}