{"id": "C01", "title": "Scalar source and initial-wavefield gradients are exact", "statement": "For the scalar propagator, the gradients that the compiled backward pass returns for the source amplitudes and for the initial wavefields (current, previous and the PML auxiliary fields) are exactly the transpose of the linear map the forward pass applies: for every upstream gradient of the returned wavefields and receiver amplitudes, <upstream, forward(perturbation)> = <returned gradients, perturbation>.", "quantifier": "every wavespeed model, grid shape, dimension, stencil accuracy, PML profile, time step, number of time steps, source/receiver layout (including ignored locations), initial state and upstream gradient", "why_tests_cant": "gradcheck tests compare a handful of small random cases with finite differences and tolerances; a wrong term in a PML corner or at one parity of the step count can hide below the tolerance or outside the tested sizes", "anchors": ["src/deepwave/scalar.c:forward,backward", "src/deepwave/scalar.py:ScalarForwardFunc,ScalarBackwardFunc"]}
{"id": "C02", "title": "Scalar wavespeed gradient is exact", "statement": "With one stored snapshot per internal time step, the wavespeed gradient returned by the scalar backward pass equals the true derivative of <upstream, outputs> with respect to the wavespeed of each cell.", "quantifier": "every model, geometry, accuracy, PML profile, number of steps, source series, initial state, upstream gradient and direction of model perturbation", "why_tests_cant": "a test can only compare finite differences at a few points; exactness needs an algebraic argument over all steps", "anchors": ["src/deepwave/scalar.c:forward,backward", "src/deepwave/scalar.py:ScalarBackwardFunc.forward"]}
{"id": "C03", "title": "Gradient sampling interval", "statement": "If snapshots are kept only every k internal steps, the returned wavespeed gradient is k times the sum of the exact per-step contributions at steps 0, k, 2k, ...; gradients of source amplitudes and initial wavefields do not depend on k at all. In particular the wavespeed gradient is exact for k=1 but not in general for k>1, including when k>1 only because the CFL condition split the user's time step.", "quantifier": "every k>=1, model, geometry, number of steps and upstream gradient", "why_tests_cant": "tests use tolerances large enough to accept an approximation, so cannot say which quantity is returned", "anchors": ["src/deepwave/scalar.py:scalar", "src/deepwave/scalar.c:backward", "src/deepwave/common.py:set_model_gradient_sampling_interval"]}
{"id": "C04", "title": "Born modelling is the derivative of scalar modelling", "statement": "The Born propagator's scattered wavefield, scattered PML fields and scattered receiver data are exactly the derivative of the scalar propagator's outputs when the wavespeed is perturbed in the direction of the scattering potential (including the dependence of the source injection on the wavespeed), and its background outputs are exactly the scalar propagator's outputs.", "quantifier": "every wavespeed and scattering model, geometry, accuracy, PML profile, number of steps, source series and initial wavefields", "why_tests_cant": "tests compare Born data to a finite difference of two scalar runs at one perturbation size", "anchors": ["src/deepwave/scalar_born.c:forward", "src/deepwave/scalar_born.py:scalar_born,_forward_step"]}
{"id": "C05", "title": "Born gradients are exact", "statement": "The gradients returned by the Born backward pass (scattering potential, wavespeed, both source-amplitude inputs, background and scattered initial wavefields) are the exact transpose/derivative of the Born forward pass, and the reduced backward pass used when only scattered quantities need gradients returns the same values for them.", "quantifier": "every model, geometry, number of steps and upstream gradient", "why_tests_cant": "gradcheck on a few shapes only", "anchors": ["src/deepwave/scalar_born.c:backward,backward_sc", "src/deepwave/scalar_born.py:ScalarBornForwardFunc.backward"]}
{"id": "C06", "title": "Acoustic gradients are exact", "statement": "For the variable-density acoustic propagator the returned gradients of the bulk modulus, the buoyancies, the pressure and velocity sources and all initial wavefields are the exact derivative of the forward pass.", "quantifier": "every model, geometry, dimension, accuracy, PML profile, number of steps, source/receiver layout and upstream gradient", "why_tests_cant": "gradcheck on a few shapes only", "anchors": ["src/deepwave/acoustic.c:forward,backward", "src/deepwave/acoustic.py:AcousticForwardFunc"]}
{"id": "C07", "title": "Elastic gradients are exact", "statement": "For the elastic propagator the returned gradients of the Lame parameters, buoyancies, sources and initial wavefields are the exact derivative of the forward pass.", "quantifier": "every model, geometry, accuracy, PML profile, number of steps, source/receiver layout and upstream gradient", "why_tests_cant": "gradcheck on a few shapes only", "anchors": ["src/deepwave/elastic.c:forward,backward", "src/deepwave/elastic.py:ElasticForwardFunc"]}
{"id": "C08", "title": "Compiled and Python scalar backends agree", "statement": "Choosing the compiled CPU backend or the Python backend does not change the returned wavefields or receiver amplitudes (in exact arithmetic): skipping the PML terms in the interior region and updating arrays in place, cell by cell, gives the same result as the whole-array formulas.", "quantifier": "every model shape, PML width on each side (including zero and widths that leave no interior), accuracy, initial wavefields, sources, receivers and number of steps; every order of visiting cells", "why_tests_cant": "the region boundaries depend on shape, PML width and accuracy; tests sample few combinations", "anchors": ["src/deepwave/scalar.c:forward", "src/deepwave/scalar.py:_forward_step,scalar_python,ScalarForwardFunc.forward"]}
{"id": "C09", "title": "Forward callbacks do not change the forward result", "statement": "Supplying a forward callback that does not modify anything, with any callback frequency, yields the same wavefields and receiver data as not supplying one, and the callback is called exactly at the steps that are multiples of the frequency, each time seeing the wavefields of that step.", "quantifier": "every callback frequency >= 1, number of steps, step ratio (odd and even), model and geometry", "why_tests_cant": "correctness depends on buffer-swap parity for every combination of frequency, ratio and nt", "anchors": ["src/deepwave/scalar.py:ScalarForwardFunc.forward", "src/deepwave/scalar.c:forward"]}
{"id": "C10", "title": "Backward callbacks do not change gradients", "statement": "Supplying a passive backward callback with any callback frequency returns the same gradients as supplying none.", "quantifier": "every callback frequency, number of steps, number of shots and threads, batched or shared model", "why_tests_cant": "needs all combinations of chunking and thread count", "anchors": ["src/deepwave/scalar.py:ScalarBackwardFunc.forward", "src/deepwave/scalar.c:backward", "src/deepwave/common_cpu.h:combine_grad", "src/deepwave/acoustic.py:AcousticForwardFunc.backward", "src/deepwave/acoustic.c:backward", "src/deepwave/elastic.py:ElasticForwardFunc.backward", "src/deepwave/elastic.c:backward"]}
{"id": "C11", "title": "Gradients do not depend on the thread count or schedule", "statement": "Without backward callbacks, the model gradient does not depend on the number of threads or on which thread processes which shot, and for a shared model it is the sum of the single-shot gradients.", "quantifier": "every number of shots and threads and every assignment of shots to threads", "why_tests_cant": "schedules cannot be enumerated by tests", "anchors": ["src/deepwave/scalar.c:backward", "src/deepwave/common_cpu.h:combine_grad", "src/deepwave/acoustic.c:backward", "src/deepwave/elastic.c:backward,combine_grad_elastic"]}
{"id": "C12", "title": "All requested time steps are propagated", "statement": "A run with nt time steps injects all nt source samples and records all nt receiver samples, whatever the model gradient sampling interval.", "quantifier": "every nt, CFL step ratio and sampling interval >= 1", "why_tests_cant": "tests use intervals dividing nt", "anchors": ["src/deepwave/scalar.py:ScalarForwardFunc.forward,scalar_python"]}
{"id": "C13", "title": "Superposition", "statement": "Receiver data and returned wavefields are linear in (source amplitudes, initial wavefields): scaling or adding inputs scales or adds outputs.", "quantifier": "every model, geometry, number of steps and pair of inputs", "why_tests_cant": "infinitely many inputs", "anchors": ["src/deepwave/scalar.py:_forward_step", "src/deepwave/scalar.c:forward"]}
{"id": "C14", "title": "Time reversal", "statement": "Without PML and sources, propagating the scalar wave equation nt steps and then nt steps from the swapped pair of final wavefields recovers the initial pair exactly.", "quantifier": "every model, shape, accuracy, nt and initial wavefields", "why_tests_cant": "needs an invariance argument for all nt", "anchors": ["src/deepwave/scalar.py:_forward_step"]}
{"id": "C15", "title": "Restartability", "statement": "Propagating n1 steps and feeding all returned wavefields into a second run of n2 steps gives the same final wavefields and receiver data as one run of n1+n2 steps.", "quantifier": "every n1, n2, model, geometry, PML, sources and initial wavefields", "why_tests_cant": "depends on the returned state being complete at every step, including PML fields", "anchors": ["src/deepwave/scalar.py:ScalarForwardFunc.forward", "src/deepwave/common.py:create_or_pad,zero_interior"]}
{"id": "C16", "title": "Finite difference stencils have the advertised order", "statement": "The first- and second-derivative stencils on the regular grid and the first-derivative stencils on the staggered grid, for accuracy 2, 4, 6 and 8, differentiate every polynomial of degree at most the accuracy (plus one for the symmetric ones) exactly.", "quantifier": "every polynomial of the stated degree (all coefficients), grid point and grid spacing", "why_tests_cant": "tests check a sine or a few polynomials numerically", "anchors": ["src/deepwave/regular_grid.py", "src/deepwave/regular_grid.h", "src/deepwave/staggered_grid.py", "src/deepwave/staggered_grid.h"]}
{"id": "C17", "title": "Discrete operators are (anti)symmetric", "statement": "On fields that vanish outside the computational interior the regular first derivative is antisymmetric, the second derivative symmetric, and the staggered half-grid derivative is minus the transpose of the integer-grid derivative.", "quantifier": "every shape, dimension, accuracy and pair of fields", "why_tests_cant": "matrix transposes at a few sizes only", "anchors": ["src/deepwave/regular_grid.h", "src/deepwave/staggered_grid.h"]}
{"id": "C18", "title": "Ignored locations have no effect", "statement": "A source whose location is IGNORE_LOCATION never changes any output whatever its amplitude, and a receiver whose location is IGNORE_LOCATION records zero at every time step; the returned source gradient at such a source is zero.", "quantifier": "every pattern of ignored entries, amplitudes, models and numbers of steps", "why_tests_cant": "patterns cannot be enumerated", "anchors": ["src/deepwave/common_cpu.h:record_from_wavefield,add_to_wavefield", "src/deepwave/scalar.py:scalar_python", "src/deepwave/common.py:extract_locations"]}
{"id": "C19", "title": "Locations are mapped to the right cell", "statement": "After cropping the model to the survey area and padding it, the one-dimensional index used for a source or receiver denotes the cell holding the model value at the location the user gave; it always lies inside the computational interior of the padded array, and distinct locations get distinct indices.", "quantifier": "every model shape, survey area, origin, PML width, accuracy and location inside the model", "why_tests_cant": "index arithmetic over all shapes and pads", "anchors": ["src/deepwave/common.py:extract_locations,_calculate_origin_and_stride,_convert_to_1d_and_check_uniqueness,extract_models"]}
{"id": "C20", "title": "Survey area contains the survey", "statement": "The automatically chosen survey area lies inside the model, contains every source and receiver location together with the requested padding as far as the model extends, and is no larger than that; with no padding requested it is the whole model.", "quantifier": "every set of locations (some ignored), survey_pad (None, per side or common), model shape", "why_tests_cant": "unbounded configurations", "anchors": ["src/deepwave/common.py:get_survey_extents_from_locations,get_survey_extents_one_side,set_survey_pad"]}
{"id": "C21", "title": "Model extraction", "statement": "The padded model equals the user's model on the survey area, repeats the nearest survey-area cell in the padding for replicated models, and is zero in the padding for constant-padded ones.", "quantifier": "every model, survey area and padding", "why_tests_cant": "unbounded shapes", "anchors": ["src/deepwave/common.py:extract_models,reverse_pad"]}
{"id": "C22", "title": "Kernels stay inside their arrays", "statement": "Every array element that the compiled scalar, acoustic and elastic kernels read or write, for model, wavefield, PML, profile, snapshot, amplitude and gradient-buffer arrays, lies inside the allocation.", "quantifier": "every shape, accuracy, dimension, PML width, shot number, thread number and order of the cells", "why_tests_cant": "out-of-bounds reads often do not crash", "anchors": ["src/deepwave/scalar.c:forward,backward", "src/deepwave/common_cpu.h", "src/deepwave/acoustic.c:forward,backward", "src/deepwave/elastic.c:forward,backward"]}
{"id": "C23", "title": "Snapshots read back are the snapshots saved", "statement": "For every storage mode (device, cpu, disk) without compression, the snapshot that the backward pass loads for a time step is the one the forward pass saved for that step and shot, also when the forward pass runs in several chunks because of callbacks, and every access stays inside the buffer.", "quantifier": "every number of steps, step ratio, shots, chunking and storage mode", "why_tests_cant": "histories of saves and loads are unbounded", "anchors": ["src/deepwave/storage_utils.c", "src/deepwave/common.py:StorageManager", "src/deepwave/scalar.c:forward,backward"]}
{"id": "C24", "title": "Compressed snapshots: error bound and size", "statement": "A decompressed snapshot value differs from the original by at most 1/254 of the largest magnitude in its 8^ndim block (so zero blocks are exact), decompression reads exactly what compression wrote, and the compressed snapshot never exceeds the bytes reserved for it.", "quantifier": "every shape, block contents and dimension (in exact arithmetic)", "why_tests_cant": "all inputs", "anchors": ["src/deepwave/simple_compress.c", "src/deepwave/common.py:StorageManager"]}
{"id": "C25", "title": "CFL time step", "statement": "The internal time step divides the user's time step by a positive integer ratio, keeps its sign, satisfies |dt_inner| <= 0.6/(sqrt(sum 1/dx^2) v_max) (up to the code's epsilon), and no smaller ratio would.", "quantifier": "every dt, grid spacing, dimension and maximum velocity", "why_tests_cant": "real-valued inputs", "anchors": ["src/deepwave/common.py:cfl_condition_n"]}
{"id": "C26", "title": "Stability under the CFL choice", "statement": "Without PML, the energy of the discrete scalar wavefield is conserved exactly by the time stepping, and under the code's CFL choice this energy is a positive form, so that the increments of the wavefield stay bounded for arbitrarily many steps.", "quantifier": "every shape, dimension, accuracy, model bounded by the CFL velocity, initial state and number of steps", "why_tests_cant": "no finite run can show boundedness for all time", "anchors": ["src/deepwave/scalar.py:_forward_step", "src/deepwave/common.py:cfl_condition_n", "src/deepwave/regular_grid.py"]}
{"id": "C27", "title": "Reciprocity", "statement": "Without PML, exchanging the positions of a source and a receiver leaves the recorded trace unchanged.", "quantifier": "every model, pair of positions, source series, accuracy and number of steps", "why_tests_cant": "all models and positions", "anchors": ["src/deepwave/scalar.py:scalar,_forward_step"]}
{"id": "C28", "title": "Causality and finite propagation speed", "statement": "Receiver sample t depends only on source samples before t, and in one internal step information travels at most half the stencil length in cells, so model cells farther than that from every source/receiver path cannot influence the data (survey_pad can be chosen so that it does not change the data).", "quantifier": "every model, geometry, series and number of steps", "why_tests_cant": "quantifies over all perturbations", "anchors": ["src/deepwave/scalar.py:_forward_step", "src/deepwave/common.py:get_survey_extents_from_locations"]}
{"id": "C29", "title": "PML profiles vanish in the interior and damp in the layer", "statement": "The PML coefficients are zero at every cell outside the PML layers, and inside them satisfy 0 <= a < 1 and -1 < b <= 0, for both integer and half-cell positions, on both sides, for any layer widths; no undefined quotient (0/0) is evaluated.", "quantifier": "every shape, PML widths, spacing, time step, velocity and PML frequency accepted by the API (pml_freq >= 0)", "why_tests_cant": "real-valued parameters", "anchors": ["src/deepwave/common.py:setup_pml", "src/deepwave/regular_grid.py:set_pml_profiles", "src/deepwave/staggered_grid.py:set_pml_profiles"]}
{"id": "C30", "title": "Shots are independent", "statement": "The outputs for one shot of a batch depend only on that shot's sources, receivers, initial wavefields and model, and equal those of running that shot alone; this holds whatever order or thread the shots are processed in.", "quantifier": "every batch, shot, schedule", "why_tests_cant": "schedules and batches unbounded", "anchors": ["src/deepwave/scalar.c:forward", "src/deepwave/scalar.py:ScalarForwardFunc.forward", "src/deepwave/acoustic.c:forward,backward", "src/deepwave/elastic.c:forward,backward"]}
{"id": "C31", "title": "Resampling of source and receiver data", "statement": "Upsampling a time series by an integer ratio and downsampling it again by the same ratio returns the original series with its Nyquist component removed when no taper or padding is requested; a ratio of one leaves data unchanged; and both are linear and keep lengths nt*ratio and nt.", "quantifier": "every series, ratio and length", "why_tests_cant": "all series", "anchors": ["src/deepwave/common.py:upsample,downsample,cosine_taper_end,zero_last_element"]}
{"id": "C32", "title": "Callback views", "statement": "In a callback, the 'full', 'pml' and 'inner' views of a field denote nested regions of the same array: 'inner' is exactly the survey area, 'pml' adds exactly the PML layers, 'full' adds the finite-difference padding.", "quantifier": "every shape, PML width and accuracy, including zero widths", "why_tests_cant": "negative-index slicing with zero widths is an edge case over all widths", "anchors": ["src/deepwave/common.py:CallbackState._get_view"]}
{"id": "C33", "title": "Number of dimensions is determined consistently", "statement": "The number of dimensions inferred from the inputs is between 1 and 3 and agrees with every input given; inputs that imply different dimensions are rejected.", "quantifier": "every combination of present/absent inputs and their ranks", "why_tests_cant": "combinatorial", "anchors": ["src/deepwave/common.py:get_ndim"]}
{"id": "C34", "title": "Off-grid (Hicks) sources and receivers are consistent", "statement": "Spreading source amplitudes onto grid cells and gathering receiver amplitudes from grid cells use the same weights and are transposes of each other; merging of shared grid cells never loses or double counts a contribution.", "quantifier": "every set of off-grid locations, amplitudes and number of shots", "why_tests_cant": "all overlaps of interpolation stencils", "anchors": ["src/deepwave/location_interpolation.py:Hicks"]}
{"id": "C35", "title": "Elastic parameter conversion round trip", "statement": "Converting (vp, vs, rho) to (lambda, mu, buoyancy) and back returns the original values for positive inputs, up to the code's epsilon.", "quantifier": "every positive vp, vs, rho", "why_tests_cant": "real-valued", "anchors": ["src/deepwave/common.py:vpvsrho_to_lambmubuoyancy,lambmubuoyancy_to_vpvsrho"]}
{"id": "C36", "title": "Compiled function lookup and argument lists", "statement": "The compiled function selected for a (propagator, dimension, accuracy, dtype, pass, device) combination is unique to that combination, and the declared argument list has, in order, the types of the compiled function's parameters.", "quantifier": "every combination offered by the API", "why_tests_cant": "ctypes mismatches corrupt memory silently", "anchors": ["src/deepwave/backend_utils.py", "src/deepwave/scalar.c", "src/deepwave/acoustic.c", "src/deepwave/elastic.c", "src/deepwave/scalar_born.c"]}
{"id": "C37", "title": "Scalar second derivatives are exact", "statement": "Differentiating through the scalar gradient (double backward) returns the exact derivative of the first gradient.", "quantifier": "every model, geometry, number of steps and directions", "why_tests_cant": "gradgradcheck on a few shapes", "anchors": ["src/deepwave/scalar.py:ScalarBackwardFunc.backward", "src/deepwave/scalar_born.c"]}
{"id": "C38", "title": "Double backward stays inside its snapshot buffer", "statement": "Every snapshot index written or read by the double-backward pass lies inside the allocated storage.", "quantifier": "every nt and step ratio", "why_tests_cant": "heap overflow is silent", "anchors": ["src/deepwave/scalar.py:ScalarBackwardFunc.backward", "src/deepwave/common.py:StorageManager"]}
{"id": "C39", "title": "Compiled and Python acoustic backends agree", "statement": "Choosing the compiled CPU backend or the Python backend does not change the acoustic propagator's outputs (exact arithmetic).", "quantifier": "every shape, PML widths, accuracy, initial wavefields, sources, receivers and number of steps", "why_tests_cant": "region boundaries differ for integer and half cells and depend on all widths", "anchors": ["src/deepwave/acoustic.c:forward", "src/deepwave/acoustic.py:update_velocities,update_pressure,acoustic_python"]}
{"id": "C40", "title": "Callbacks see correctly named models and wavefields", "statement": "In a forward or backward callback, each model or wavefield name refers to the tensor with that meaning, for every dimension, and every documented name is present.", "quantifier": "every propagator and number of dimensions", "why_tests_cant": "a mislabelled tensor has a plausible shape, so shape tests pass", "anchors": ["src/deepwave/elastic.py:ElasticForwardFunc.forward,ElasticForwardFunc.backward"]}
{"id": "C41", "title": "Initial wavefields: padding and cropping round trip", "statement": "Wavefields passed in are placed in the survey area plus PML of the padded arrays and wavefields returned have the same shape and alignment, so that a zero-step run returns wavefields unchanged (except that PML fields are zeroed where the PML has no effect).", "quantifier": "every shape, PML width, accuracy", "why_tests_cant": "alignment off-by-ones at any width", "anchors": ["src/deepwave/common.py:create_or_pad,zero_interior,prepare_wavefields"]}
{"id": "C42", "title": "Source amplitude preparation", "statement": "The number of internal time steps is the user's number of time steps times the CFL ratio; it is taken from nt or from the length of the source amplitudes, inputs that contradict each other (nt different from the amplitudes' length, amplitude tensors of different lengths, wrong batch size) are rejected, and every source amplitude tensor that is accepted ends up with exactly nt*ratio samples for each shot and source.", "quantifier": "every nt (given or not), list of present/absent source amplitude tensors and their shapes, CFL ratio", "why_tests_cant": "unbounded lengths", "anchors": ["src/deepwave/common.py:set_nt,set_source_amplitudes"]}
{"id": "C43", "title": "Compiled and Python Born backends agree", "statement": "For the scalar Born propagator, choosing the compiled CPU backend or the Python backend does not change the returned background and scattered wavefields or receiver amplitudes (in exact arithmetic).", "quantifier": "every pair of models, shape, PML width on each side, accuracy, initial wavefields, sources, background and scattered receivers, number of steps; every order of visiting cells", "why_tests_cant": "the in-place, region-split kernels and the whole-array formulas differ structurally; tests compare them on a few shapes with a tolerance", "anchors": ["src/deepwave/scalar_born.c:forward", "src/deepwave/scalar_born.py:_forward_step,scalar_born_python"]}
{"id": "C44", "title": "Born snapshot buffers that are not allocated are not used", "statement": "When the wavespeed needs no gradient, the Born forward kernel does not write scattered snapshots and the backward kernel does not read them; when neither model needs a gradient, the same holds for the background snapshots.", "quantifier": "every model, geometry, visiting order, number of steps, sampling interval and callback frequency", "why_tests_cant": "a stray write through an empty buffer's pointer need not crash, and tests rarely request the gradient of the scattering potential alone", "anchors": ["src/deepwave/scalar_born.py:705-710", "src/deepwave/scalar_born.c:384-388,509-529,824-845,948-965"]}
{"id": "C45", "title": "Compiled and Python elastic backends agree", "statement": "Choosing the compiled CPU backend or the Python backend does not change the elastic propagator's outputs (exact arithmetic).", "quantifier": "every shape, PML widths, accuracy, initial wavefields, sources, receivers and number of steps", "why_tests_cant": "four kinds of staggered cells with their own region boundaries, which depend on all widths; the Python backend also returns the unmasked receiver amplitudes", "anchors": ["src/deepwave/elastic.c:forward", "src/deepwave/elastic.py:update_velocities,update_stresses,elastic_python"]}
{"id": "C46", "title": "Propagators solve the documented equations", "statement": "The scalar, acoustic and elastic forward functions produce wavefields that satisfy, at every step and in every cell, the documented discretised equations (wave equation; momentum and mass conservation; velocity-stress equations, each extended by its PML memory variables), with the user's source amplitudes entering as documented, and receivers record the quantity they are named after (pressure being the negative mean of the normal stresses).", "quantifier": "every dimension, shape, accuracy, model, PML profile, source and receiver layout, initial wavefields and number of steps", "why_tests_cant": "both backends share their tables and their source scaling, so comparing them cannot reveal a common error, and analytic solutions only exist for homogeneous models", "anchors": ["docs/scalar.rst", "docs/acoustic.rst", "docs/elastic.rst", "src/deepwave/acoustic.py:563-587", "src/deepwave/elastic.py:924-976,1033-1035", "src/deepwave/acoustic.c:forward", "src/deepwave/elastic.c:forward"]}
{"id": "C47", "title": "Wavefields and gradients keep their identity through the interface", "statement": "An initial wavefield given by keyword reaches the compiled function's parameter of that meaning; the outputs are returned in the documented order (receivers last, elastic pressure first); argument lists are split into the groups they were put together from; the backward pass exchanges exactly the memory variables with their new values after an odd number of steps; and each gradient is returned to PyTorch at the position of its argument.", "quantifier": "every propagator, number of dimensions, device, accuracy and dtype, and any tensors", "why_tests_cant": "up to 27 tensors of equal shape pass through lists indexed by hand-written positions, different for each dimension; exchanging two memory variables only changes values inside the PML slightly", "anchors": ["src/deepwave/scalar.py:430-449,994-1014,1825-1878", "src/deepwave/scalar_born.py:392-421,1389-1423", "src/deepwave/acoustic.py:406-426,769-790,1224-1258", "src/deepwave/elastic.py:716-767,1033-1079,1237-1281,1882-1949,2645-2708"]}
{"id": "C48", "title": "Energy conservation and stability of the acoustic propagator", "statement": "Without PML and sources the acoustic propagator conserves the discrete energy <p,p/K> + <v,v/B> - dt <v,grad p>; with the time step chosen by cfl_condition and the prepared models this energy is positive and wavefields stay bounded by a constant multiple of the initial ones, however many steps are taken.", "quantifier": "every dimension, shape, accuracy, heterogeneous velocity and density, initial wavefields, number of steps, storage interval and callback interval", "why_tests_cant": "an instability or energy drift may only show after arbitrarily many steps, or only for particular contrasts of the models; the CFL condition looks at the velocity only, whereas the staggered scheme's stability also depends on the averaged densities", "anchors": ["src/deepwave/acoustic.c:forward", "src/deepwave/acoustic.py:37-88", "src/deepwave/common.py:cfl_condition_n", "src/deepwave/staggered_grid.py"]}
{"id": "C49", "title": "Energy conservation of the elastic propagator", "statement": "Without PML and sources the elastic propagator conserves the discrete energy <v,v/B> + <strain,stress> + dt <v,div stress>, where the strains are any fields the stresses follow from by Hooke's law, and the returned stresses have such strains if the given ones do.", "quantifier": "every dimension, shape, accuracy, heterogeneous Lame parameters and buoyancies including fluids, initial wavefields, number of steps, storage interval and callback interval", "why_tests_cant": "a term missing at one kind of staggered cell or boundary leaks energy slowly and only for waves of that polarisation near that boundary", "anchors": ["src/deepwave/elastic.c:forward", "src/deepwave/staggered_grid.h"]}
{"id": "C50", "title": "Staggered models are the documented means", "statement": "The buoyancies between two cells passed to the kernels are inverses of the mean density of those cells (zero density contributing nothing), and the elastic shear moduli at the corners of four cells are the harmonic mean of the four, zero if one of them is.", "quantifier": "every dimension, shape, model values (above the cut-off of the inversion) and cell with a neighbour", "why_tests_cant": "averaging in the wrong direction or at the wrong corner shifts interfaces by half a cell, which is invisible in homogeneous models and small in smooth ones", "anchors": ["src/deepwave/acoustic.py:37-88", "src/deepwave/elastic.py:23-123"]}
{"id": "C51", "title": "Time reversal of the acoustic and elastic propagators", "statement": "Without PML and sources, propagating the acoustic or elastic equations n steps and then n steps from the final pressure or stresses with the reversed velocities of the following half step recovers the initial pressure or stresses, and the reversed velocities of the first half step.", "quantifier": "every dimension, shape, accuracy, heterogeneous model, initial wavefields, number of steps, visiting order and callback interval", "why_tests_cant": "an update that is not the exact inverse of itself under reversal of the velocities (a wrong staggering, a term applied before instead of after the other half step) still looks reversible to the tolerance of a test on smooth fields", "anchors": ["src/deepwave/acoustic.c:forward", "src/deepwave/elastic.c:forward", "src/deepwave/staggered_grid.h"]}
{"id": "C52", "title": "Reciprocity of the acoustic and elastic propagators", "statement": "Without PML and from rest, exchanging a source and a receiver of the same kind (pressure or velocity, of any components) leaves the recorded trace unchanged; exchanging a pressure source and a velocity receiver for a force and a pressure receiver changes the sign of the trace and shifts it by one internal step, up to the modulus with which a propagator scales its pressure sources.", "quantifier": "every dimension, shape, accuracy, heterogeneous model, pair of locations, source time function, number of steps, visiting order and callback interval", "why_tests_cant": "a source scaled by the model value of the wrong cell, or injected at the wrong half step, is invisible in homogeneous models and for symmetric geometries", "anchors": ["src/deepwave/acoustic.c:forward", "src/deepwave/elastic.c:forward", "src/deepwave/acoustic.py:560-585", "src/deepwave/elastic.py:925-978"]}
{"id": "C53", "title": "Accepted calls of scalar meet the kernel's preconditions and run", "statement": "If none of the checks of scalar raises, the problem given to the kernel for each shot is well formed (padding, PML coefficients zero outside the PML, locations inside the updated region, one amplitude per source), the internal time step divides the user's and is within the stability limit for the user's spacing and the largest wavespeed, and the call returns one trace of the user's number of samples per receiver.", "quantifier": "every dimension, model, spacing, time step, amplitudes, location tensors, accuracy, PML width and frequency, survey_pad and number of steps that the checks accept", "why_tests_cant": "the checks and the kernels are tested separately; a combination of arguments that is accepted and then violates an assumption of the kernel (out of bounds location, width 0 PML, interval 0) has to be met by chance", "anchors": ["src/deepwave/common.py:412-628", "src/deepwave/scalar.py:405-588"]}
{"id": "C54", "title": "survey_pad does not change the data", "statement": "Two values of survey_pad give the same receiver data if each side is None or at least half the number of cells that a wave can cross during the run; more precisely a recorded value is the same for two survey areas that agree around all cells on a way from a source to the receiver that can be travelled by then.", "quantifier": "every accepted call of scalar, shot, receiver, time, pair of survey_pad values, visiting order", "why_tests_cant": "tests compare a few geometries to a tolerance; an origin off by one, a model cut one cell too far or profiles that move with the wrong side are small for smooth models and centred surveys", "anchors": ["src/deepwave/common.py:1454-2246", "src/deepwave/regular_grid.py:set_pml_profiles", "src/deepwave/scalar.py:405-588"]}
{"id": "C55", "title": "Born data are linear in the scattering potential", "statement": "For fixed wavespeed, sources and background wavefields, the scattered wavefields and scattered receiver data of the Born propagator are linear in the scattering potential (together with the initial scattered wavefields); the background wavefields and background receiver data do not depend on it.", "quantifier": "every number of dimensions, grid, PML, model, pair of scattering potentials, pair of coefficients, sources, initial wavefields, number of steps, storage interval, callback frequency, visiting order", "why_tests_cant": "tests compare with finite differences or with one doubled potential at a tolerance; a term quadratic in the scattered wavefield or a leak into the background that is small for weak scatterers passes", "anchors": ["src/deepwave/scalar_born.c:forward kernel", "src/deepwave/scalar_born.py:scalar_born_func forward"]}
{"id": "C56", "title": "scalar solves the user's wave equation", "statement": "The data and wavefields that scalar returns for a shot are those of the discrete wave equation with a convolutional PML for the user's own arguments: the user's wavespeed (continued by its nearest cell beyond the survey area), grid spacing, PML widths and frequency, the user's sources at their cells with amplitudes resampled to the internal step, from rest, in internal steps of dt divided by the step ratio; the data of a receiver are the wavefield in the user's cell, resampled to dt, and zero if it is ignored.", "quantifier": "every accepted call of scalar without initial wavefields and callbacks: number of dimensions, shapes, batched or shared models, locations, survey_pad, PML widths per side, accuracy, time step, resampling options, shot, receiver, visiting order", "why_tests_cant": "tests compare a few runs with an analytic solution or a reference at a tolerance; an offset of one cell, a profile on the wrong side, the speed of another shot or an amplitude scaled at the wrong cell is small in a smooth or homogeneous model", "anchors": ["src/deepwave/scalar.py:405-588", "src/deepwave/common.py:412-698", "src/deepwave/regular_grid.py:set_pml_profiles", "src/deepwave/scalar.c:forward kernel"]}
{"id": "C57", "title": "acoustic solves the user's acoustic equations", "statement": "The data and wavefields that acoustic returns for a shot are those of the discrete variable-density acoustic equations with a convolutional PML for the user's own arguments: bulk modulus and buoyancy from the user's wavespeed and density (continued by their nearest cells beyond the survey area; buoyancy between cells from the mean density), grid spacing, PML widths and frequency at whole and half positions, pressure and velocity sources at their cells with amplitudes resampled to the internal step, from rest; the data of each kind of receiver are the wavefield of that kind in the user's cell, resampled to dt, and zero if it is ignored. Every velocity location that the function accepts is a cell of the survey area in which the velocity is updated. The internal time step divides the user's and obeys the stability bound for max_vel or, without it, for the largest speed of the model.", "quantifier": "every accepted call of acoustic without initial wavefields and callbacks: number of dimensions, shapes, batched or shared models, kinds of sources and receivers present, locations, survey_pad, PML widths per side, accuracy, time step, resampling options, shot, receiver, visiting order", "why_tests_cant": "half-cell offsets of profiles and densities, the wrong order of the kinds of sources, or a location on the last cell change the result by little or only for particular combinations of survey_pad and PML width", "anchors": ["src/deepwave/acoustic.py:243-643", "src/deepwave/common.py:412-698", "src/deepwave/staggered_grid.py:set_pml_profiles", "src/deepwave/acoustic.c:forward kernel"]}
{"id": "C58", "title": "elastic solves the user's elastic equations", "statement": "The data and wavefields that elastic returns for a shot are those of the discrete velocity-stress elastic equations with a convolutional PML for the user's own arguments: Lame parameters and buoyancy (continued by their nearest cells beyond the survey area; buoyancy between two cells from their mean density, shear modulus between four cells from their harmonic mean and zero if one of them is fluid), grid spacing, PML widths and frequency at whole and half positions, force and pressure sources at their cells with amplitudes resampled to the internal step, from rest; the data are the velocity of that kind, or minus the mean of the normal stresses, in the user's cell, resampled to dt, and zero if the receiver is ignored. Every velocity location that the function accepts is a cell of the survey area in which the velocity is updated. The internal time step divides the user's and obeys the stability bound for max_vel or, without it, for the largest shear or pressure wave speed of any cell of any shot.", "quantifier": "every accepted call of elastic without initial wavefields and callbacks: number of dimensions, shapes, batched or shared models, kinds of sources and receivers present, locations, survey_pad, PML widths per side, accuracy, time step, resampling options, shot, receiver, visiting order", "why_tests_cant": "averages of the models at half positions, the order of the kinds of sources and the factor of the pressure change the result by little, or only in heterogeneous models and for particular combinations of survey_pad and PML width", "anchors": ["src/deepwave/elastic.py:332-1076", "src/deepwave/elastic.py:prepare_parameters", "src/deepwave/common.py:412-698", "src/deepwave/staggered_grid.py:set_pml_profiles", "src/deepwave/elastic.c:forward kernel"]}
{"id": "C59", "title": "The CUDA propagator computes what the CPU computes for each shot", "statement": "However the threads of every kernel launch of the scalar CUDA propagator are interleaved between single memory accesses, each shot gets the wavefields, receiver amplitudes, snapshots and gradients of a run of that shot alone on the CPU, and the gradient of the wavespeed is that of each shot (batched model) or the sum over the shots. No launch is refused while the grid has at most 65535 blocks in its second and third directions.", "quantifier": "every interleaving of the threads, number of dimensions, grid sizes and batch sizes below 2^31, batched or shared model, locations distinct within a shot, PML widths, accuracy, callback frequency, snapshot interval, number of steps", "why_tests_cant": "a wrong grid, a missed remainder block or two threads writing the same cell show only at particular sizes, and races only in some executions, on particular devices", "anchors": ["src/deepwave/scalar.cu:145-415", "src/deepwave/scalar.cu:430-1010", "src/deepwave/common_gpu.h", "src/deepwave/scalar.py:737-934", "src/deepwave/scalar.py:1026-1342"]}
{"id": "C60", "title": "Snapshots saved and loaded beside the computation on a CUDA device reach the gradient intact", "statement": "When a CUDA propagator compresses its snapshots or keeps them on the CPU, it saves and loads them in a second stream with two buffers. In every execution that the streams and events allow, the backward propagation gets for each stored step the snapshot of that step, and the wavefields are those of a run in one stream.", "quantifier": "every execution, number of steps, snapshot interval, callbacks after any numbers of stored steps, compressed or not, buffer for the compressed snapshot or not, any computation and compression", "why_tests_cant": "a missing wait shows only when the second stream happens to be late, which depends on the device, the sizes and the load", "anchors": ["src/deepwave/scalar.cu:580-700", "src/deepwave/scalar.cu:870-1002", "src/deepwave/scalar_born.cu:1040-1200", "src/deepwave/acoustic.cu:950-1180", "src/deepwave/elastic.cu:2050-2320", "src/deepwave/storage_utils.cu", "src/deepwave/common_gpu.h"]}
{"id": "C61", "title": "Gradients are derivatives of real-valued objective functions", "statement": "Over the real numbers, let the models, source amplitudes and initial wavefields depend differentiably on a real parameter and let the objective be differentiable at the outputs. The run of the propagator exists for every parameter, the objective of its outputs is differentiable in the parameter (a limit of difference quotients), and the derivative is the inner product of what the backward propagation returns with the derivatives of the inputs. In particular for least squares of the recorded data, backpropagating the residual. The scattered outputs of scalar_born are the limits of difference quotients of scalar along v + h scatter.", "quantifier": "every dimension, accuracy, geometry, model, differentiable curve of inputs, differentiable objective, number of steps, callback interval, visiting order", "why_tests_cant": "gradcheck compares one random direction at one point in floating point, with a tolerance", "anchors": ["src/deepwave/scalar.py:1000-1500", "src/deepwave/scalar_born.py", "src/deepwave/acoustic.py", "src/deepwave/elastic.py", "src/deepwave/scalar.c:150-520", "src/deepwave/scalar_born.c", "src/deepwave/acoustic.c", "src/deepwave/elastic.c"]}
{"id": "C62", "title": "Compression on a CUDA device gives each shot what the CPU gives it", "statement": "In every execution of the compression kernel (threads of all blocks interleaved in any way, barriers within blocks) followed by the decompression kernel, each cell of each shot holds exactly the value that compressing and decompressing that shot alone on the CPU gives, which differs from the original by at most 1/254 of the largest magnitude in its block of 8 cells per dimension. The kernels write only to the bytes reserved for the snapshots and to the snapshot.", "quantifier": "one to three dimensions, every shape and number of shots with fewer than 2^31 blocks, every snapshot, every interleaving", "why_tests_cant": "a missing barrier or overlapping byte shows only under some schedules and shapes that are not multiples of the block size; the CI has no GPU", "anchors": ["src/deepwave/simple_compress.cu:18-131", "src/deepwave/simple_compress.cu:134-215", "src/deepwave/simple_compress.cu:220-309", "src/deepwave/common.py:158-173"]}
{"id": "C63", "title": "The acoustic and elastic propagators on a CUDA device give each shot what the CPU gives it", "statement": "In every execution of a batch on the device (the threads of each launch interleaved in any way), every shot gets the wavefields, receiver amplitudes and snapshots, and backward the gradients of wavefields and source amplitudes, that the CPU propagation of that shot alone gives. The gradient of a model with one block per shot is that of each shot, the gradient of a shared model the sum over the shots. If the grid fits the limits of a launch no launch is refused.", "quantifier": "one to three dimensions, every accuracy, shape, PML, model (shared or one block per shot), number of shots, sources and receivers in different cells, snapshot interval, callback interval, order of the threads; the gradient of a shared model for one shot or without callbacks", "why_tests_cant": "races depend on the scheduling of the device; tests run a few shapes and the CI has no GPU", "anchors": ["src/deepwave/acoustic.cu:125-648", "src/deepwave/acoustic.cu:694-1740", "src/deepwave/elastic.cu:330-1560", "src/deepwave/elastic.cu:1560-3058", "src/deepwave/acoustic.py", "src/deepwave/elastic.py"]}
{"id": "C64", "title": "The scalar Born propagator on a CUDA device gives each shot what the CPU gives it", "statement": "In every execution of a batch on the device (the threads of each launch interleaved in any way), every shot gets the background and scattered wavefields, receiver amplitudes and snapshots, and backward the gradients of both wavefields and both kinds of source amplitudes, that the CPU propagation of that shot alone gives. The gradients of the wavespeed and of the scattering potential are those of each shot if the model has one block per shot, and the sum over the shots if it is shared. If the grid fits the limits of a launch no launch is refused.", "quantifier": "one to three dimensions, every accuracy, shape, PML, wavespeed and scattering potential (each shared or one block per shot), number of shots, sources and receivers in different cells, snapshot interval, callback interval, order of the threads; the gradient of a shared model for one shot or without callbacks", "why_tests_cant": "races depend on the scheduling of the device; tests run a few shapes and the CI has no GPU", "anchors": ["src/deepwave/scalar_born.cu:60-361", "src/deepwave/scalar_born.cu:365-650", "src/deepwave/scalar_born.cu:900-1640", "src/deepwave/scalar_born.py:598-1404"]}
{"id": "C65", "title": "scalar_born solves the user's linearised wave equation", "statement": "The data and wavefields that scalar_born returns for a shot are those of the discrete wave equation with a convolutional PML for the user's wavespeed, spacing, PML and sources, and of its linearisation in the wavespeed for the user's scattering potential, which is zero beyond the survey area: the scattered wavefield is driven by 2 v scatter (second derivatives of the background minus the source). Both start from rest and take internal steps of dt divided by the step ratio, within the stability bound. Background data are the background at the user's background receivers, scattered data the scattered wavefield at the user's receivers, resampled to dt. The equations determine both wavefields. The background data are those of scalar for the same arguments and survey area; the scattered data are linear in the scattering potential.", "quantifier": "every accepted call of scalar_born without initial wavefields and callbacks: number of dimensions, shapes, batched or shared models, locations, survey_pad, PML widths per side, accuracy, time step, resampling options, shot, receiver, visiting order, requested gradients", "why_tests_cant": "tests compare a few scattered shots with the difference of two scalar runs at a tolerance; a scattering potential continued into the PML, exchanged receiver lists or an amplitude scaled by the potential of another cell show only for particular models and positions", "anchors": ["src/deepwave/scalar_born.py:405-600", "src/deepwave/common.py:412-698", "src/deepwave/scalar_born.c:forward kernel"]}
{"id": "C66", "title": "The reduced backward pass of scalar_born on CUDA devices", "statement": "When nothing of the background needs a gradient, scalar_born runs backward_sc, which propagates only the scattered wavefield. On a CUDA device, however the threads of every launch are interleaved, it gives each shot of a batch the gradients of the scattered initial wavefields and scattered source amplitudes that the reduced pass of this shot alone gives on the CPU; the gradient of the scattering potential is that of each shot (batched) or the sum over the shots (shared). These are the gradients that the full backward pass on the device gives. Some run exists for every accepted grid. False for the gradient of a shared potential with several shots and callbacks.", "quantifier": "every interleaving of the threads of every launch, number of shots, sources and receivers, grid shape and dimensions, batched or shared wavespeed and potential, number of time steps, snapshot interval, callback frequency, gradients received", "why_tests_cant": "tests run one interleaving per launch on one device, compare few configurations at a tolerance, and never request the gradients of the scattered part alone for several shots with callbacks", "anchors": ["src/deepwave/scalar_born.cu:655-753", "src/deepwave/scalar_born.cu:1662-1975", "src/deepwave/scalar_born.py:744-748", "src/deepwave/scalar_born.py:1296-1380"]}
{"id": "C67", "title": "The Ricker wavelet", "statement": "ricker returns the requested number of samples for every non-zero sampling interval. Sample k is the wavelet at time k dt: up to a constant factor the second derivative of a Gaussian around the peak time. Its values lie between -2 exp(-3/2) and 1; it is 1 at the peak time and nowhere else, zero exactly 1/(sqrt(2) pi freq) from it and lowest exactly sqrt(3/2)/(pi freq) from it. It is symmetric about the peak, and does not depend on the unit of time.", "quantifier": "every frequency other than zero, length, sampling interval and peak time", "why_tests_cant": "tests look at a few wavelets; a frequency off by a factor or a square of the wrong term keeps the peak of 1 and looks plausible", "anchors": ["src/deepwave/wavelets.py:9-40"]}
{"id": "C68", "title": "scalar on a CUDA device solves the user's wave equation", "statement": "When the tensors of an accepted call of scalar are on a CUDA device, then however the threads of the kernels interleave, every shot gets exactly the data and wavefields that the CPU gives it. So its wavefields solve the wave equation of the user's model, grid spacing, PML and sources, from rest, and its data are the wavefield at the user's receivers, resampled to the user's interval. Calls whose grids CUDA accepts do run.", "quantifier": "every accepted call in one to three dimensions with sizes below 2^31, every batch of shots with shared or own models, every number of sources and receivers (ignored ones included), every interleaving of the threads", "why_tests_cant": "tests run a few batches on one device; flattened indices, per-shot offsets or a shared model mistaken for a batched one only show for particular shapes, and an interleaving cannot be chosen", "anchors": ["src/deepwave/scalar.py:489-585", "src/deepwave/scalar.py:686-934", "src/deepwave/scalar.cu"]}
{"id": "C69", "title": "gradients through scalar are derivatives with respect to the user's wavespeed and amplitudes", "statement": "Take an accepted call of scalar with the largest wavespeed given, a time step that is not subdivided and every step stored for the gradient. Change the wavespeed and the source amplitudes along any differentiable path. The changed calls are accepted and run, and the derivative of any differentiable objective of the receiver data of all shots is the sum, over the user's wavespeed cells and amplitude samples, of the gradients that the backward pass leaves there times the changes. This counts the padding of the model, the cut to the survey area, models shared by shots, and the scaling of the amplitudes by the wavespeed at the sources. Cells outside the survey area and the amplitudes of ignored sources get gradients of zero.", "quantifier": "every such call in one to three dimensions, every batch with a shared or per-shot model, every set of sources and receivers (ignored ones included), every objective with a gradient at the data, every differentiable path of the two inputs, every order of the cells in the kernels", "why_tests_cant": "gradcheck compares against finite differences on a few tiny models; a dependence that is missed (source scaling, replicated edge cells, a model shared by shots) is within the tolerance of most of them", "anchors": ["src/deepwave/scalar.py:489-585", "src/deepwave/scalar.py:937-1343", "src/deepwave/common.py:661-698", "src/deepwave/common.py:2012-2087"]}
{"id": "C70", "title": "the gradient through scalar_born with respect to the scattering potential is the derivative with respect to the user's tensor", "statement": "Take an accepted call of scalar_born whose time step is not subdivided and in which every step is stored for the gradient. Change the scattering potential along any differentiable path. The changed calls are accepted and run, and the derivative of any differentiable objective of the scattered receiver data of all shots is the sum, over the cells of the user's scattering potential, of the gradient that the backward pass leaves there times the change. This counts the cut to the survey area, the padding with zeros, potentials shared by shots, and the scaling of the scattered source amplitudes by the potential at the sources. Cells outside the survey area get a gradient of zero.", "quantifier": "every such call in one to three dimensions, every batch with a shared or per-shot potential, every set of sources and receivers (ignored ones included), every objective with a gradient at the scattered data, every differentiable path of the potential, every order of the cells in the kernels", "why_tests_cant": "gradcheck compares against finite differences on a few tiny models; the contribution of the scaled amplitudes touches only the source cells and sums over shots hide a missing one", "anchors": ["src/deepwave/scalar_born.py:423-594", "src/deepwave/scalar_born.py:941-1424", "src/deepwave/common.py:661-698", "src/deepwave/common.py:2012-2087"]}
