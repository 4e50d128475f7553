# Formal model of deepwave: design

Source: `/repo` (ar4/deepwave, pinned commit), read as text; never built or run here.
Development: Rocq (Coq 8.16.1), `rocq/theories`, library prefix `Verif`.

## 1. How the code is modelled

* **Numbers.** Every numeric definition of the model is polymorphic in a record
  `ops` (carrier, `0 1 + * - opp`, and an injection of rational literals).  The model
  contains no laws; theorems that need algebra assume that the operations form a
  commutative ring (`is_ring`, a `ring_theory` with Leibniz equality).  Floating point
  rounding, overflow and NaN are *not* modelled: all statements are about exact
  arithmetic.  Instances: `Z`, `Qc` (executable examples), `R`, the ring `dual K` of dual
  numbers over any `K` (used to *specify* derivatives) and functions.
* **Derivatives.** "Exact derivative" is specified independently of the adjoint code: run
  the *forward* model over `dual K` on `input + eps * perturbation`; the `eps` part of the
  output is the directional derivative.  C61 (`Deriv*`, `StagDeriv`) justifies this over the reals: by
  parametricity of the models, the eps part is `derivable_pt_lim` of `h |-> output (input + h * perturbation)`.
* **Arrays.**  The C kernels are modelled on flat memory `Z -> K` with the index arithmetic
  of the code (row-major, `i + k*stride`), in-place updates cell by cell, regions, ping-pong
  buffers, snapshots.  The Python backend is modelled as whole-array formulas.  Both are
  proved equal to a small functional ("central") model on points `list Z`, valid for every
  number of dimensions.
* **Loops** become folds/structural recursion; exceptions become `option`/sum values;
  no fuel is used where a structural argument exists.

## 2. Trusted base

* Coq's kernel.  `Print Assumptions` stands under each property theorem.
* Axioms, all from the standard library, all through its real numbers:

  | file | axioms reported |
  |------|-----------------|
  | `PropReal.v` (C25, C29, C35) | `ClassicalDedekindReals.sig_forall_dec`, `ClassicalDedekindReals.sig_not_dec`, `FunctionalExtensionality.functional_extensionality_dep`, and `Classical_Prop.classic` for some |
  | `PropResample.v` (C31), `PropEnergy.v` except `C26_conserved` | `sig_forall_dec`, `sig_not_dec`, `functional_extensionality_dep` |
  | `PropStagEnergy.v` (C48, C29) except `C48_conserved` and C49 | `sig_forall_dec`, `sig_not_dec`, `functional_extensionality_dep`, `classic` |
  | `PropPrepare.v` (C50) | `sig_forall_dec`, `functional_extensionality_dep` |
  | `PropUser.v` (C53, C54), `PropUserEqs.v` (C56), `PropUserAcoustic.v` (C57), `PropUserElastic.v` (C58), `PropUserBorn.v` (C65), `PropWavelet.v` (C67), `PropUserGpu.v` (C68), `PropUserGrad.v` (C69), `PropUserBornGrad.v` (C70) | `sig_forall_dec`, `sig_not_dec`, `functional_extensionality_dep`, `classic` |
  | `PropDeriv.v` (C61), `PropGpuComp.v` (C62) | `sig_forall_dec`, `functional_extensionality_dep` |
  | `PropStorage.v` (C23, C24) | `sig_forall_dec`, `functional_extensionality_dep` |

  Every other property theorem is closed under the global context.  There is no axiom of our
  own and none of another library.
* The reading of `/repo`: each definition cites file and lines.  Tables (stencils, names,
  parameter lists) are transcribed by hand.

### Modelled

* `scalar.c`, `scalar_born.c`, `acoustic.c`, `elastic.c`: forward and backward kernels with their
  flat arrays, regions, ping-pong buffers, injection, recording, snapshots, gradient accumulation.
* `scalar.cu`, `scalar_born.cu`, `acoustic.cu`, `elastic.cu`: forward and backward kernels as threads of single loads and stores in any interleaving, grids and
  blocks with 32-bit indices and the limits on the grid, time loops (snapshots on the device, without compression).
* All four `.cu` propagators: the order of kernels, saves and loads in the two streams, with their events (`storage_utils.cu`);
  the kernels are arbitrary functions there.
* `simple_compress.cu`: both kernels, as blocks of threads with barriers and shared memory.
* `simple_compress.c`, `storage_utils.c`: compression, storage; `common_cpu.h`: thread buffers and their
  combination; `regular_grid.h`, `staggered_grid.h`: the difference formulas.
* `scalar.py`, `scalar_born.py`, `acoustic.py`, `elastic.py`: drivers of the forward, backward and
  double backward functions (chunks, callbacks, buffer swaps, zeroing), Python backends, scaling of
  sources, preparation of models (`StagSetup.v`), names.
* `common.py`: extraction of the survey area, padding, locations, CFL condition, resampling, PML
  widths, `get_ndim`, storage, `setup_propagator` with its checks; `regular_grid.py`, `staggered_grid.py`: PML profiles;
  `location_interpolation.py`: Hicks interpolation; `wavelets.py`: the Ricker wavelet; `backend_utils.py`: function look-up and declared types.

### Not modelled

* Floating point (rounding, overflow, NaN), except that C34 has a refutation at binary32 cell numbers.
* PyTorch: the tensor library, the autograd engine (its effect on the Python code of `scalar` is written out in `UserGradModel.v`, on that of `scalar_born` for the scattering potential in `UserBornGradModel.v`), `vmap`, `torch.compile`; `torch.fft` is the
  mathematical DFT.
* what the CUDA runtime does beyond streams and events; weak memory; CMake and packaging; the operating system
  (files are lists of records); overflow of C integers.
* the `Module` wrappers, which only pass arguments on.
* The accuracy of the schemes beyond C16 (order of the stencils) and C46 (discrete equations).

## 3. Plan per property

| id | model and proof plan |
|----|----|
| C01, C02, C03 | `scalar.c` forward/backward and the drivers in `scalar.py`; one theorem: eps-part of `<upstream, outputs>` of the dual-number forward run = pairing of returned gradients with the perturbations; induction on time with a per-step summation-by-parts identity. C03 for arbitrary snapshot interval, with a refutation of exactness for k>1. |
| C04, C05, C43 | Born forward step = scalar step over dual numbers; Born backward = scalar backward over dual numbers; gradients by instantiating C01/C02 at `dual K`. |
| C06, C07 | same scheme for `acoustic.c` and `elastic.c`. |
| C08, C39, C45 | refinement C kernel (flat, regions, in place, any visiting order) = central = Python whole-array formulas under the PML-support invariants. |
| C09, C10 | chunked driver loops with buffer swaps; induction on chunks. C10 is expected to be refuted for several threads and a shared model (per-thread buffers are re-added each chunk). |
| C11, C30 | schedules: shots touch disjoint memory; any interleaving/assignment gives the same result; thread buffers sum. |
| C12 | driver arithmetic `(nt // k) * k`; expected refuted when the interval does not divide nt, proved otherwise. |
| C13, C14, C15, C28 | central model: linearity, time reversal, restart, causality/domain of dependence by induction. For the Born propagator: by instantiating at `dual K`. |
| C16, C17 | stencil tables over Q; polynomials; summation by parts on arbitrary grids. |
| C18 | record/add guards; induction on time. |
| C19-C21, C32, C33, C41, C42 | functions of `common.py` over `Z` lists. |
| C22, C38 | index arithmetic of kernels; poison algebra for reads. C38 expected refuted. |
| C23, C24 | storage state machine, append-only files; compression over rationals. |
| C25, C29 | real analysis (`Reals`): CFL, PML profiles. C29 expected to fail for pml_freq = 0 (0/0). |
| C26, C27 | energy identity and positivity; reciprocity from the symmetric form. |
| C31 | DFT over an abstract root of unity / complex numbers. |
| C34 | Hicks spreading/gathering matrices. |
| C35 | real algebra with eps. |
| C36 | name tables and argument templates as finite data. |
| C37 | double backward through the Born kernels. |
| C40, C47 | name/tensor zips of callbacks; 3-D elastic expected refuted; output order. |
| C44 | Born kernels write only their own arrays (poison algebra). |
| C48, C49 | summation by parts; positivity from Cauchy bounds on the stencils and the CFL time step. C48 expected to fail for large density contrasts. |
| C51, C52 | the half steps without PML: reversal of the velocities inverts a step; pairing of two runs by summation by parts. C52 expected to fail for elastic pressure sources, which are not scaled by the moduli. |
| C53, C54 | `scalar` from the user's arguments to the data (without initial wavefields and callbacks) on top of C19-C21, C25, C29, C31 and the kernels; C54 by C28 (finite speed) with profiles and models in the user's coordinates. |
| C55 | Born run over dual numbers of dual numbers (a background with two perturbations); linear combination by parametricity. |
| C56 | The equations of C46 in the user's coordinates: CPML profiles as functions of the depth in the PML, the model continued beyond the survey area by its nearest cell, the amplitudes resampled; the data are the resampled wavefield at the receivers. |
| C57 | As C56 on the staggered grid, for any list of kinds of sources and receivers (`UserStag.v`), then the equations of `acoustic`. The time step (`UserStep.v`): C25 with the maximum over the user's model. |
| C58 | As C57 for `elastic`; its models are averages over two and four cells, and the pressure is scaled after the resampling, which is linear (C31). The time step as in C57, with the maximum over both wave types of every shot (a bug in it survived the first round of wrong programs). |
| C59 | Threads as programs of loads and stores; threads that own what they write commute, so any interleaving of a launch equals processing its items in turn; the items of a launch are exactly the interior cells of all shots; simulation of the CPU run of each shot. |
| C60 | Commands in streams, events as last record before a wait; an execution may run any command that no unfinished earlier command is linked to. Commands that are not ordered commute, so every execution equals the host's order; then the double-buffered loop equals the plain one by induction. Expected to hold of all four propagators, refuted for scalar and Born. |
| C61 | Run the model over functions of the parameter; by parametricity it is at each parameter the real run, and its dual-number run at 0 has the derivatives. So the dual outputs of C02, C04 and C06 are true derivatives, and the chain rule with the objective's derivative gives the statement. |
| C62 | Blocks of threads with barriers; every execution equals the one that runs blocks, phases and threads in turn, if within a phase no thread touches what another stores. The tree reduction is the maximum by induction on its levels. |
| C63 | As C59 for the staggered-grid model of groups and phases: each cell of a phase writes only its own cells and reads nothing that other cells of its phase write, so a launch equals the CPU's loop in each shot; gradients of shared models go through one block per shot and `combine_grad`. |
| C64 | As C59 with every array twice, for the background and the scattered wavefield: the cells kernel writes both wavefields of its own cell only, so a launch equals the CPU's loop over the cells in each shot; the gradients of a shared wavespeed or scattering potential go through one block per shot and `combine_grad`. |
| C66 | The reduced kernel is simulated by the kernel of `scalar.cu` on a memory in which every snapshot is multiplied by `2 v dt^2` of its cell (`exec_sim` in `BornScGpu.v`), so the results of C59 about launches carry over; the CPU's reduced pass is the CPU's scalar pass with the same snapshots. With C64 and C05 the reduced and the full pass of the device agree. |
| C67 | calculus over the standard library's reals: the lower bound is `1 + x <= exp x`, with equality only at 0. |
| C68 | The memory of the batch (`UserGpuModel.v`: rows of locations, amplitudes and models one after the other) restricted to a shot is the shot's own input of C53; then C59 for the kernels, relational invariance (`Param.v`) because the model is only given inside its array, and C56. Hypotheses beyond those of C56: rectangular location tensors (a PyTorch tensor always is), at most three dimensions, sizes below `2^31`. No initial wavefields or callbacks; real arithmetic. |
| C69 | `UserGradModel.v` adds to the kernel's backward pass what PyTorch's autograd does with the Python code of `scalar`: the gradient of a padded cell goes to the user's cell it was copied from, copies are added, and the scaling of the amplitudes by the squared wavespeed at the source contributes to both inputs. The proof first shows that the changed call has the same setup but for models and amplitudes (`setup_with`; this needs `max_vel`, otherwise the time step depends on the wavespeed), then uses C61 for each shot with the padded model and scaled amplitudes as curves, and exchanges sums. The step ratio is one (no resampling, whose gradient is not modelled) and every step is stored (otherwise the gradient is an approximation, C61). The objective is only assumed to have a gradient at the data (`data_gradient`), which `misfit_gradient` shows for least squares. `C69_outside` is about every value of the kernel's outputs; `C69_ignored` uses the specification of the backward pass. |
| C70 | `UserBornGradModel.v` does for the scattering potential of `scalar_born` what `UserGradModel.v` does for the wavespeed of `scalar`: the gradient of a padded cell goes to the user's cell it was copied from, padding is zero and passes nothing on, copies are added, and the scaling of the scattered amplitudes by `-2 v scatter dt^2` at the source contributes. The setup does not depend on the values of the potential (`born_setup_with`), so `max_vel` is not needed. The backward pass is the reduced one that the code chooses when nothing of the background needs a gradient; the proof goes through `born_backward_sc_half` (C05) and `born_gradient_real` (C61). Not covered: gradients of the wavespeed and amplitudes through `scalar_born`, objectives of the background data. |
| C65 | `UserRegular.v` is the part of C56 that only needs the setup of a regular grid, for any list of models and locations. The step of `scalar_born` is a step over dual numbers (C08), whose real part is the step of C56 and whose dual part is the linearised step. Uniqueness by induction over the steps (`UserUnique.v`), from which the comparison with `scalar` and the linearity (with C31 for the resampling) follow. The linearised equation has the potential zero in the PML, whereas the wavespeed is continued there: a derivative of `scalar` in a direction that does not vanish at the edge of the survey area is a different quantity. |
| C50 | the averaging code over the reals with its guarded inverses. |
| C46 | the equations of the documentation as a separate specification; the kernels follow them. |

## 4. Files

| files (`rocq/theories`) | contents |
|---|---|
| `Ops`, `Sums`, `Grid`, `Stencil`, `StencilOrder`, `DualNum`, `Loop`, `Param` | numbers, sums, points and boxes, difference formulas, dual numbers, loops |
| `Scalar*`, `PyBackend` | scalar propagator: kernel, driver, Python backend, gradients, physics |
| `Born*`, `Double*` | Born propagator, double backward |
| `Shots*`, `Safety` | several shots and threads of the scalar propagator; bounds of memory accesses |
| `StagParam`, `StagShots*` | several shots and threads of the acoustic and elastic propagators |
| `StagPhys*`, `StagRecip` | time reversal and reciprocity of the acoustic and elastic propagators |
| `StagReach*` | finite propagation speed of the acoustic and elastic propagators, in half cells |
| `StagSafety*` | bounds of memory accesses of the acoustic and elastic kernels |
| `Stag*` | one model of all staggered-grid kernels: equations, kernel, refinement, adjoint, runs |
| `Acoustic*`, `Elastic*` | its two instances, with their Python backends |
| `ScalarEqs`, `StagEqs`, `EqsUser` | the equations of the documentation, as specifications |
| `Geom*`, `SetupModel` | extraction, padding, locations, shapes |
| `Real*`, `Energy*` | CFL, PML profiles, parameter conversions; energy and stability |
| `StagEnergy*`, `StagStable`, `StagUnstable`, `StagSetup`, `StagAvg` | energy and (in)stability of the staggered propagators; their prepared models |
| `User*` | `setup_propagator` and the functions `scalar` and `acoustic` from arguments to data |
| `Storage*` | snapshots, files, compression |
| `Threads`, `Gpu*` | executions of GPU threads; CUDA kernels, launches and drivers |
| `StagGpu*` | CUDA kernels and drivers of the acoustic and elastic propagators |
| `BornGpu*` | CUDA kernels and driver of the scalar Born propagator (both wavefields) |
| `BornScGpu*` | CUDA kernel and driver of its reduced backward pass (scattered wavefield alone) |
| `Wavelet*` | the Ricker wavelet |
| `Barrier`, `GpuComp*` | blocks of threads with barriers; compression on the device |
| `Stream*` | streams and events of the CUDA propagators, double-buffered snapshots |
| `Deriv*`, `StagDeriv` | derivatives over the reals: curves of inputs, objectives, examples |
| `Hicks*`, `Resample*` | interpolated locations; time resampling |
| `Abi*`, `Names*` | names, argument lists and types; callback names and output order |
| `Prop*` | the property theorems, each with `Print Assumptions` and an example |

## 5. Status and findings

`MANIFEST.json` has the status and the theorems of each property.  A property is `partial` where
the claim as worded is false of the code; the part that holds is then proved, and the counterexample is a
theorem named `..._refuted`:

| theorem | finding |
|---|---|
| `C04_padding_refuted` | `scatter` is padded with zeros but `v` by replication, so Born data are not the derivative with respect to the models the user passes |
| `C06_narrow_refuted`, `C07_narrow_refuted` | acoustic and elastic gradients are wrong when a padded dimension is narrower than about three stencil halves plus its PML |
| `C08_zero_steps_refuted` | for no steps the compiled and Python backends return different PML fields |
| `C10_threads_refuted`, `C10_acoustic_threads_refuted`, `C10_elastic_threads_refuted` | with a shared model and several threads each chunk of a backward callback adds the thread buffers again |
| `C12_refuted` (and `C12_*truncated`, `C12_*short*raises`) | when the sampling interval does not divide `nt` the last steps are not taken; fewer steps than the interval raise |
| `C15_refuted` | continuing from returned wavefields differs from one long run when the first run is not a multiple of the sampling interval (its last steps are not taken, C12) |
| `C19_partly_ignored_refuted` | a location with only some coordinates ignored becomes a halo cell |
| `C20_all_ignored_refuted` | with all locations ignored the survey area is inverted |
| `C25_zero_dt_raises` | `dt = 0` raises in the CFL computation |
| `C29_zero_freq_refuted` | `pml_freq = 0` is accepted and evaluates 0/0 |
| `C31_odd_refuted` | resampling zeroes the last rfft bin also for odd lengths, where it is a genuine frequency |
| `C33_range_refuted`, `C33_scalar_refuted`, `C33_z_field_refuted` | dimensions outside 1..3, tensors of rank 0 and leading z/y fields escape the check |
| `C34_float32_refuted`, `C34_cache_refuted` | Hicks: a contribution is lost at large binary32 coordinates; cached weights ignore on which side a free surface lies |
| `C36_scattered_refuted` | CPU `backward_sc` is called with one argument more than it has parameters |
| `C37_truncated_refuted`, `C38_refuted` | double backward reads a snapshot slot past the end when the interval does not divide `nt` |
| `C40_*_refuted` | callback dictionaries of the elastic propagator: 3-D model names, one missing field, exchanged shear names in `elastic_python` |
| `C48_refuted` | the CFL condition ignores density: for steel next to air at the default accuracy 4 the acoustic propagator grows sixfold per step with an accepted time step |
| `C52_elastic_pressure_refuted` | elastic pressure sources are scaled by the time step only (acoustic ones also by the bulk modulus), so exchanging source and receiver scales the trace by the ratio of the moduli |
| `C53_interval_zero_refuted` | `model_gradient_sampling_interval = 0` is accepted (only negative values are rejected) and then divides by zero |
| `C57_velocity_locations_refuted`, `C58_velocity_locations_refuted` | `acoustic` (and `elastic`) compare velocity locations with the model's shape, not with the survey area: without a PML at the far side a velocity receiver in the last cell of the area records zeros |
| `C59_callback_gradient_refuted` | on a CUDA device, with a shared model and several shots, each chunk of a backward callback adds the buffers of all shots again (as `C10_threads_refuted` on the CPU, but for any batch) |
| `C63_callback_gradient_refuted` | the same for `acoustic.cu` (and `elastic.cu`, whose driver has the same calls) |
| `C64_callback_gradient_refuted` | the same for both model gradients of `scalar_born.cu` |
| `C66_callback_gradient_refuted` | the same for the scattering potential in the reduced pass |
| `C59_same_cell_refuted` | `add_sources` on the device is a plain read and write: the uniqueness check of locations is needed, otherwise an amplitude can be lost |
| `C60_last_snapshot_refuted` | `scalar.cu` and `scalar_born.cu` set `event_storage_done` back to the first event in steps without a snapshot: with a snapshot interval above one and an even number of snapshots, the wait at the end of the forward call misses the last save, so the backward propagation may load the last snapshot before it is saved (`acoustic.cu` and `elastic.cu` are right) |

Smaller observations, not theorems of their own: the fold test of Hicks is strict, so a dipole on the end
surface gives slices that do not fit; `sigmaxx_0` is missing from the list of x fields in `get_ndim` and
`check_inputs_not_vmapped` (`elastic.py`); `elastic_python` returns the unmasked receiver amplitudes (harmless,
see C45); backward callbacks of scalar and Born see `wavefield_m1` with the opposite sign of the returned gradient;
cells of zero wavespeed that do not start at rest grow linearly (C26 bounds increments there); CUDA launches are refused
for 65536 or more shots (`C59_shots_limit`), which the CPU accepts.

### Testing against wrong programs

`seeded/LOG.jsonl` has one line per edit of a scratch copy, `seeded/README.md` explains the fields.  Six edits led to
stronger theorems (`tightened` in the log).  The survivors that remain are explained in their `note`.
