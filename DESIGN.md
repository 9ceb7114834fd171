# Formal model of photontorch in Rocq (Coq 8.16.1)

`properties.jsonl` lists the properties, `MANIFEST.json` which theorems settle them (121 claims:
56 proved, 65 partial), `seeded/LOG.jsonl` the wrong programs the theorems were tested against.
"partial" means: the property as stated is false of the code (there is a theorem `..._refuted`), or it is
proved under a condition that the manifest names (`..._partial`).

## Layout

| files (rocq/theories) | contents |
|---|---|
| `Base` | results and exceptions, list helpers |
| `PyStr` | the Python string operations used to encode connections: `split(":")`, `":".join`, `strip`, `int(s)`, `%i` |
| `NetModel` | `Network.link`, `_set_buffers`, `set_C`, `set_port_order`, `Component._set_buffers`, `add_component`, `terminate` |
| `SimModel` | `Network.initialize`, `_simulation_buffer`, `step`, `forward` (real and imaginary part kept apart, as in the code) |
| `CacheModel` | when `forward` re-initialises |
| `CompModel` | `set_S`, `set_delays` and flags of every built-in component, `BoundedParameter`; over the reals |
| `EnvModel` | `Environment.__init__`, `_arange`, `copy`, `__eq__`, `__setattr__`; over the rationals |
| `LifeModel` | one network object over several calls: what a raising or broken-off `initialize` leaves behind, components initialized elsewhere, `forward` with stored data (broadcasting of mask and buffer) |
| `EnvKwModel` | keyword arguments, old names and extra attributes of environments, `copy` by dictionary, `set_environment`'s arguments |
| `FloatModel` | the numbers of grid points and of delay steps in binary64 and binary32 (`SpecFloat`) and in any arithmetic with bounded relative error; `SFloat` proves what the subtraction and division of `SpecFloat` mean as real numbers, `FloatMono` that its division and addition of positive numbers are monotone |
| `ObjModel` | programs on networks as objects: identity, the shallow copies of `terminate`, with-blocks that register components |
| `RoundSpec` | the main loop in rounded arithmetic, binary floating-point numbers |
| `StackModel` | with-blocks of networks and environments, `set_environment`, the gradient mode |
| `SourceModel` | `Network._handle_source` |
| `NNModel` | `BitStreamGenerator`, `MSELoss`, `BERLoss` |
| `FilterModel` | `lfilter`, `LowpassDetector`, `Photodetector` |
| `ActModel` | `Network.action`, the SOAs |
| `MeshModel` | Clements, Reck and ring networks |
| `AttrModel` | `Module.__setattr__` and the attribute tables of torch, the constructors of the components |
| `DevModel` | devices of modules, gradients and forward passes, checks of constructors |
| `PlotModel` | `plot`, `graph`, `_Loss.plot` |
| `DrawModel` | the texts and lines of drawn graphs |
| `PrintModel` | printed numbers, environments and components |
| `MmiModel` | the constructor of MMIs |
| `ExampleModel` | the networks of example notebooks 0, 1, 2 and 9, as the calls that build them |
| `DeepModel` | deep copies of bounded parameters |
| `*Spec` | small specifications, independent of the models |
| `Prop*` | the property theorems, each with `Print Assumptions`, an example that meets its hypotheses, and refutations |
| all others | lemmas (`RingExample`, `Gauss`: an executable instance over the rationals with a linear solver) |

Models contain no proofs. Every model definition cites the file and lines it models.

## Conventions

* Exceptions are values: `Err ValueError`, `Err IndexError`, ...
* Tensors are functions from indices, with explicit dimensions.
* Ports and indices: `nat`; Python ints that may be negative: `Z`. Environment arithmetic, rates,
  latencies: exact rationals `Q`, so the models run. Rounding only in `FloatModel` and `RoundSpec`.
* Simulation: an arbitrary commutative ring (so statements hold for exact complex numbers and the model
  runs on `Z` and `Qc`); statements about energy and components: the reals `R`.
* `torch.linalg.solve` (network.py:522) is an external call. The theorems quantify over every
  function that returns a solution of the system it is given, or fails; those about success over solvers
  that find the solution of every regular system. `Gauss.v` proves that such a solver exists.
* Other external calls (scipy filters, numpy's random numbers and log10, user-defined factories and
  actions) are arbitrary functions.

## Method

* C01-C12, C66: lemmas on split/join/int, then invariants of the folds over the connections; histories of
  calls by induction. * C13, C14: semantics of programs of nested with-blocks.
* C15-C24: the rolling buffer refines the full history, the reduced matrices refine the wave equations
  at every port; the rest are consequences of the recurrence.
* C25-C27, C67, C68: energy and reciprocity of the wave equations, by induction over nested networks.
* C35-C41: real analysis of the scattering matrices. * C45-C52, C69: decision logic, rational arithmetic.
* C53-C59, C70-C78: integer arithmetic on sample indices, recursion on the sample index.
* C60-C64: a typed form of the connection strings, so that statements about strings for every N become
  statements about port numbers; unitarity by composing the layers' actions; success because light only
  runs forward.
* C82, C83: a Reck diagonal turns one vector onto a line; the columns of a Clements mesh sort the
  pivots of the rows of the target like an odd-even transposition sort (`SortNet`), which leaves a
  triangular, hence diagonal matrix.
* C84: the difference from the frequency-domain solution is a solution without sources; the energy it can
  still send to the detectors is bounded by the energy stored in the delays, so the detected fields vanish.
* C100: in a mesh light only goes forward, so that ports have ranks; by induction on the rank, a port shows
  its final value once all ports of lower rank have shown theirs for as long as the largest delay.
* C101, C102: a bijection of the ports that preserves wires, scattering, delays and flags carries solutions of the
  wave equations over; it is built from the places of the ports in their components. C117, and C102 at any depth: induction
  over the circuit; a port's address is the path of names to its plain component.
* C103: held coarse solutions are fine solutions; uniqueness of solutions.
* C107, C108: the system solved at each time step stays regular close by (its inverse by elimination over the complex numbers);
  solutions are bounded, hence continuous, hence differentiable; induction on the time step. Circuits over pairs of a
  coefficient and its derivative; building a circuit commutes with evaluating its coefficients (`Family`).
  With active components (`DerivAct`) what active ports emit is treated as injected, with a derivative given by the
  chain rule through the actions; the past is differentiable by induction.
* C110: square roots of powers satisfy the triangle inequality, and the delays keep power; so what a step does wrong is
  passed on without growing. Error analysis of sums of products.
* C111: a number is scaled to four digits left of the point and rounded; carries are the case where this gives 10000. Reading
  is the inverse by the injectivity of decimal notation. C112: folds over strings are joins; that the constructor refuses
  what `repr` prints follows from `t0` and `t` being both present.
* C104-C106: dictionaries as association lists; the 22 arguments one by one.
* C85-C90: a frame (what a statement can change) for every operation on the heap; networks whose parts are
  not linked further keep agreeing with them.
* C91, C92: real analysis. * C93-C99: invariants of the attribute tables; induction over module trees and programs.
* C65, C79-C81, C115: index functions and case analysis on shapes. * C114: counting lines node by node; trigonometry.
* C118, C119, C120, C121: the matrices of the built network by computation, then the wave equations port by port.
* C116: an invariant of the memo of `deepcopy`.

## What is modelled, and what is not

Modelled, with the simplifications stated in the files: the code cited by the models, that is all of
`components/*`, `networks/network.py` (link, buffers, terminate, initialize, forward, step, action, source
handling, with-blocks), `networks/{clements,reck,rings}.py`, `networks/visualize.py` (what is drawn),
`environment/environment.py`, `nn/nn.py` (bounded parameters, attributes, devices, bit streams, losses, loss plots),
`detectors/*`.

Simplifications worth knowing:

* No overflow or nan; rounding only where stated (`FloatModel`, and C110: the main loop of simulations in float32 or
  float64, sums in a fixed order; C110_no_overflow is why passive circuits do not overflow).
* Names are ASCII strings; `link` takes None, ints and strings. Component names that torch's `add_module`
  refuses (attributes of modules such as "link" or "name", the empty name, names with dots) are only
  considered in `ObjModel`.
* Environment: arguments passed explicitly as None are not modelled except for the rates; numpy's
  division of an array by 0 gives 0.
* Losses and filters: one dtype and device.
* Meshes: sizes are natural numbers; factories are functions of the layer and call number.

* Attributes: torch's own `__setattr__`, `__getattr__`, `__delattr__` and `register_*` are modelled as we
  know them; read-only properties of classes are left out. Devices: only the attribute `device`.

Not modelled: autograd (only when gradients are reset, and that the derivatives it is asked for exist), optimisers, where tensors live, the numerical values of random numbers, `repr` of
parameters, matplotlib and networkx themselves, Python 2 support.

## Trusted base

* Coq's kernel (8.16.1; `vm_compute` is used in examples and refutations) and the tools that run it.
* That the models say what the code does. This was checked by reading only: the code was not run.
* Axioms of the standard library, as printed by `Print Assumptions` for each of the 482 theorems of the
  manifest. They come with the library's real numbers. No axiom of our own, no `Admitted`.

* **no axiom ("Closed under the global context")** (313 theorems): all theorems of the manifest that are not listed below
* **`sig_forall_dec`** (4 theorems): C35_roles C36_mmi C36_soa_refuted C43_built
* **`sig_forall_dec`, `functional_extensionality_dep`** (46 theorems): C107_active C107_differentiable C107_power C110_single_range C23_nonnegative C26_nested C26_passive C28_binary32 C28_binary64 C28_buffer32 C28_buffer64 C28_float_refuted C28_rounded_buffer C28_whole C35_connection C35_mmi C35_terms C46_binary64 C46_binary64_grid C46_float_count C47_binary64 C47_float_count C55_cube C55_detectors_refuted C55_matrix C55_matrix_full C55_nan C55_nonneg C55_one_dimension C55_one_target C55_value C55_zero C59_complex C59_filtered C59_power_partial C59_power_refuted C59_short C59_two C71_refuted C73_refused_partial C73_refuted C77_nyquist_equal C77_nyquist_refused C84_passivity_needed C92_dark C99_soa
* **`sig_forall_dec`, `sig_not_dec`, `functional_extensionality_dep`** (46 theorems): C107_agrawal C107_amplifier C110_converges C110_errors_add C110_no_overflow C110_rounded C114_draw_refuted C114_external_refuted C114_labels C114_lines C114_loop_refuted C114_parallel C115_accepted C115_exact C115_many_parts_refuted C115_one_part C115_one_part_refuted C115_outcome C35_coupler C35_mirror C35_mzi C35_realistic C37_mzi_ignores_loss C43_in_circuit C44_agrawal_imaginary C54_fraction C54_identical C54_low_rate_refuted C54_std C54_streams C54_unit C59_photo_complex_partial C59_photo_complex_refuted C59_photo_power_partial C59_photo_two C74_reflection_refuted C75_dark C75_large_step_refuted C76_no_noise_partial C76_no_noise_refuted C76_noise_partial C76_noise_unfiltered C84_settles C91_center C92_carriers C92_step
* **`sig_forall_dec`, `sig_not_dec`, `classic`, `functional_extensionality_dep`** (73 theorems): C100_clements_default C100_clements_universal C100_reck_default C100_reck_universal C107_soa C108_bounds_refuted C108_trainable C110_binary C110_builtin C118_all_pass C118_allpass C118_build_up C118_critical C118_formula C118_notebook C118_power C118_runs C119_adddrop C119_build_up C119_conserved C119_formula C119_resonance C119_runs C120_interferes C120_runs C120_xor C121_extinction C121_formula C121_free C121_ring C121_runs C35_builtin C35_coupler_length C35_grating C35_waveguide C36_grating C36_reciprocal C37_coupler_ignores_length C37_coupler_loss C37_coupler_refuted C37_mzi_refuted C37_waveguide C38_series C38_stored_phase C39_spectrum C40_create C40_refuse C40_roundtrip C40_training C41_training C43_final C43_gain C43_late_refuted C43_monotone C44_agrawal_refuted C44_soa_covariant C63_clements_default C63_reck_default C68_lossless C68_passive C68_reciprocal C75_bounds C82_reck_universal C83_capacity_refuted C83_clements_universal C83_narrow C84_builtin C91_realistic C92_output_refuted C99_mirror C99_outside C99_refuted C99_trainable

## What the proofs found

Behaviour of the code that contradicts its documentation or a reasonable reading of it; each has a
theorem, most of them named `..._refuted`.  For C08, C29, C30 and C31 there is also a theorem `..._exact`
that says precisely when, or what happens instead (PropExact.v).

* Building: a port can be wired twice (C04); a child network's port order is applied twice (C05); gaps in
  the external numbers lose ports (C06); the port-order check accepts non-permutations (C07); negative
  indices defeat the self-connection check (C08); a failed `link` poisons the network (C09); a second
  component silently replaces the first until it is linked (C10); a network with a name cannot be
  terminated, because storing the original as `base` insists on that name (C11, C89); networks that contain a
  network do not notice when it is linked further (C85); the order of the links fixes the order of the channels (C101); an object assigned to two attributes has one name (C90).
* with-blocks: `terminate` adds its terms to the network being defined (C88); an exception leaves the network stack changed (C13); re-entering an environment loses the
  gradient mode (C14).
* Simulation: components that mix delayed and instantaneous ports lose light (C29); no detectors or a
  single time step fail (C30); results depend on the time step unless delays are whole steps (C103); in float32 a delay just below half a step takes a step (C28); parameters changed under `no_grad` are ignored (C31); after a simulation that failed, simulations in the previous environment fail, too, and components shared by two networks use the time step of the other one (C109); short sources fail
  unless their length is two (C34).
* Components: LinearSoa transmits one way only (C36); the MZI ignores its loss and the coupler with length
  its length (C37); SOAs with start-up time 0 never amplify (C43); AgrawalSoa never amplifies the imaginary
  part (C44); SOAs reflect their input (C74); MMIs refuse arrays with real and imaginary parts and take single parts twice (C115); sub-networks shift the actions of later components (C42).
* Modules: a bounded attribute cannot be fixed again, without notice (C93); replaced Parameters are trained
  on (C95); mirrors are parameters even if not trainable (C95); `to(dtype)` loses the device (C96); networks
  terminated on a GPU say they are on the CPU (C97); using a network again discards its gradients (C98);
  fixed couplers accept any coupling (C99); couplings and reflectivities of exactly 0 or 1 have no gradient (C108); the linewidth enhancement of AgrawalSoa is not used.
* Environment: `num_f` with `wl1` fails (C48); copies of single-step environments fail (C49); unequal grids
  compare equal (C51); bounds are silently ignored (C69); the old name of an argument silently wins over the new one (C104); an extra argument
  `_initialized` makes the constructor fail (C104); copies lose attributes with an underscore and turn True into 1 (C105);
  `set_environment` ignores two positional arguments (C106); the `repr` of an environment can never be evaluated, and a copy
  with an empty array has no HTML table (C112); grids lose their last point to rounding (C46, C47).
* nn: negative latencies round the wrong way (C56); lists of bits are refused (C70); the constructor's seed
  is not reproducible (C71); negative warm-ups pass (C73); (time, detector) predictions are compared as
  batches (C78); microseconds cannot be plotted (C79).
* Detectors: the filter's numerator is reversed (C57); two time steps are taken for a complex signal (C59).
* Meshes: capacity 1 gives an empty network (C64); Clements meshes with fewer columns than lines cannot
  realise every unitary matrix (C83).
* Plots: see C65, C80, C81.

Seen while reading, without a theorem: the default `df` has a digit missing in the speed of light, but is never used; `Capacity2ClementsNxN` shares
one waveguide object between both ends; LinearSoa's amplification is a factor of the field, Soa's one of
the power.
