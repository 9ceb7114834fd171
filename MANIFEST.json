{
 "claims": [
  {
   "property": "C01",
   "status": "proved",
   "theorems": [
    "C01_link_chain"
   ],
   "note": "All chains whose first/last piece may lack a port, all ways of writing the external numbers."
  },
  {
   "property": "C02",
   "status": "proved",
   "theorems": [
    "C02_wiring",
    "C02_nested_symmetric"
   ],
   "note": ""
  },
  {
   "property": "C03",
   "status": "proved",
   "theorems": [
    "C03_child_wiring"
   ],
   "note": ""
  },
  {
   "property": "C04",
   "status": "partial",
   "theorems": [
    "C04_partners_partial",
    "C04_num_free",
    "C04_exact",
    "C04_double_wiring_refuted"
   ],
   "note": "Holds when no port is named twice; the full claim is false: link() accepts a port that is already connected (C04_double_wiring_refuted). C04_exact: true exactly if no two connections join a port to different ports."
  },
  {
   "property": "C05",
   "status": "partial",
   "theorems": [
    "C05_external_ports_partial",
    "C05_order_looked_up_twice",
    "C05_exact",
    "C05_nested_refuted"
   ],
   "note": "Holds when the components have the natural port order; false for nested networks whose child reorders its ports, because the child's order is applied twice. C05_exact: the declared numbers are honoured exactly if the children do not renumber the declared ports, and the resulting order in general."
  },
  {
   "property": "C06",
   "status": "partial",
   "theorems": [
    "C06_order_partial",
    "C06_exact",
    "C06_gap_refuted"
   ],
   "note": "Holds when the external numbers are 0..k-1 on different ports; with gaps exactly when the ports with numbers outside 0..k-1 are the last ports of the network (C06_exact); false otherwise."
  },
  {
   "property": "C07",
   "status": "partial",
   "theorems": [
    "C07_good_accepted",
    "C07_accepted_flags",
    "C07_rejected_orders",
    "C07_exact",
    "C07_bad_order_refuted"
   ],
   "note": "Good components are accepted and overlapping flags rejected; the port-order check accepts non-permutations and rejects every component without ports."
  },
  {
   "property": "C08",
   "status": "partial",
   "theorems": [
    "C08_no_self_wire_partial",
    "C08_negative_refuted",
    "C08_exact"
   ],
   "note": "Holds for non-negative port indices; 'a:1:a:-1' connects a port to itself. C08_exact says which connections do: same component, indices differing by its number of free ports."
  },
  {
   "property": "C09",
   "status": "partial",
   "theorems": [
    "C09_failed_buffers",
    "C09_refused",
    "C09_malformed_unchanged_partial",
    "C09_failure_permanent",
    "C09_failed_link_refuted"
   ],
   "note": "False: a failed link leaves its connections behind and later links fail; only malformed chains change nothing."
  },
  {
   "property": "C10",
   "status": "partial",
   "theorems": [
    "C10_linked_component_kept_partial",
    "C10_exact",
    "C10_replaced_refuted"
   ],
   "note": "Holds from the first link that mentions the name on; before that the second component silently replaces the first."
  },
  {
   "property": "C100",
   "status": "proved",
   "theorems": [
    "C100_feed_forward",
    "C100_clements",
    "C100_reck",
    "C100_clements_default",
    "C100_reck_default",
    "C100_clements_universal",
    "C100_reck_universal"
   ],
   "note": "Exact equality over rings and reals (not floats); components with equal delays at all ports, as the default ones."
  },
  {
   "property": "C101",
   "status": "proved",
   "theorems": [
    "C101_same_links",
    "C101_external",
    "C101_channels_refuted"
   ],
   "note": "Results are compared component by component: as a tensor, the result depends on the order of the links, since it fixes the order of the channels (C101_channels_refuted)."
  },
  {
   "property": "C102",
   "status": "partial",
   "theorems": [
    "C102_nested",
    "C102_substitute",
    "C102_flatten",
    "C102_deeper_refuted"
   ],
   "note": "Proved for circuits of any depth with the same plain components joined at the same ports (C102_nested), for one replacement and for one subnetwork taken apart. False for networks that contain replaced subnetworks and number their ports themselves, because of C05: such circuits do not join the same ports."
  },
  {
   "property": "C103",
   "status": "partial",
   "theorems": [
    "C103_refine",
    "C103_runs",
    "C103_grid_refuted"
   ],
   "note": "Proved for circuits whose delays are whole numbers of the bigger steps; false otherwise, since delays are rounded."
  },
  {
   "property": "C104",
   "status": "partial",
   "theorems": [
    "C104_old_name",
    "C104_old_wins",
    "C104_attributes",
    "C104_numbers",
    "C104_counts",
    "C104_self",
    "C104_arrays",
    "C104_flags",
    "C104_initialized_refuted",
    "C104_both_refuted"
   ],
   "note": "Old names mean the new ones and extra arguments become attributes; false that contradicting old and new names are refused, and of the extra argument _initialized."
  },
  {
   "property": "C105",
   "status": "partial",
   "theorems": [
    "C105_copy",
    "C105_old_name",
    "C105_extras_refuted"
   ],
   "note": "Extra attributes with an underscore are lost and booleans become integers."
  },
  {
   "property": "C106",
   "status": "partial",
   "theorems": [
    "C106_one",
    "C106_refused",
    "C106_two_refuted"
   ],
   "note": "False of two positional arguments."
  },
  {
   "property": "C107",
   "status": "proved",
   "theorems": [
    "C107_differentiable",
    "C107_active",
    "C107_amplifier",
    "C107_soa",
    "C107_agrawal",
    "C107_power"
   ],
   "note": "Components must not mix delayed and instantaneous ports; actions of active components have to be differentiable, which is proved for both amplifiers of the library. That torch's autograd computes this derivative is not modelled."
  },
  {
   "property": "C108",
   "status": "partial",
   "theorems": [
    "C108_trainable",
    "C108_bounds_refuted"
   ],
   "note": "Proved at all finite weights; at couplings 0 and 1 the square root has no derivative."
  },
  {
   "property": "C109",
   "status": "partial",
   "theorems": [
    "C109_independent_partial",
    "C109_new_network",
    "C109_failed_state",
    "C109_component_state",
    "C109_stale_mask",
    "C109_stale_buffer",
    "C109_depths",
    "C109_no_delays",
    "C109_failed_refuted",
    "C109_component_refuted",
    "C109_shared_refuted",
    "C109_refuted"
   ],
   "note": "True with gradients enabled, in another environment than that of the last successful initialization, or if nothing happened since; false otherwise."
  },
  {
   "property": "C11",
   "status": "partial",
   "theorems": [
    "C11_terminate_one",
    "C11_terminate",
    "C11_named_fails",
    "C11_named_refuted",
    "C11_base_refuted"
   ],
   "note": "Proved for networks without a name. Networks with a name, including every network that was linked into another one, cannot be terminated at all: the assignment to nw.base raises ValueError."
  },
  {
   "property": "C110",
   "status": "proved",
   "theorems": [
    "C110_errors_add",
    "C110_rounded",
    "C110_converges",
    "C110_builtin",
    "C110_binary",
    "C110_no_overflow",
    "C110_single_range"
   ],
   "note": "For passive circuits without active components. Sums are taken in the order of the model, and a linear solver in rounded arithmetic enters only through the accuracy of the matrices it leaves. Roundings have no largest number; C110_no_overflow shows that this does not matter."
  },
  {
   "property": "C111",
   "status": "partial",
   "theorems": [
    "C111_close",
    "C111_exact",
    "C111_order",
    "C111_nearest",
    "C111_layout",
    "C111_same",
    "C111_different_refuted"
   ],
   "note": "Numbers are rationals, so there is no minus zero, inf or nan."
  },
  {
   "property": "C112",
   "status": "partial",
   "theorems": [
    "C112_repr",
    "C112_str",
    "C112_values",
    "C112_names",
    "C112_units",
    "C112_undescribed",
    "C112_nonempty",
    "C112_html",
    "C112_html_refuted",
    "C112_eval_refuted",
    "C112_ambiguous_refuted"
   ],
   "note": "The contents are as stated; the HTML table exists for new environments; evaluation and uniqueness are refuted."
  },
  {
   "property": "C113",
   "status": "proved",
   "theorems": [
    "C113_text",
    "C113_determined"
   ],
   "note": "Class names contain no parenthesis."
  },
  {
   "property": "C114",
   "status": "partial",
   "theorems": [
    "C114_labels",
    "C114_lines",
    "C114_parallel",
    "C114_classes",
    "C114_subclass",
    "C114_draw_refuted",
    "C114_loop_refuted",
    "C114_external_refuted"
   ],
   "note": "Labels and lines are as stated; draw=False, self connections and external ports are refuted. Positions, random numbers and arctan2 are oracles."
  },
  {
   "property": "C115",
   "status": "partial",
   "theorems": [
    "C115_accepted",
    "C115_one_part",
    "C115_outcome",
    "C115_exact",
    "C115_array_parts_refuted",
    "C115_one_part_refuted",
    "C115_many_parts_refuted"
   ],
   "note": "The described weights give the described component; what else happens is stated exactly by C115_outcome."
  },
  {
   "property": "C116",
   "status": "proved",
   "theorems": [
    "C116_copy",
    "C116_module",
    "C116_storage_refuted"
   ],
   "note": "All parameters of the module are bounded ones. Two parameters that share a storage are separated by the copy (C116_storage_refuted)."
  },
  {
   "property": "C117",
   "status": "proved",
   "theorems": [
    "C117_made_of"
   ],
   "note": "For circuits in which the port order of every component and subnetwork is a permutation of its ports; C06 says exactly when it is."
  },
  {
   "property": "C118",
   "status": "proved",
   "theorems": [
    "C118_allpass",
    "C118_runs",
    "C118_formula",
    "C118_power",
    "C118_all_pass",
    "C118_critical",
    "C118_notebook",
    "C118_build_up"
   ],
   "note": "Real arithmetic; C110 bounds the rounding errors of passive circuits."
  },
  {
   "property": "C119",
   "status": "proved",
   "theorems": [
    "C119_adddrop",
    "C119_runs",
    "C119_formula",
    "C119_conserved",
    "C119_resonance",
    "C119_build_up"
   ],
   "note": "Real arithmetic; the notebook assigns one detector, coupler and waveguide object to several attributes, which the model writes once per attribute."
  },
  {
   "property": "C12",
   "status": "partial",
   "theorems": [
    "C12_none",
    "C12_too_many",
    "C12_fewer",
    "C11_named_fails",
    "C11_named_refuted"
   ],
   "note": "Proved for networks without a name; networks with a name are always refused, see C11."
  },
  {
   "property": "C120",
   "status": "proved",
   "theorems": [
    "C120_interferes",
    "C120_runs",
    "C120_xor"
   ],
   "note": "Real arithmetic. The training of the notebook is not modelled; the theorem says that the task has an exact solution and which one."
  },
  {
   "property": "C121",
   "status": "proved",
   "theorems": [
    "C121_free",
    "C121_ring",
    "C121_runs",
    "C121_formula",
    "C121_extinction"
   ],
   "note": "Real arithmetic. The optimizer of the notebook is not modelled; the theorem says where its loss vanishes."
  },
  {
   "property": "C13",
   "status": "partial",
   "theorems": [
    "C13_current_network_partial",
    "C13_leftovers",
    "C13_exception_refuted",
    "C13_refuted",
    "C13_outer_stays"
   ],
   "note": "False when a with-block is left by an exception: Network.__exit__ re-raises before it deletes the stack entry. Proved: restored in every program in which no with-block is left by an exception; in general exactly one entry stays per such block."
  },
  {
   "property": "C14",
   "status": "partial",
   "theorems": [
    "C14_current_environment",
    "C14_exceptions_propagate",
    "C14_gradient_mode",
    "C14_inside",
    "C14_none",
    "C14_reentered_refuted",
    "C14_set_environment_refuted"
   ],
   "note": "The current environment is always restored. The gradient mode is restored unless an environment is entered again inside its own block (refuted there: torch's manager remembers one mode only). set_environment inside a block refuted as stated in the property."
  },
  {
   "property": "C15",
   "status": "proved",
   "theorems": [
    "C15_nodes"
   ],
   "note": ""
  },
  {
   "property": "C16",
   "status": "proved",
   "theorems": [
    "C16_solves_wave_equations",
    "C16_unique",
    "C16_unique_result"
   ],
   "note": "torch.linalg.solve is assumed to return solutions (solver_sound); unmixed ports as in C29; no active components."
  },
  {
   "property": "C17",
   "status": "proved",
   "theorems": [
    "C17_delay"
   ],
   "note": ""
  },
  {
   "property": "C18",
   "status": "proved",
   "theorems": [
    "C18_linear",
    "C18_zero"
   ],
   "note": ""
  },
  {
   "property": "C19",
   "status": "proved",
   "theorems": [
    "C19_causal"
   ],
   "note": "Active components may be any functions of state, step number and field."
  },
  {
   "property": "C20",
   "status": "proved",
   "theorems": [
    "C20_time_invariant"
   ],
   "note": ""
  },
  {
   "property": "C21",
   "status": "proved",
   "theorems": [
    "C21_batches_independent"
   ],
   "note": ""
  },
  {
   "property": "C22",
   "status": "proved",
   "theorems": [
    "C22_wavelengths_independent"
   ],
   "note": ""
  },
  {
   "property": "C23",
   "status": "proved",
   "theorems": [
    "C23_power",
    "C23_phase",
    "C23_nonnegative"
   ],
   "note": ""
  },
  {
   "property": "C24",
   "status": "proved",
   "theorems": [
    "C24_steady_state"
   ],
   "note": "Sources and detectors must absorb (as the built-in ones do)."
  },
  {
   "property": "C25",
   "status": "proved",
   "theorems": [
    "C25_conservation",
    "C25_nested"
   ],
   "note": "Also proved for the time domain, where light still inside is counted."
  },
  {
   "property": "C26",
   "status": "proved",
   "theorems": [
    "C26_passive",
    "C26_nested"
   ],
   "note": ""
  },
  {
   "property": "C27",
   "status": "proved",
   "theorems": [
    "C27_reciprocity",
    "C27_nested"
   ],
   "note": "Time and frequency domain; ports that exchange light must have the same delay."
  },
  {
   "property": "C28",
   "status": "proved",
   "theorems": [
    "C28_nearest",
    "C28_monotone",
    "C28_frequency_domain",
    "C28_buffer_length",
    "C28_binary32",
    "C28_binary64",
    "C28_whole",
    "C28_rounded_buffer",
    "C28_buffer32",
    "C28_buffer64",
    "C28_float_refuted"
   ],
   "note": "Proved in exact arithmetic. In binary32 and binary64 the error is at most half a step and u(2x+1) for a delay of x steps (C28_binary32, C28_binary64), whole numbers of steps up to 4194302 are exact, and buffer and mask agree: for every monotone rounding (C28_rounded_buffer), and bit by bit in binary32 and binary64, whose division and addition are shown to be monotone (C28_buffer32, C28_buffer64; quotients zero or not subnormal); that the nearest integer is always taken is false in binary32 (C28_float_refuted: just below half a step, and odd numbers above 2^23)."
  },
  {
   "property": "C29",
   "status": "partial",
   "theorems": [
    "C29_partial",
    "C29_mixed_refuted",
    "C29_exact"
   ],
   "note": "True for circuits of components that do not mix delayed and instantaneous ports; a mixing component loses light (C29_mixed_refuted). C29_exact: every simulation is that of the circuit without the mixing coefficients."
  },
  {
   "property": "C30",
   "status": "partial",
   "theorems": [
    "C30_succeeds_partial",
    "C30_no_detectors",
    "C30_single_step",
    "C30_unterminated",
    "C30_refuted",
    "C30_exact"
   ],
   "note": "C30_exact says exactly which simulations succeed. Holds with at least one detector and a time step; false without detectors and for a single time-domain step."
  },
  {
   "property": "C31",
   "status": "partial",
   "theorems": [
    "C31_current_parameters_partial",
    "C31_stale_refuted",
    "C31_exact",
    "C31_cases"
   ],
   "note": "Holds with gradients or if no parameter changed since; false otherwise. C31_exact and C31_cases say for every history whose parameters are used."
  },
  {
   "property": "C32",
   "status": "proved",
   "theorems": [
    "C32_expanded",
    "C32_only",
    "C32_unnamed",
    "C32_other_name",
    "C32_simulation",
    "C32_refused"
   ],
   "note": "Conversion of other Python objects to tensors is not modelled."
  },
  {
   "property": "C33",
   "status": "proved",
   "theorems": [
    "C33_order"
   ],
   "note": ""
  },
  {
   "property": "C34",
   "status": "partial",
   "theorems": [
    "C34_longer",
    "C34_two_partial",
    "C34_shorter_refuted",
    "C34_refuted"
   ],
   "note": "Longer sources are cut; shorter ones fail unless they have length two (the padding length is computed from the wrong dimension)."
  },
  {
   "property": "C35",
   "status": "proved",
   "theorems": [
    "C35_roles",
    "C35_connection",
    "C35_mirror",
    "C35_coupler",
    "C35_realistic",
    "C35_mzi",
    "C35_waveguide",
    "C35_coupler_length",
    "C35_terms",
    "C35_grating",
    "C35_mmi",
    "C35_builtin"
   ],
   "note": "Real arithmetic."
  },
  {
   "property": "C36",
   "status": "partial",
   "theorems": [
    "C36_reciprocal",
    "C36_mmi",
    "C36_grating",
    "C36_soa_refuted"
   ],
   "note": "All passive components; false for LinearSoa (proved)."
  },
  {
   "property": "C37",
   "status": "partial",
   "theorems": [
    "C37_waveguide",
    "C37_coupler_loss",
    "C37_mzi_ignores_loss",
    "C37_mzi_refuted",
    "C37_coupler_ignores_length",
    "C37_coupler_refuted"
   ],
   "note": "True for the waveguide; the MZI ignores its loss and the coupler with length ignores length, indices and wavelength."
  },
  {
   "property": "C38",
   "status": "proved",
   "theorems": [
    "C38_series",
    "C38_delay",
    "C38_stored_phase"
   ],
   "note": ""
  },
  {
   "property": "C39",
   "status": "proved",
   "theorems": [
    "C39_spectrum"
   ],
   "note": ""
  },
  {
   "property": "C40",
   "status": "proved",
   "theorems": [
    "C40_create",
    "C40_refuse",
    "C40_roundtrip",
    "C40_training"
   ],
   "note": "Real arithmetic; weights include the infinities that the bounds themselves give."
  },
  {
   "property": "C41",
   "status": "proved",
   "theorems": [
    "C41_training"
   ],
   "note": ""
  },
  {
   "property": "C42",
   "status": "partial",
   "theorems": [
    "C42_own_ports",
    "C42_no_error",
    "C42_error",
    "C42_call",
    "C42_built",
    "C42_subnetworks_refuted"
   ],
   "note": "proved for all networks whose active components are plain components or nested networks where only the last active one has passive ports (so in particular for all networks of plain active components); the unrestricted statement is refuted"
  },
  {
   "property": "C43",
   "status": "partial",
   "theorems": [
    "C43_in_circuit",
    "C43_built",
    "C43_gain",
    "C43_final",
    "C43_monotone",
    "C43_late_refuted"
   ],
   "note": "gain formula proved for all simulated circuits; reaching the wanted gain is false when the environment starts at or after the start-up time (in particular start-up time 0)"
  },
  {
   "property": "C44",
   "status": "partial",
   "theorems": [
    "C44_soa_covariant",
    "C44_agrawal_imaginary",
    "C44_agrawal_refuted"
   ],
   "note": "proved for Soa; refuted for every AgrawalSoa with gain"
  },
  {
   "property": "C45",
   "status": "proved",
   "theorems": [
    "C45_refused",
    "C45_only_then",
    "C45_created",
    "C45_defaults",
    "C45_determined",
    "C45_late_start_refuted"
   ],
   "note": "Exact characterisation; a ValueError comes also from multi-dimensional arrays and negative num_t. The t0>t1 check uses the default t1 even when num_t is given."
  },
  {
   "property": "C46",
   "status": "proved",
   "theorems": [
    "C46_num_t",
    "C46_t1",
    "C46_array",
    "C46_float_count",
    "C46_float_refuted",
    "C46_binary64",
    "C46_binary64_grid"
   ],
   "note": "Exact arithmetic; in binary64 the count from t1=n*dt is n or n-1 for all dt and n up to 2^50, and n-1 does occur; any start, stop and step give a count that differs from the exact quotient by less than 2."
  },
  {
   "property": "C47",
   "status": "partial",
   "theorems": [
    "C47_num_wl",
    "C47_dwl",
    "C47_frequencies",
    "C47_float_count",
    "C47_float_refuted",
    "C47_binary64"
   ],
   "note": "Proved in exact arithmetic. In binary64 the count is n or n-1 for all ends and n up to 2^51, and n-1 occurs (num_wl=51)."
  },
  {
   "property": "C48",
   "status": "partial",
   "theorems": [
    "C48_num_f",
    "C48_df",
    "C48_wl1_refuted"
   ],
   "note": "False with wl1 (code takes wl0 for both ends); proved without wl1."
  },
  {
   "property": "C49",
   "status": "partial",
   "theorems": [
    "C49_copy",
    "C49_not_copied",
    "C49_copy_again",
    "C49_override",
    "C49_refuted",
    "C49_decreasing_refuted"
   ],
   "note": "copy() succeeds exactly for the environments characterised by [copies]; false for single-step environments after 1 ps and for decreasing time arrays."
  },
  {
   "property": "C50",
   "status": "proved",
   "theorems": [
    "C50_locked"
   ],
   "note": ""
  },
  {
   "property": "C51",
   "status": "partial",
   "theorems": [
    "C51_equivalence",
    "C51_uniform_partial",
    "C51_short",
    "C51_longer_refuted",
    "C51_refuted"
   ],
   "note": "Proved for uniform arrays and for arrays with up to three points; false for every time array with four or more points if non-uniform arrays are allowed (C51_longer_refuted)."
  },
  {
   "property": "C52",
   "status": "proved",
   "theorems": [
    "C52_freqdomain",
    "C52_simulation"
   ],
   "note": ""
  },
  {
   "property": "C53",
   "status": "proved",
   "theorems": [
    "C53_stream",
    "C53_random",
    "C53_filtered"
   ],
   "note": "With a cutoff frequency the filter itself (scipy) is an arbitrary function."
  },
  {
   "property": "C54",
   "status": "proved",
   "theorems": [
    "C54_fraction",
    "C54_streams",
    "C54_identical",
    "C54_unit",
    "C54_std",
    "C54_low_rate_refuted"
   ],
   "note": "Also with warm-up, whole latencies and any number of wavelengths, detectors and batches. The bound on the rates is needed: C54_low_rate_refuted."
  },
  {
   "property": "C55",
   "status": "proved",
   "theorems": [
    "C55_value",
    "C55_zero",
    "C55_nonneg",
    "C55_nan",
    "C55_one_dimension",
    "C55_one_target",
    "C55_matrix",
    "C55_matrix_full",
    "C55_cube"
   ],
   "note": ""
  },
  {
   "property": "C56",
   "status": "partial",
   "theorems": [
    "C56_nearest",
    "C56_negative",
    "C56_refuted"
   ],
   "note": "True from minus half a sample up; all lower latencies come out one sample too high."
  },
  {
   "property": "C57",
   "status": "partial",
   "theorems": [
    "C57_lfilter_reversed",
    "C57_lfilter_symmetric_partial",
    "C57_symmetric_needed",
    "C57_short",
    "C57_fir",
    "C57_zero",
    "C57_refused",
    "C57_lfilter_refuted",
    "C57_lengths_refuted"
   ],
   "note": "False in general: the numerator is applied reversed, so the equation holds for all signals exactly when the numerator reads the same backwards (as for Butterworth low-pass filters); numerator and denominator need the same length; short signals raise IndexError."
  },
  {
   "property": "C58",
   "status": "partial",
   "theorems": [
    "C58_linear",
    "C58_causal",
    "C58_delay_partial",
    "C58_delay_refuted"
   ],
   "note": "Linearity and causality hold for all filters; time invariance for coefficient lists of the same length, and is refuted otherwise (the shorter list is broadcast)."
  },
  {
   "property": "C59",
   "status": "partial",
   "theorems": [
    "C59_power_partial",
    "C59_complex",
    "C59_photo_power_partial",
    "C59_photo_complex_partial",
    "C59_two",
    "C59_photo_two",
    "C59_filtered",
    "C59_short",
    "C59_power_refuted",
    "C59_photo_complex_refuted"
   ],
   "note": "Refuted for exactly two time steps, which are taken for real and imaginary part; proved for all other lengths, with the values."
  },
  {
   "property": "C60",
   "status": "proved",
   "theorems": [
    "C60_clements"
   ],
   "note": "For arbitrary factories returning plain components and any usable network name; port i of the network is the i-th free port, and the i-th of the sources-then-detectors list meets it."
  },
  {
   "property": "C61",
   "status": "proved",
   "theorems": [
    "C61_reck"
   ],
   "note": "As C60."
  },
  {
   "property": "C62",
   "status": "proved",
   "theorems": [
    "C62_rings",
    "C62_odd"
   ],
   "note": "As C60; odd N raises ValueError."
  },
  {
   "property": "C63",
   "status": "proved",
   "theorems": [
    "C63_clements",
    "C63_reck",
    "C63_clements_runs",
    "C63_reck_runs",
    "C63_clements_default",
    "C63_reck_default"
   ],
   "note": "For every N, capacity and any lossless components with the ports of the defaults: frequency-domain simulations succeed (if the solver finds the solution of every regular system) and give T times the sources with T unitary, at each wavelength; instances with the default waveguides and MZIs over the reals."
  },
  {
   "property": "C64",
   "status": "partial",
   "theorems": [
    "C64_single_layer",
    "C64_single_ring",
    "C64_small",
    "C64_small_reck",
    "C64_refuted"
   ],
   "note": "False: capacity 1 gives a network without buffers for every N (AttributeError), proved for all N; capacity >= 2 is C60 and C62; N < 2 raises UnboundLocalError or KeyError."
  },
  {
   "property": "C65",
   "status": "partial",
   "theorems": [
    "C65_time_partial",
    "C65_wavelength_partial",
    "C65_single",
    "C65_nothing",
    "C65_detector_names",
    "C65_all_labelled_partial",
    "C65_nested_refuted",
    "C65_ambiguous_refuted",
    "C65_unbound",
    "C65_dimensions",
    "C65_same_label_refuted"
   ],
   "note": "Full (time, wavelength, detector, batch) arrays of the current simulation get one curve per wavelength, detector and batch with the right data and label, for every size, when all detectors are components of the network itself and the time scale has an SI prefix; the d-th name is the component of the d-th detector port. False otherwise: nested detectors stay unlabelled, (time, detector, batch) arrays are mislabelled when there are as many detectors as wavelengths, other three-dimensional arrays raise UnboundLocalError, wavelengths closer than 1 nm share a label."
  },
  {
   "property": "C66",
   "status": "proved",
   "theorems": [
    "C66_incremental"
   ],
   "note": ""
  },
  {
   "property": "C67",
   "status": "proved",
   "theorems": [
    "C67_circuit"
   ],
   "note": ""
  },
  {
   "property": "C68",
   "status": "proved",
   "theorems": [
    "C68_passive",
    "C68_lossless",
    "C68_reciprocal"
   ],
   "note": ""
  },
  {
   "property": "C69",
   "status": "partial",
   "theorems": [
    "C69_num_wl",
    "C69_num_f",
    "C69_asked",
    "C69_ignored_refuted"
   ],
   "note": "False: with num_f and wl0 the value given for f1 has no effect. Proved: otherwise both ends can be read off from the grid, so different bounds give different grids."
  },
  {
   "property": "C70",
   "status": "partial",
   "theorems": [
    "C70_array",
    "C70_refuted"
   ],
   "note": "Lists and tuples are refused."
  },
  {
   "property": "C71",
   "status": "partial",
   "theorems": [
    "C71_seed_partial",
    "C71_refuted"
   ],
   "note": "False for the constructor's seed."
  },
  {
   "property": "C72",
   "status": "proved",
   "theorems": [
    "C72_precedence"
   ],
   "note": "One rule, written out in each of the forward methods."
  },
  {
   "property": "C73",
   "status": "partial",
   "theorems": [
    "C73_refused_partial",
    "C73_refuted"
   ],
   "note": "-1 and -2 are taken as 0."
  },
  {
   "property": "C74",
   "status": "partial",
   "theorems": [
    "C74_reflection_refuted"
   ],
   "note": "refuted: the field entering the input is sent back in full"
  },
  {
   "property": "C75",
   "status": "partial",
   "theorems": [
    "C75_dark",
    "C75_bounds",
    "C75_large_step_refuted"
   ],
   "note": "closed form and bounds proved under a step-size condition; refuted without it"
  },
  {
   "property": "C76",
   "status": "partial",
   "theorems": [
    "C76_no_noise_partial",
    "C76_noise_partial",
    "C76_noise_unfiltered",
    "C76_no_noise_refuted"
   ],
   "note": "Proved unless the power has exactly two time steps, for which it is refuted."
  },
  {
   "property": "C77",
   "status": "proved",
   "theorems": [
    "C77_nyquist_refused",
    "C77_nyquist_equal",
    "C77_construction"
   ],
   "note": "For positive sample rates."
  },
  {
   "property": "C78",
   "status": "partial",
   "theorems": [
    "C55_matrix",
    "C55_matrix_full",
    "C55_cube",
    "C55_detectors_refuted"
   ],
   "note": "False: the second dimension of a matrix is taken for the batch; proved what is compared instead."
  },
  {
   "property": "C79",
   "status": "partial",
   "theorems": [
    "C79_units_partial",
    "C79_refused",
    "C79_microseconds_refuted"
   ],
   "note": "All listed units except 'us', which always raises KeyError because the unit is rewritten to TeX before it is looked up."
  },
  {
   "property": "C80",
   "status": "partial",
   "theorems": [
    "C80_graph_partial",
    "C80_closed",
    "C80_external_refuted"
   ],
   "note": "One edge per connection in order and the components as the first nodes; for networks with external ports there are extra nodes for the port numbers."
  },
  {
   "property": "C81",
   "status": "partial",
   "theorems": [
    "C81_axis",
    "C81_range",
    "C81_short_refuted"
   ],
   "note": "Axis values and unit agree for every plot that succeeds; scales outside 10^-12..10^17 raise KeyError."
  },
  {
   "property": "C82",
   "status": "proved",
   "theorems": [
    "C82_reck_universal"
   ],
   "note": ""
  },
  {
   "property": "C83",
   "status": "partial",
   "theorems": [
    "C83_clements_universal",
    "C83_narrow",
    "C83_capacity_refuted"
   ],
   "note": "True exactly when the capacity is at least N: with fewer columns the reversal of the lines is not realised by any parameters."
  },
  {
   "property": "C84",
   "status": "proved",
   "theorems": [
    "C84_settles",
    "C84_builtin",
    "C84_passivity_needed"
   ],
   "note": "The last theorem shows that passivity is needed: with an amplifier in a ring the frequency-domain response is never approached."
  },
  {
   "property": "C85",
   "status": "partial",
   "theorems": [
    "C85_disciplined",
    "C85_late_refuted",
    "C85_terminated_refuted",
    "C85_ports_refuted"
   ],
   "note": "False: linking a network further after it was put into another one, or after it was terminated, leaves the other network with the old wiring and raises nothing. True of all programs that call link only on networks that are not part of another network and have no shallow copy (disciplined)."
  },
  {
   "property": "C86",
   "status": "proved",
   "theorems": [
    "C86_unterminate",
    "C86_not_terminated"
   ],
   "note": ""
  },
  {
   "property": "C87",
   "status": "proved",
   "theorems": [
    "C87_step",
    "C87_only_link",
    "C87_in_range",
    "C87_unknown",
    "C87_unlinked_part"
   ],
   "note": ""
  },
  {
   "property": "C88",
   "status": "partial",
   "theorems": [
    "C88_innermost",
    "C88_registered",
    "C88_refused",
    "C88_refuted"
   ],
   "note": "False inside with-blocks: terminate adds its terms and its result to the network of the innermost with-block, where they can replace a component that is not linked yet. Proved: only the innermost network (or a copy of it) is affected, and nothing outside with-blocks."
  },
  {
   "property": "C89",
   "status": "partial",
   "theorems": [
    "C89_used_has_name",
    "C89_named_fails",
    "C89_unnamed_term",
    "C89_refuted"
   ],
   "note": "False: linking a network into another gives it a name, and a network with a name (other than base) cannot be terminated with any terms."
  },
  {
   "property": "C90",
   "status": "partial",
   "theorems": [
    "C90_value",
    "C90_program",
    "C90_kept",
    "C90_refuted"
   ],
   "note": "False when one object is assigned to two attributes before it is linked (as the library's tests do): it keeps the last name. True of a network whose components are not shared, whatever calls fail, and of all programs in which no object is used under two names; such an object cannot be assigned to an attribute of another name later."
  },
  {
   "property": "C91",
   "status": "proved",
   "theorems": [
    "C91_realistic",
    "C91_center"
   ],
   "note": ""
  },
  {
   "property": "C92",
   "status": "partial",
   "theorems": [
    "C92_carriers",
    "C92_step",
    "C92_dark",
    "C92_output_refuted"
   ],
   "note": "The balance holds for the gain and the carriers; the light that leaves has the power it assumes only if it is real (C92_output_refuted). The linewidth enhancement factor of the constructor is not used by the code."
  },
  {
   "property": "C93",
   "status": "partial",
   "theorems": [
    "C93_readback",
    "C93_bounded",
    "C93_kind_fixed",
    "C93_refuted"
   ],
   "note": "False: after a Buffer or Parameter was replaced by a BoundedParameter, assigning a Buffer or Parameter again is accepted without effect. True of attributes that have not been bounded, of BoundedParameters, and otherwise the assignment is refused."
  },
  {
   "property": "C94",
   "status": "partial",
   "theorems": [
    "C94_others",
    "C94_delete",
    "C94_refuted"
   ],
   "note": "False only of _x when x is a bounded attribute."
  },
  {
   "property": "C95",
   "status": "partial",
   "theorems": [
    "C95_fresh",
    "C95_disabled",
    "C95_typed",
    "C95_builtin",
    "C95_mirror_refuted",
    "C95_refuted"
   ],
   "note": "False of mirrors that are not trainable and when a Parameter is replaced by a BoundedParameter. True of every constructor that uses each name once, in particular of the other built-in components."
  },
  {
   "property": "C96",
   "status": "partial",
   "theorems": [
    "C96_moved",
    "C96_is_cuda",
    "C96_structure",
    "C96_dtype_refuted"
   ],
   "note": "False of conversions of the data type: the device becomes None, is_cuda and terminate fail."
  },
  {
   "property": "C97",
   "status": "partial",
   "theorems": [
    "C97_cpu",
    "C97_mesh",
    "C97_refuted",
    "C97_moved"
   ],
   "note": "False on GPUs except for the meshes: the new network is on the CPU, and terms are moved to the first GPU."
  },
  {
   "property": "C98",
   "status": "partial",
   "theorems": [
    "C98_exact",
    "C98_loop",
    "C98_refuted"
   ],
   "note": "False: a forward pass that initializes the network sets its gradients to zero. Proved: the exact sum, and that the usual loop is not affected."
  },
  {
   "property": "C99",
   "status": "partial",
   "theorems": [
    "C99_trainable",
    "C99_mirror",
    "C99_outside",
    "C99_soa",
    "C99_refuted"
   ],
   "note": "False of couplers that are not trainable."
  }
 ]
}