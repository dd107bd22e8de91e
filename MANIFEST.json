{
 "claims": [
  {
   "property": "C01",
   "status": "proved",
   "theorems": [
    "C01_chunks_partition"
   ],
   "note": ""
  },
  {
   "property": "C02",
   "status": "partial",
   "theorems": [
    "C02_negative_jobs",
    "C02_zero_jobs_rejected",
    "C02_too_negative_loses_everything_refuted"
   ],
   "note": "Proved for -cpu..-1 and for the rejected values; the last clause is false of the code: below -(cpu+1) every spin system is silently dropped."
  },
  {
   "property": "C03",
   "status": "partial",
   "theorems": [
    "C03_jobs_independent_partial",
    "C03_jobs_independent_refuted"
   ],
   "note": "Proved for lists in which consecutive channel-bearing systems of equal site count have the same isotopes and pathways; false in general (pathway cache keyed on the site count only)."
  },
  {
   "property": "C04",
   "status": "partial",
   "theorems": [
    "C04_additive_partial",
    "C04_additive_refuted"
   ],
   "note": "Same restriction as C03; false in general."
  },
  {
   "property": "C05",
   "status": "partial",
   "theorems": [
    "C05_order_independent_partial",
    "C05_order_independent_refuted"
   ],
   "note": "Same restriction, for any two systems; false in general."
  },
  {
   "property": "C06",
   "status": "partial",
   "theorems": [
    "C06_abundance_scaling",
    "C06_zero_abundance_alone",
    "C06_zero_abundance_dropped_partial",
    "C06_zero_abundance_dropped_refuted"
   ],
   "note": "Scaling is proved for every list; dropping a zero-abundance system needs the cache restriction and is false without it."
  },
  {
   "property": "C07",
   "status": "proved",
   "theorems": [
    "C07_inert_systems"
   ],
   "note": ""
  },
  {
   "property": "C08",
   "status": "partial",
   "theorems": [
    "C08_decomposed_entries_partial",
    "C08_decomposed_sum_partial",
    "C08_decomposed_refuted",
    "C08_decomposed_empty_refuted"
   ],
   "note": "False for negative gyromagnetic ratio or surplus jobs when a system lacks the channel, and for an empty list of systems."
  },
  {
   "property": "C09",
   "status": "proved",
   "theorems": [
    "C09_run_frame",
    "C09_run_idempotent",
    "C09_run_all"
   ],
   "note": ""
  },
  {
   "property": "C10",
   "status": "proved",
   "theorems": [
    "C10_zeeman_states"
   ],
   "note": ""
  },
  {
   "property": "C11",
   "status": "proved",
   "theorems": [
    "C11_all_transitions"
   ],
   "note": ""
  },
  {
   "property": "C13",
   "status": "proved",
   "theorems": [
    "C13_pathways",
    "C13_all_choices"
   ],
   "note": ""
  },
  {
   "property": "C14",
   "status": "proved",
   "theorems": [
    "C14_queries_unchanged",
    "C14_direct_call_refuted"
   ],
   "note": "The refutation concerns the inner routine called directly, which is not what the property speaks of."
  },
  {
   "property": "C15",
   "status": "proved",
   "theorems": [
    "C15_triangle_conserved"
   ],
   "note": ""
  },
  {
   "property": "C16",
   "status": "proved",
   "theorems": [
    "C16_exact_bins",
    "C16_point_mass",
    "C16_tent_cdf"
   ],
   "note": "Also covers triangles that leave the window, in every bin from 1 on, and bin 0 when no vertex is negative."
  },
  {
   "property": "C17",
   "status": "proved",
   "theorems": [
    "C17_vertex_order"
   ],
   "note": ""
  },
  {
   "property": "C18",
   "status": "partial",
   "theorems": [
    "C18_writes_inside_partial",
    "C18_writes_inside_refuted"
   ],
   "note": "The element one past the end is rewritten (adding zero): an out-of-bounds access."
  },
  {
   "property": "C19",
   "status": "partial",
   "theorems": [
    "C19_right_end",
    "C19_left_end_partial",
    "C19_left_end_refuted"
   ],
   "note": "The right end crops exactly; the first bin of a window is wrong when a triangle crosses the left end."
  },
  {
   "property": "C20",
   "status": "partial",
   "theorems": [
    "C20_delta_weights",
    "C20_delta_conserved_partial",
    "C20_delta_refuted"
   ],
   "note": "Conserved at least half a bin away from the ends; false nearer, and negative weight for f in (-1,-1/2)."
  },
  {
   "property": "C21",
   "status": "proved",
   "theorems": [
    "C21_triangulation"
   ],
   "note": ""
  },
  {
   "property": "C22",
   "status": "partial",
   "theorems": [
    "C22_pattern_total_partial",
    "C22_sidebands_total_partial",
    "C22_normalised_refuted"
   ],
   "note": "The total is conserved and equals the triangle sum of the weights; that sum is not one and depends on the density."
  },
  {
   "property": "C23",
   "status": "proved",
   "theorems": [
    "C23_orientations",
    "C23_grid"
   ],
   "note": ""
  },
  {
   "property": "C24",
   "status": "proved",
   "theorems": [
    "C24_orientations_count"
   ],
   "note": "Exact division and no unsigned overflow."
  },
  {
   "property": "C59",
   "status": "proved",
   "theorems": [
    "C59_one_system"
   ],
   "note": ""
  },
  {
   "property": "C60",
   "status": "partial",
   "theorems": [
    "C60_phases_partial",
    "C60_pole_refuted"
   ],
   "note": "False at the pole, where exp(I alpha) is zero."
  },
  {
   "property": "C61",
   "status": "partial",
   "theorems": [
    "C61_sideband_window_partial",
    "C61_sideband_window_refuted"
   ],
   "note": "A sideband whose centre is outside the window is dropped."
  },
  {
   "property": "C62",
   "status": "partial",
   "theorems": [
    "C62_delta_shortcut_partial",
    "C62_delta_shortcut_refuted"
   ],
   "note": "Only three corners of the first octant are compared."
  },
  {
   "property": "C25",
   "status": "partial",
   "theorems": [
    "C25_bins_at_coordinates_partial",
    "C25_odd_refuted"
   ],
   "note": "Even counts, positive gyromagnetic ratio. False for odd counts: every bin is half an increment off."
  },
  {
   "property": "C26",
   "status": "partial",
   "theorems": [
    "C26_reversal",
    "C26_reversed_axis_partial",
    "C26_first_bin_refuted"
   ],
   "note": "The reversal is proved for every shape; bins sit at their coordinates for even counts except bin 0."
  },
  {
   "property": "C27",
   "status": "proved",
   "theorems": [
    "C27_affine"
   ],
   "note": ""
  },
  {
   "property": "C30",
   "status": "partial",
   "theorems": [
    "C30_rotor_frequencies_partial",
    "C30_static_first_refuted"
   ],
   "note": "False when the first event is static and a later one spins."
  },
  {
   "property": "C31",
   "status": "proved",
   "theorems": [
    "C31_sideband_orders"
   ],
   "note": ""
  },
  {
   "property": "C32",
   "status": "proved",
   "theorems": [
    "C32_sidebands_conserve",
    "C32_sidebands_table",
    "C32_no_modulation"
   ],
   "note": "Exact phase factors, and the interpolated tables with their error."
  },
  {
   "property": "C55",
   "status": "partial",
   "theorems": [
    "C55_table_bounds_partial",
    "C55_odd_refuted"
   ],
   "note": "Bounds, accuracy, periodicity; the sine loses its sign for negative angles."
  },
  {
   "property": "C57",
   "status": "partial",
   "theorems": [
    "C57_dataset_axes_partial",
    "C57_export_roundtrip",
    "C57_dataset_axes_refuted"
   ],
   "note": "False for odd counts without complex_fft and for negative increments with it."
  },
  {
   "property": "C63",
   "status": "partial",
   "theorems": [
    "C63_peak_at_shift_partial",
    "C63_ppm_axis_partial",
    "C63_ppm_axis_refuted"
   ],
   "note": "Even counts; the ppm axis is divided by reference_offset + origin_offset."
  },
  {
   "property": "C64",
   "status": "partial",
   "theorems": [
    "C64_phase_factor_partial",
    "C64_inplace_refuted"
   ],
   "note": "True with separate arrays; the code calls it in place, where (in statement order) the sign is lost."
  },
  {
   "property": "C36",
   "status": "partial",
   "theorems": [
    "C36_norm",
    "C36_identity",
    "C36_inverse_partial",
    "C36_inverse_refuted"
   ],
   "note": "Norm (exact and with the code's decimals and tables) and identity hold. Undoing by -beta holds with exact trigonometry; false in the code, whose tables lose the sign of beta."
  },
  {
   "property": "C37",
   "status": "proved",
   "theorems": [
    "C37_half_rotation"
   ],
   "note": ""
  },
  {
   "property": "C38",
   "status": "partial",
   "theorems": [
    "C38_sign_of_beta_partial",
    "C38_sign_of_beta_refuted"
   ],
   "note": "True for beta in [0, 6.2831); a negative beta is treated as positive."
  },
  {
   "property": "C39",
   "status": "proved",
   "theorems": [
    "C39_tables_restored"
   ],
   "note": "For the two integration volumes the Python layer accepts."
  },
  {
   "property": "C65",
   "status": "proved",
   "theorems": [
    "C65_wigner_formula",
    "C65_compose"
   ],
   "note": "Exact with square roots and exact trigonometry; error bounds for the code's decimals and tables."
  },
  {
   "property": "C33",
   "status": "partial",
   "theorems": [
    "C33_listed_partial",
    "C33_all_partial",
    "C33_second_site_refuted",
    "C33_past_end_refuted"
   ],
   "note": "Holds when at most one site changes its state in the event, and for the default (everything listed). False for several flipping sites: the flag pointer is not reset per site, so the second site reads the flags of other contributions, and more sites read past the end."
  },
  {
   "property": "C35",
   "status": "proved",
   "theorems": [
    "C35_reversed",
    "C35_negated",
    "C35_pathway",
    "C35_symmetric"
   ],
   "note": "Per event for all spin systems and transitions with any flags, and for whole pathways."
  },
  {
   "property": "C56",
   "status": "partial",
   "theorems": [
    "C56_own_plan_partial",
    "C56_no_plan_refuted"
   ],
   "note": "False for events that differ from the first event of the dimension in both rotor frequency and angle: event->plan is never assigned."
  },
  {
   "property": "C66",
   "status": "proved",
   "theorems": [
    "C66_constants"
   ],
   "note": "Constants as exact decimals, before rounding to double."
  },
  {
   "property": "C67",
   "status": "proved",
   "theorems": [
    "C67_default_magic_angle",
    "C67_exact_angles"
   ],
   "note": "The Wigner vector of the rotor angle is shown equal to the Legendre polynomials in the C34 theorems."
  },
  {
   "property": "C68",
   "status": "proved",
   "theorems": [
    "C68_phase_is_integral",
    "C68_plan_phase"
   ],
   "note": "Over the reals; the exponential of the phase is C64."
  },
  {
   "property": "C69",
   "status": "partial",
   "theorems": [
    "C69_single_event_partial",
    "C69_several_events_refuted",
    "C69_two_dimensions_refuted"
   ],
   "note": "Holds to 2.5e-9 for a one-dimensional method of one event. n+1 events multiply the intensity by N^(2n), two dimensions by N^2."
  },
  {
   "property": "C28",
   "status": "partial",
   "theorems": [
    "C28_mq",
    "C28_st_partial",
    "C28_st_refuted"
   ],
   "note": "Proved for all MQ methods and for ST1 on 3/2, ST2 on 5/2 and 7/2; refuted for ST1 on 5/2, 7/2, 9/2 and ST2 on 9/2 (wrong sign in the table)."
  },
  {
   "property": "C44",
   "status": "partial",
   "theorems": [
    "C44_only_transitions_partial",
    "C44_insert_refuted",
    "C44_slice_refuted"
   ],
   "note": "Holds for every history of the operations that check their argument; insert does not check, and slice assignment of a Transition iterates it and stores (name, value) tuples."
  },
  {
   "property": "C45",
   "status": "proved",
   "theorems": [
    "C45_filter",
    "C45_exact",
    "C45_length",
    "C45_tolist"
   ],
   "note": "The tolerance of numpy.allclose is equality for requests that are multiples of 1/4 up to 20000."
  },
  {
   "property": "C52",
   "status": "proved",
   "theorems": [
    "C52_unique"
   ],
   "note": "For any equality of sites that is an equivalence relation."
  },
  {
   "property": "C53",
   "status": "proved",
   "theorems": [
    "C53_isotopes"
   ],
   "note": "For the documented spin filters, multiples of one half; symbols ordered by code points."
  },
  {
   "property": "C58",
   "status": "partial",
   "theorems": [
    "C58_partial",
    "C58_refuted"
   ],
   "note": "Lossless for dictionaries of at most two levels, which all serialised sites are; refuted for deeper ones: only the last two keys of a path are kept."
  },
  {
   "property": "C41",
   "status": "partial",
   "theorems": [
    "C41_default",
    "C41_exclude_partial",
    "C41_nested_refuted"
   ],
   "note": "Full statement proved for the default exclusion; a caller's exclusion is applied at the top level only."
  },
  {
   "property": "C42",
   "status": "proved",
   "theorems": [
    "C42_defaults",
    "C42_idempotent"
   ],
   "note": ""
  },
  {
   "property": "C43",
   "status": "proved",
   "theorems": [
    "C43_precedence",
    "C43_queries",
    "C43_accepts",
    "C43_method"
   ],
   "note": "Dicts as spectral dimensions; the result is the arguments given to the constructors of Method, SpectralDimension and Event."
  },
  {
   "property": "C73",
   "status": "partial",
   "theorems": [
    "C73_no_events_partial",
    "C73_events_refuted"
   ],
   "note": "Holds when no dimension has events; otherwise the events are removed from the caller's dicts."
  },
  {
   "property": "C50",
   "status": "partial",
   "theorems": [
    "C50_parameters_partial",
    "C50_array",
    "C50_components",
    "C50_tie_refuted",
    "C50_convention"
   ],
   "note": "eigvalsh is assumed to return the eigenvalues in ascending order. The round trip fails exactly at eta = 1 with zeta < 0 (sign of zeta lost); the range of eta and the convention hold for every non-zero traceless symmetric tensor."
  },
  {
   "property": "C74",
   "status": "partial",
   "theorems": [
    "C74_radius",
    "C74_round_trip_partial",
    "C74_refuted"
   ],
   "note": "Fails at eta = 1 with zeta > 0, where zeta changes sign because 0.7853981634 > pi/4."
  },
  {
   "property": "C75",
   "status": "proved",
   "theorems": [
    "C75_normalised",
    "C75_cells",
    "C75_out_of_range"
   ],
   "note": "numpy's histogram2d is modelled as equal bins, half open except the last. The cell statement is for uniform grids; on other grids the bins are equal and not centred."
  },
  {
   "property": "C48",
   "status": "partial",
   "theorems": [
    "C48_entries_partial",
    "C48_lengths",
    "C48_scalars_refuted",
    "C48_empty_refuted"
   ],
   "note": "Holds whenever at least one argument is a non-empty array and none is empty. Fails when every argument is a single item (IndexError) and when an empty array is given beside others (IndexError instead of the size error)."
  },
  {
   "property": "C46",
   "status": "partial",
   "theorems": [
    "C46_names",
    "C46_round_trip_partial",
    "C46_refuted",
    "C46_injective",
    "C46_listed",
    "C46_get_partial",
    "C46_update_partial"
   ],
   "note": "Names are the documented ones and are injective for all attributes and indexes; decoding returns to the attribute for all tensors but the antisymmetric ones and j_symmetric, for which C46_refuted proves it never does. Reading by name returns the value; writing a set of names changes exactly those attributes."
  },
  {
   "property": "C47",
   "status": "partial",
   "theorems": [
    "C47_params_partial",
    "C47_total_partial",
    "C47_zero",
    "C47_refuted"
   ],
   "note": "Every parameter made is described (value, bounds, expression); the abundances add up to 100 for every later assignment. Spin systems with antisymmetric or j_symmetric tensors are excluded: C47_refuted proves make_LMFIT_params raises for them. lmfit's own clipping of an expression to min/max is not modelled."
  },
  {
   "property": "C49",
   "status": "partial",
   "theorems": [
    "C49_sequence",
    "C49_scale",
    "C49_exponential_partial",
    "C49_refuted",
    "C49_last_refuted",
    "C49_no_unit"
   ],
   "note": "Sequencing and scaling are proved in full, apodization for dimensions named by non-negative positions. For negative positions the claim is false of the code: C49_refuted and C49_last_refuted. The transform is a parameter of the model."
  },
  {
   "property": "C76",
   "status": "partial",
   "theorems": [
    "C76_given",
    "C76_unchanged_partial",
    "C76_refuted"
   ],
   "note": "The caller's dataset ends as the outcome of the operations before the first transform, so it is unchanged only when a transform comes first; C76_refuted: otherwise it is modified. Rests on csdmpy's fft returning a new object."
  },
  {
   "property": "C77",
   "status": "proved",
   "theorems": [
    "C77_scale_dimension"
   ],
   "note": "For every dataset, index and non-zero factor."
  },
  {
   "property": "C78",
   "status": "partial",
   "theorems": [
    "C78_exponential",
    "C78_refuted",
    "C78_shift_refuted"
   ],
   "note": "True of Exponential. False of Gaussian: it is below 1 at the coordinate zero for every width of 1 unit or more, and with an odd number of points its maximum is one point late."
  },
  {
   "property": "C79",
   "status": "partial",
   "theorems": [
    "C79_shear",
    "C79_coherent_partial",
    "C79_refuted"
   ],
   "note": "The phase is the documented one divided by (unit of factor * units of both dimensions)^2; equal for coherent units only."
  },
  {
   "property": "C80",
   "status": "proved",
   "theorems": [
    "C80_params",
    "C80_update",
    "C80_round_trip"
   ],
   "note": "For every list of operations and values."
  },
  {
   "property": "C81",
   "status": "proved",
   "theorems": [
    "C81_user_affine",
    "C81_ssb2d_affine",
    "C81_ssb2d_pathways",
    "C81_ssb2d_rotor"
   ],
   "note": "For spectral dimensions given as dicts; SpectralDimension objects are not checked by the code."
  },
  {
   "property": "C40",
   "status": "partial",
   "theorems": [
    "C40_symmetric_tensor",
    "C40_antisymmetric_tensor",
    "C40_site_partial",
    "C40_coupling_partial",
    "C40_system_partial",
    "C40_event_partial",
    "C40_dimension_partial",
    "C40_method_partial",
    "C40_simulator_partial",
    "C40_plain_json",
    "C40_pathways_refuted",
    "C40_empty_text_refuted",
    "C40_site_tensor_refuted",
    "C40_coupling_tensor_refuted",
    "C40_antisymmetric_j_refuted",
    "C40_query_refuted",
    "C40_no_events_refuted",
    "C40_named_refuted",
    "C40_named_simulator_refuted",
    "C40_unnamed_refuted"
   ],
   "note": "Every object that was read or built comes back, except those of the refuted theorems: empty texts, tensors with attributes of another role, J tensors without zeta, antisymmetric J tensors, queries without P, dimensions without events, methods named as a named method, unnamed methods in a simulator. Printing a number and reading its text is exact here."
  },
  {
   "property": "C83",
   "status": "partial",
   "theorems": [
    "C83_site_refuted",
    "C83_coupling_refuted",
    "C83_tensor_refuted",
    "C83_no_quantity"
   ],
   "note": "False: every dict with a quantity is changed in place and cannot be read again. Spin systems, events, dimensions, methods and simulators copy their argument first."
  },
  {
   "property": "C84",
   "status": "partial",
   "theorems": [
    "C84_ppm_refuted",
    "C84_zeta_refuted"
   ],
   "note": "False: the number is kept and the unit is only used when printing."
  },
  {
   "property": "C85",
   "status": "proved",
   "theorems": [
    "C85_amplitude_conserved",
    "C85_projection"
   ],
   "note": "Exact arithmetic; whenever the code is defined (C86)."
  },
  {
   "property": "C86",
   "status": "partial",
   "theorems": [
    "C86_additions_inside_partial",
    "C86_unset_variable",
    "C86_defined_refuted"
   ],
   "note": "Additions are inside the array (a zero may be added one past its end); the triangles that read a variable never set are characterised exactly, and exist."
  },
  {
   "property": "C87",
   "status": "partial",
   "theorems": [
    "C87_cell_area_partial",
    "C87_clipped_refuted"
   ],
   "note": "Proved up to the tolerance of the thin-triangle rule; false when two vertices are at or below -1 in the first dimension (rows above 0), and in row 0 and column 0 for what lies in (-1, 0), which is collected there; thin triangles follow the rule of C18/C20."
  },
  {
   "property": "C88",
   "status": "partial",
   "theorems": [
    "C88_pattern_total_partial",
    "C88_additions_inside",
    "C88_centre_refuted",
    "C88_reads_inside_partial",
    "C88_reads_refuted"
   ],
   "note": "A sideband whose centre is outside the window is dropped with everything it has inside; with more than one octant the amplitudes are read past the end of their arrays."
  },
  {
   "property": "C90",
   "status": "proved",
   "theorems": [
    "C90_each_event_has_its_own_tables"
   ],
   "note": "For the runs that are defined (C89); the other events are the finding of C56."
  },
  {
   "property": "C93",
   "status": "partial",
   "theorems": [
    "C93_names_and_labels_partial",
    "C93_sum_has_no_labels",
    "C93_own_label_refuted"
   ],
   "note": "Data, names and metadata are always the spin system's own. Label and description are the last non-empty ones so far, proved exactly; so they are the own ones if every system has them, and the full statement is refuted."
  },
  {
   "property": "C94",
   "status": "partial",
   "theorems": [
    "C94_axes_in_reverse",
    "C94_same_axis_partial",
    "C94_too_many_dimensions",
    "C94_axes_refuted"
   ],
   "note": "Proved for one dimension with complex_fft and a positive increment; with more dimensions the axes come out in the opposite order. Refuted for two dimensions, without complex_fft, and for the atomicity of failures."
  },
  {
   "property": "C95",
   "status": "partial",
   "theorems": [
    "C95_returned_save_is_complete",
    "C95_returned_export_is_complete",
    "C95_interrupted_save",
    "C95_export_keeps_the_file",
    "C95_failed_save_refuted",
    "C95_failed_number_refuted"
   ],
   "note": "A returned save is complete; at every crash point the file is the old one or a beginning of the new text. Atomicity is refuted: the file is emptied before the object is serialised. export_spin_systems serialises first."
  },
  {
   "property": "C97",
   "status": "partial",
   "theorems": [
    "C97_objective_partial",
    "C97_no_post_sim_refuted"
   ],
   "note": "Proved for the parameters make_LMFIT_params makes, in its order, when the run depends on the attributes only. Without post_sim, optional in the signature, no evaluation returns."
  },
  {
   "property": "C98",
   "status": "partial",
   "theorems": [
    "C98_decomposed_partial",
    "C98_chosen_refuted"
   ],
   "note": "Proved when all operations act on all variables and the transform is additive; refuted for an operation on a chosen variable."
  },
  {
   "property": "C99",
   "status": "partial",
   "theorems": [
    "C99_round_trip_partial",
    "C99_numbers_kept_partial",
    "C99_number_refuted",
    "C99_affine_number_refuted",
    "C99_not_imported_refuted",
    "C99_list_refuted"
   ],
   "note": "Proved for widths and factors with a unit and imported submodules. Without a unit the number and indexes are kept but not the object; refuted there, for affine factors given as numbers, and in a process that did not import the submodules."
  },
  {
   "property": "C100",
   "status": "partial",
   "theorems": [
    "C100_machine_safe_partial",
    "C100_peak_safe",
    "C100_rows_safe",
    "C100_machine_2D_safe_partial",
    "C100_nan_refuted",
    "C100_overflow_refuted"
   ],
   "note": "Proved for all doubles but NaN, up to the zero added after the last element (C18). In two dimensions the rows are proved inside for first frequencies that are not NaN, the additions when no row is handed a NaN. Refuted for NaN; beyond the range of int the result depends on the processor."
  },
  {
   "property": "C101",
   "status": "partial",
   "theorems": [
    "C101_cosy",
    "C101_inadequate_partial",
    "C101_lone_site_refuted"
   ],
   "note": "Cosy: any system with the isotope. Inadequate: any system with two sites of the isotope or more. With one site the computation raises ValueError instead of contributing nothing."
  },
  {
   "property": "C29",
   "status": "proved",
   "theorems": [
    "C29_mq",
    "C29_st",
    "C29_available",
    "C29_mq_sites",
    "C29_st_sites"
   ],
   "note": "C29_mq and C29_st: a single site of the channel's isotope, any spin, including those without the transition, with the order of the pathways. C29_mq_sites and C29_st_sites: any number of sites, as a set."
  },
  {
   "property": "C70",
   "status": "proved",
   "theorems": [
    "C70_bloch_decay",
    "C70_bloch_decay_ct",
    "C70_bloch_decay_sites",
    "C70_bloch_decay_ct_sites"
   ],
   "note": "A single site of any spin with the order of the pathways, and any number of sites as a set."
  },
  {
   "property": "C34",
   "status": "partial",
   "theorems": [
    "C34_sum_partial",
    "C34_closed_form_partial",
    "C34_history_partial",
    "C56_no_plan_refuted"
   ],
   "note": "For all event lists, pathways, histories and orientations, provided every event of a dimension shares rotor frequency or angle with the first one (otherwise the plan is uninitialised, C56_no_plan_refuted). The closed form in terms of the sites needs one flipping site per event (C33)."
  },
  {
   "property": "C103",
   "status": "partial",
   "theorems": [
    "C103_units_partial",
    "C103_coupling_refuted",
    "C103_site_refuted"
   ],
   "note": "Holds when no tensor is given to two different fields. Refuted for shared tensors, unless pydantic copies deeply."
  },
  {
   "property": "C104",
   "status": "partial",
   "theorems": [
    "C104_read_partial",
    "C104_made_2D_partial",
    "C104_made_Bloch_partial",
    "C104_made_generic_partial",
    "C104_simulator_partial",
    "C104_description_refuted",
    "C104_rotor_refuted",
    "C104_events_refuted",
    "C104_query_refuted",
    "C104_unit_refuted"
   ],
   "note": "Holds for every Method object with the attributes of its class, hence for what the two-dimensional classes make under their own name, for Bloch decay methods without events and queries of the user, and for generic methods (Method2D with 1e12 Hz). Refuted for several indistinguishable events of a Bloch decay method, for queries of the user in one, for Method2D with another rotor frequency in its first event, and for other descriptions."
  },
  {
   "property": "C105",
   "status": "proved",
   "theorems": [
    "C105_made",
    "C105_read"
   ],
   "note": "Spectral dimensions are dicts in calls; SpectralDimension objects in reading."
  },
  {
   "property": "C107",
   "status": "proved",
   "theorems": [
    "C107_tensor",
    "C107_system",
    "C107_coupling",
    "C107_event",
    "C107_dimension",
    "C107_config",
    "C107_event_accepts",
    "C107_system_accepts",
    "C107_tensor_accepts",
    "C107_dimension_accepts",
    "C107_config_accepts",
    "C107_count_cut"
   ],
   "note": "Numbers that are not whole are cut for the number of points (C107_count_cut), so 2.7 points are 2."
  },
  {
   "property": "C82",
   "status": "proved",
   "theorems": [
    "C82_tensor",
    "C82_site",
    "C82_coupling",
    "C82_system",
    "C82_event",
    "C82_dimension",
    "C82_same_objects",
    "C82_same_simulator_partial",
    "C82_wrong_type",
    "C82_units"
   ],
   "note": "Units of the model's table. For a simulator the reading of named method classes is a parameter assumed to have the property."
  },
  {
   "property": "C89",
   "status": "partial",
   "theorems": [
    "C89_returns_and_leaves_behind_partial",
    "C89_no_pathway_leaves_everything",
    "C89_rotor_mix_leaves_scheme",
    "C89_grows_with_every_call",
    "C89_released_refuted",
    "C89_hemisphere_refuted",
    "C89_sphere_refuted",
    "C89_unset_plan_refuted",
    "C89_when_mix_raises",
    "C89_static_first_one_sideband"
   ],
   "note": "Memory is not given back: the blocks left behind are counted exactly, for every outcome. No access is undefined when every event shares the rotor frequency or angle of the first one of its dimension and, for two dimensions, there is one octant or the last sidebands are outside of the window; each of the two conditions is shown to be needed by a run that is undefined."
  },
  {
   "property": "C108",
   "status": "proved",
   "theorems": [
    "C108_rotation",
    "C108_exact",
    "C108_axes",
    "C108_components",
    "C108_principal"
   ],
   "note": "Real numbers in place of doubles; 1.1e-7 relative, from the decimal constants and the cosine tables (0 <= beta < 6.2831)."
  },
  {
   "property": "C109",
   "status": "partial",
   "theorems": [
    "C109_static_partial",
    "C109_spin_matrices",
    "C109_central_shift"
   ],
   "note": "All contributions listed and enough flags (C33 says what happens otherwise); real numbers in place of doubles; relative tolerances 1e-6 (first order) and 5e-6 (second order); Euler angles beta in the range of the tables."
  },
  {
   "property": "C110",
   "status": "partial",
   "theorems": [
    "C110_spinning_partial",
    "C110_core_partial"
   ],
   "note": "As C109; for the whole core at most one site changes per event and the events of a dimension are compatible (C34)."
  },
  {
   "property": "C91",
   "status": "partial",
   "theorems": [
    "C91_reads_inside_partial",
    "C91_reads_inside_iff",
    "C91_user_pathways",
    "C91_reads_inside_refuted",
    "C91_couplings_checked"
   ],
   "note": "True exactly when every coupling of an observed spin system names two of its sites and pathways given by the user have a transition for every event; neither is checked by the API, so the full statement is refuted. The method's own pathways, and the reuse of an earlier system's array, are proved safe without assumptions. What is checked of a coupling: two different indexes."
  },
  {
   "property": "C92",
   "status": "partial",
   "theorems": [
    "C92_square_and_not_zero",
    "C92_assigned_fits",
    "C92_matrix_accesses_partial",
    "C92_raises_iff",
    "C92_matrix_refuted",
    "C92_matrix_values"
   ],
   "note": "The matrix is only checked when it is assigned; a method of one dimension with a matrix reads the third element of an array of one. When the accesses are inside and when the run raises is characterised for all histories, and the numbers handed to the core are proved to be the affine image."
  },
  {
   "property": "C96",
   "status": "partial",
   "theorems": [
    "C96_serialisable_iff",
    "C96_packed_sessions_partial",
    "C96_arrays_refuted",
    "C96_stops_at_failure"
   ],
   "note": "Exactly when no method holds a plain array; proved for sessions whose runs all pack their result. Refuted after run(pack_as_csdm=False). A run that raises leaves the results of the methods before and does not touch the ones after."
  },
  {
   "property": "C111",
   "status": "partial",
   "theorems": [
    "C111_phase_partial",
    "C111_intensity_partial"
   ],
   "note": "Within a tolerance (the constants are rounded and the cosines of the exponential come from tables): the phase to 20 pi times the tolerance of the frequencies times the elapsed time, intensities to 4.4e-5 plus 40 pi tolerance / rotor frequency. The Euler angles beta of the sites and couplings lie in [0, 6.2831) and the quadrupolar spins have the quantum numbers of their levels (as in C109, C110). One event; for several events see C69."
  },
  {
   "property": "C112",
   "status": "partial",
   "theorems": [
    "C112_triangle",
    "C112_pattern_partial",
    "C112_centre_partial",
    "C112_delta",
    "C112_centre_refuted"
   ],
   "note": "Proved when every frequency lies in the window and the pattern is not taken for a delta. Refuted otherwise: the delta test looks at three corners of the first octant only, so a pattern with equal corners and different frequencies elsewhere is put at the corner's frequency (C112_centre_refuted)."
  },
  {
   "property": "C113",
   "status": "partial",
   "theorems": [
    "C113_action",
    "C113_addition",
    "C113_element_partial",
    "C113_parity",
    "C113_sign_refuted",
    "C113_rank2_refuted",
    "C113_from_exp_partial"
   ],
   "note": "Refuted for rank 2 (always 0, the rank is passed on as 1) and, for the other ranks, when m1 - m2 is odd (opposite sign, the element at the opposite angle). Proved for every other rank: the value is the element at the opposite angle. C113_action and C113_addition justify the formula used as specification. Integers do not overflow."
  },
  {
   "property": "C114",
   "status": "partial",
   "theorems": [
    "C114_made_1D",
    "C114_made_2D",
    "C114_made_SSB2D",
    "C114_read_1D",
    "C114_read_2D",
    "C114_read_fixed",
    "C114_static_refuted"
   ],
   "note": "Refuted when ThreeQ_VAS and the like read a dict without a rotor frequency: they get 0 instead of 1e12 Hz (C114_static_refuted). Everything else of the statement is proved; the units are those listed in JsonModel."
  },
  {
   "property": "C115",
   "status": "partial",
   "theorems": [
    "C115_equal_partial",
    "C115_square",
    "C115_symmetric",
    "C115_simulator",
    "C115_lists",
    "C115_axes_refuted",
    "C115_flat_refuted",
    "C115_array_refuted"
   ],
   "note": "Refuted for affine matrices with three axes (different ones compare equal), for a flat against a square affine matrix (the same elements compare unequal) and for results stored as arrays (ValueError). Proved for square or absent matrices and packed results. The equality of spectral dimensions, spin systems, configurations and CSDM objects is external and assumed to decide equality."
  },
  {
   "property": "C116",
   "status": "partial",
   "theorems": [
    "C116_tensor",
    "C116_octant",
    "C116_octant_refuted",
    "C116_static",
    "C116_spinning",
    "C116_centre_partial",
    "C116_rank4_refuted"
   ],
   "note": "Exact for the hemisphere, every density and every spin system, static and spinning. Over one octant (the default) exact for tensors along the axes of the crystallite and refuted for others: the average of a traceless tensor with an xy element is positive at every density above 1. The second order (rank 4) is refuted at density 1. The theorem about the spectrum is for one event without sidebands, frequencies inside the window, and is given with the rounding of frequencies and weights as tolerances (half a bin is that of the bins, C112)."
  },
  {
   "property": "C117",
   "status": "partial",
   "theorems": [
    "C117_hemisphere",
    "C117_octant",
    "C117_total",
    "C117_constant",
    "C117_tensor",
    "C117_rank4",
    "C117_static",
    "C117_centre_partial"
   ],
   "note": "The average over the orientations is compared with the double integral of the quantity times sin(beta). The constants are explicit (4182 times the slope) and not sharp. The frequencies are those of the static sample, with the second order; a spinning sample with the second order is not covered (first order: C116_spinning, exact). The theorem about the spectrum is for one event without sidebands, frequencies inside the window, with the rounding of frequencies and weights as tolerances."
  },
  {
   "property": "C118",
   "status": "partial",
   "theorems": [
    "C118_central",
    "C118_mean",
    "C118_static",
    "C118_spinning",
    "C118_centre_partial"
   ],
   "note": "The averages are those of the exact energies (perturbation theory on the spin matrices); the frequencies of the code agree with them within the tolerances of C109 and C110. The theorem about the spectrum is for one event without sidebands, frequencies inside the window, with the rounding of frequencies and weights as tolerances; the constants of the convergence are not sharp. The hemisphere only: over one octant the first order already fails (C116_octant_refuted)."
  },
  {
   "property": "C119",
   "status": "partial",
   "theorems": [
    "C119_pattern",
    "C119_limit",
    "C119_centre",
    "C119_static_partial",
    "C119_spinning_partial"
   ],
   "note": "The theorems about spin systems are for one event without sidebands, over the hemisphere, all frequencies inside the window, a pattern not taken for a delta, and with the rounding of frequencies and weights as tolerances; C119_pattern has any number of sidebands. The constants of the convergence are not sharp."
  },
  {
   "property": "C121",
   "status": "partial",
   "theorems": [
    "C121_same_partial",
    "C121_loaded",
    "C121_exact_refuted",
    "C121_units_refuted",
    "C121_query_refuted",
    "C121_affine_refuted",
    "C121_pathways_refuted",
    "C121_decomposed_refuted"
   ],
   "note": "For simulators that can be saved, what is loaded is given in full (C121_loaded), and it is the same simulator exactly if all shieldings are in ppm, all dimensions in Hz and no query has P None (C121_exact_refuted). Sufficient conditions for saving: no affine matrix, no pathways, and no None and no key isotope, channels or property_units in the dicts of queries and datasets; the first two and texts for isotopes are shown to make saving raise. What csdmpy writes for a dataset is a JSON dict given as input."
  },
  {
   "property": "C122",
   "status": "partial",
   "theorems": [
    "C122_exported",
    "C122_loaded",
    "C122_same_partial",
    "C122_role_refuted",
    "C122_again",
    "C122_any_file",
    "C122_failed",
    "C122_saved_simulator",
    "C122_empty_refuted"
   ],
   "note": "What is loaded is given in full: the exported spin systems without empty texts (C122_loaded); the same ones when no text is empty. Refuted for tensors with an attribute of another role (the exported file cannot be loaded) and for files with an empty dict or text (they take away all spin systems silently). Exporting raises exactly for spin systems with transition pathways."
  },
  {
   "property": "C123",
   "status": "partial",
   "theorems": [
    "C123_limit",
    "C123_converges",
    "C123_sideband",
    "C123_one",
    "C123_spinning_partial"
   ],
   "note": "C123_limit has the error in full. For spin systems the frequencies are those of the means over a turn of the rotor; their intensities are given as functions of the direction and not derived: those the code computes from nsb points (C111) depend on the third angle of the rotor too."
  },
  {
   "property": "C12",
   "status": "proved",
   "theorems": [
    "C12_query_exact",
    "C12_absent_channel",
    "C12_long_item_rejected",
    "C12_two_channels_refuted",
    "C12_two_channels_raises_refuted",
    "C12_two_channels_sound",
    "C12_two_channels_partial",
    "C12_no_items"
   ],
   "note": "The single-channel statement is proved; the two refutations show that it does not extend to two channels. For two channels and P: every selected transition matches on both (C12_two_channels_sound), and the selection is complete when one channel admits one arrangement only (C12_two_channels_partial)."
  },
  {
   "property": "C51",
   "status": "partial",
   "theorems": [
    "C51_partial",
    "C51_unperturbed",
    "C51_axial_refuted",
    "C51_czjzek",
    "C51_missing"
   ],
   "note": "Fails for axially symmetric dominant tensors (eta = 0): they are replaced by zero. Holds for all others; tensors with missing values are rejected (C51_missing)."
  },
  {
   "property": "C120",
   "status": "partial",
   "theorems": [
    "C120_exists",
    "C120_average",
    "C120_static",
    "C120_spinning",
    "C120_spectra_partial",
    "C120_density_refuted",
    "C120_spinning_spectra_partial"
   ],
   "note": "The equality is of the distributions of the exact energies (perturbation theory on the spin matrices), to which the spectra converge (C119). The theorem about two spectra is for one event without sidebands, static or at infinite rotor frequency, frequencies inside the window, with the rounding as tolerances; at finite density the equality is false (C120_density_refuted). The hemisphere only."
  },
  {
   "property": "C125",
   "status": "partial",
   "theorems": [
    "C125_tail",
    "C125_kept",
    "C125_all",
    "C125_code_partial"
   ],
   "note": "The bounds for the intensities of the specification are exact; those of the computed amplitudes hold within the tolerance of C111, one event. What the simulation puts into the sidebands of high order is bounded only through the total."
  },
  {
   "property": "C124",
   "status": "partial",
   "theorems": [
    "C124_intensity_partial",
    "C124_bounded",
    "C124_unique",
    "C124_total",
    "C124_still"
   ],
   "note": "As C111: within the tolerance of the rounded constants and the tables of cosines, one event. That the intensities of all orders make one is C125_all."
  },
  {
   "property": "C54",
   "status": "proved",
   "theorems": [
    "C54_accepts",
    "C54_idempotent",
    "C54_symbols",
    "C54_spins",
    "C54_white_space",
    "C54_characters"
   ],
   "note": "ASCII strings; the regular expression is modelled by hand, including its backtracking."
  },
  {
   "property": "C126",
   "status": "partial",
   "theorems": [
    "C126_symmetric_tensor",
    "C126_antisymmetric_tensor",
    "C126_site",
    "C126_coupling",
    "C126_system",
    "C126_query",
    "C126_numbers",
    "C126_query_refuted",
    "C126_parse_refuted"
   ],
   "note": "Holds for the constructors. Fails for P of a transition query, whose default is not None, and for parse_dict_with_units, which raises for a tensor that is None."
  },
  {
   "property": "C71",
   "status": "proved",
   "theorems": [
    "C71_operations",
    "C71_dict",
    "C71_delete_slice",
    "C71_insert",
    "C71_items",
    "C71_bad_index"
   ],
   "note": ""
  },
  {
   "property": "C106",
   "status": "proved",
   "theorems": [
    "C106_symmetric_tensor",
    "C106_antisymmetric_tensor",
    "C106_site",
    "C106_site_tensors",
    "C106_coupling",
    "C106_coupling_tensors",
    "C106_system",
    "C106_system_parts",
    "C106_event",
    "C106_dimension",
    "C106_method",
    "C106_method_dimensions",
    "C106_query",
    "C106_config",
    "C106_simulator",
    "C106_operations",
    "C106_couplings_refuted"
   ],
   "note": "The couplings of a spin system are the exception: documented as an empty list, they are None (C106_couplings_refuted)."
  },
  {
   "property": "C127",
   "status": "partial",
   "theorems": [
    "C127_index",
    "C127_remove",
    "C127_contains",
    "C127_count",
    "C127_count_none",
    "C127_appended",
    "C127_appended_refuted",
    "C127_equal"
   ],
   "note": "Proved but for one sentence: append also takes dicts with a list left out or with other keys, and those are then not found by in or remove, although the transition was added."
  },
  {
   "property": "C72",
   "status": "partial",
   "theorems": [
    "C72_table_partial",
    "C72_sites",
    "C72_isotope",
    "C72_antisymmetric_refuted"
   ],
   "note": "Correct for the labelled attributes, for the dicts of two levels and for every list of Site objects (C72_sites); shielding_antisymmetric has no column and is lost."
  },
  {
   "property": "C102",
   "status": "partial",
   "theorems": [
    "C102_always",
    "C102_valid_partial",
    "C102_isotope_refuted",
    "C102_eta_refuted",
    "C102_rejected_partial",
    "C102_rejected_refuted",
    "C102_clear_partial",
    "C102_clear_refuted",
    "C102_assign"
   ],
   "note": "Couplings and abundances: always. Quadrupolar nuclei: unless an isotope is assigned; asymmetries: unless one is assigned. Rejected assignments change nothing, rejected constructions may. None removes a tensor but a shielding."
  },
  {
   "property": "C128",
   "status": "proved",
   "theorems": [
    "C128_interrupted",
    "C128_complete",
    "C128_again",
    "C128_ends",
    "C128_raises"
   ],
   "note": "The points of interruption are between the writes to the methods; the assignment of a simulation is one write. The spectrum and its packing are parameters."
  },
  {
   "property": "C129",
   "status": "proved",
   "theorems": [
    "C129_site",
    "C129_coupling",
    "C129_left_out"
   ],
   "note": "Sites and couplings one at a time; the arrays of the code hold one entry (three for the angles) per site or coupling."
  }
 ]
}