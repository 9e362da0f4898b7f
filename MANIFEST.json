{
 "claims": [
  {
   "property": "C01",
   "status": "proved",
   "theorems": [
    "C01_rebase_preserves_value",
    "C01_rebase_flag",
    "C01_rebase_coarsest",
    "C01_rebase_total",
    "C01_rebase_clamp_refuted"
   ],
   "note": "value, flag, coarsest-power and totality theorems for all inputs; the clamp case where true is reported at another power is exhibited (_refuted)"
  },
  {
   "property": "C02",
   "status": "proved",
   "theorems": [
    "C02_rational_equals",
    "C02_rational_equals_total",
    "C02_dyadic_equals",
    "C02_order_same_power",
    "C02_order_refuted",
    "C02_order_refuted_everywhere"
   ],
   "note": "rational_equals/dyadic_equals exact; order operators exact for equal powers; wrong for unequal powers, shown by a witness and on a whole region (_refuted)"
  },
  {
   "property": "C03",
   "status": "proved",
   "theorems": [
    "C03_interval_of_param",
    "C03_ends"
   ],
   "note": "parameters are exact rationals"
  },
  {
   "property": "C04",
   "status": "proved",
   "theorems": [
    "C04_contains_dyadic",
    "C04_contains_dyadic_total",
    "C04_type_mismatch",
    "C04_nested_or_disjoint"
   ],
   "note": ""
  },
  {
   "property": "C05",
   "status": "proved",
   "theorems": [
    "C05_halves",
    "C05_halves_exist",
    "C05_left_shrink_keeps_inf",
    "C05_expand_clopen",
    "C05_expand_of_half",
    "C05_expand_opencl_changes_type",
    "C05_shifts",
    "C05_expand_opencl_refuted"
   ],
   "note": "open-closed expansion changes the type (_refuted)"
  },
  {
   "property": "C06",
   "status": "proved",
   "theorems": [
    "C06_dissection",
    "C06_coarsest",
    "C06_opencl_refuted"
   ],
   "note": "clopen dissection terminates within 31 steps, tiles and is the coarsest possible; open-closed never returns (_refuted)"
  },
  {
   "property": "C07",
   "status": "proved",
   "theorems": [
    "C07_key_order_strict",
    "C07_key_order_meaning"
   ],
   "note": ""
  },
  {
   "property": "C08",
   "status": "proved",
   "theorems": [
    "C08_intersection",
    "C08_intersection_points",
    "C08_union",
    "C08_disjoint_intersection",
    "C08_equality"
   ],
   "note": ""
  },
  {
   "property": "C09",
   "status": "proved",
   "theorems": [
    "C09_contains_point",
    "C09_contains",
    "C09_intersects_with",
    "C09_is_associated"
   ],
   "note": "overlap query proved for all type combinations"
  },
  {
   "property": "C10",
   "status": "proved",
   "theorems": [
    "C10_pieces_tile",
    "C10_refine_halves",
    "C10_mesh",
    "C10_new_points",
    "C10_insert",
    "C10_insert_rejects",
    "C10_merge",
    "C10_merge_type",
    "C10_merge_gap",
    "C10_merge_gap_refuted"
   ],
   "note": "all histories of construction, insertion, refinement and merge; merge across a gap loses points (_refuted)"
  },
  {
   "property": "C11",
   "status": "proved",
   "theorems": [
    "C11_answers_are_rows_of_cells",
    "C11_whole_interval",
    "C11_degenerate_rejected",
    "C11_finds_maximal_pieces",
    "C11_disjoint_inside_refuted"
   ],
   "note": "parameters are exact rationals; left shift of a negative multiplier is given its two's complement value"
  },
  {
   "property": "C12",
   "status": "proved",
   "theorems": [
    "C12_level_starts",
    "C12_words_listed_once",
    "C12_bijection",
    "C12_concatenation",
    "C12_unpack_pack",
    "C12_pack_unpack"
   ],
   "note": ""
  },
  {
   "property": "C13",
   "status": "proved",
   "theorems": [
    "C13_ft_fma",
    "C13_dense_ft_fma",
    "C13_ft_mul"
   ],
   "note": "kernel level for any degree windows and post-processing op; call level with clamped depth arguments"
  },
  {
   "property": "C14",
   "status": "proved",
   "theorems": [
    "C14_inplace_equals_fma",
    "C14_inplace_product",
    "C14_inplace_equals_mul"
   ],
   "note": ""
  },
  {
   "property": "C15",
   "status": "proved",
   "theorems": [
    "C15_associative",
    "C15_unit",
    "C15_linear_left",
    "C15_linear_right",
    "C15_truncation",
    "C15_mixed_depth_refuted"
   ],
   "note": "associativity for mixed depths holds when the middle operand is at least as deep as the first; otherwise refuted by witness"
  },
  {
   "property": "C16",
   "status": "proved",
   "theorems": [
    "C16_antipode",
    "C16_involution",
    "C16_antihomomorphism",
    "C16_inverse",
    "C16_depth_zero_refuted"
   ],
   "note": "depth 0: out-of-bounds write shown for every such tensor (_refuted)"
  },
  {
   "property": "C17",
   "status": "proved",
   "theorems": [
    "C17_exp_kernel",
    "C17_exp",
    "C17_deeper_output_refuted"
   ],
   "note": "output basis no deeper than the operand; deeper output reads out of bounds (_refuted)"
  },
  {
   "property": "C18",
   "status": "proved",
   "theorems": [
    "C18_log_kernel",
    "C18_log",
    "C18_log_coefficients",
    "C18_log_leak_refuted"
   ],
   "note": "kernel statement includes the leak of the initial first entry"
  },
  {
   "property": "C19",
   "status": "proved",
   "theorems": [
    "C19_fmexp_kernel",
    "C19_fmexp",
    "C19_fmexp_depths"
   ],
   "note": ""
  },
  {
   "property": "C20",
   "status": "proved",
   "theorems": [
    "C20_log_exp",
    "C20_exp_log"
   ],
   "note": ""
  },
  {
   "property": "C21",
   "status": "proved",
   "theorems": [
    "C21_adjoint",
    "C21_adjoint_coefficients",
    "C21_shallow_operator_refuted"
   ],
   "note": "shallower operator: identity refuted by witness"
  },
  {
   "property": "C22",
   "status": "proved",
   "theorems": [
    "C22_shuffle_kernel",
    "C22_st_fma",
    "C22_commutative",
    "C22_associative",
    "C22_unit",
    "C22_linear",
    "C22_recursive",
    "C22_shallow_second_refuted"
   ],
   "note": "width up to 32768 and depth below 64, the limits of the 16-bit letters and 64-bit masks of the kernel"
  },
  {
   "property": "C23",
   "status": "proved",
   "theorems": [
    "C23_shuffle_identity",
    "C23_shuffle_product"
   ],
   "note": ""
  },
  {
   "property": "C24",
   "status": "proved",
   "theorems": [
    "C24_csr",
    "C24_csc"
   ],
   "note": ""
  },
  {
   "property": "C25",
   "status": "proved",
   "theorems": [
    "C25_stride_one",
    "C25_ft_fma",
    "C25_ft_inplace_mul",
    "C25_antipode",
    "C25_adjoint",
    "C25_st_fma",
    "C25_exp",
    "C25_log",
    "C25_fmexp",
    "C25_other_strides",
    "C25_stride_two_refuted"
   ],
   "note": ""
  },
  {
   "property": "C26",
   "status": "proved",
   "theorems": [
    "C26_ft_mul",
    "C26_ft_inplace_mul",
    "C26_ft_fma",
    "C26_ft_fma_shallow_accumulator_refuted",
    "C26_adjoint_deeper_operator",
    "C26_inplace_refuted",
    "C26_fma_refuted"
   ],
   "note": ""
  },
  {
   "property": "C27",
   "status": "proved",
   "theorems": [
    "C27_hall_set",
    "C27_depth_zero_refuted",
    "C27_negative_refuted"
   ],
   "note": "widths >= 0 and depths >= 1 with depth*width^depth below 2^63; depth 0 and negative arguments refuted by witness"
  },
  {
   "property": "C28",
   "status": "proved",
   "theorems": [
    "C28_degree",
    "C28_parents",
    "C28_find_present",
    "C28_find_absent"
   ],
   "note": "absent pairs: exact condition for the read past the array"
  },
  {
   "property": "C29",
   "status": "proved",
   "theorems": [
    "C29_mobius",
    "C29_mobius_overflow_refuted",
    "C29_witt",
    "C29_allocation_exact"
   ],
   "note": "degrees below 46339^2 and depth*width^depth below 2^63; Moebius overflows near 2^31 (_refuted)"
  },
  {
   "property": "C30",
   "status": "proved",
   "theorems": [
    "C30_total",
    "C30_commutator",
    "C30_outside",
    "C30_history_independent",
    "C30_depth_independent",
    "C30_antisymmetric",
    "C30_zero_key"
   ],
   "note": "coefficients are unbounded integers; keys are non-negative; all histories through standard bases of one width"
  },
  {
   "property": "C31",
   "status": "proved",
   "theorems": [
    "C31_columns",
    "C31_lie_to_tensor",
    "C31_primitive",
    "C31_mismatch",
    "C31_width_zero_refuted",
    "C31_depth64_refuted"
   ],
   "note": "exact ring scalars; width >= 1 and depth*(2*width)^depth below 2^63; width 0 and depth 64 leave defined behaviour (_refuted); batches: C68"
  },
  {
   "property": "C32",
   "status": "proved",
   "theorems": [
    "C32_columns",
    "C32_tensor_to_lie",
    "C32_primitive_recovered",
    "C32_lie_recovered",
    "C32_mismatch"
   ],
   "note": "exact scalars in which positive integers are invertible; hypothesis that bracket coefficients fit a C int (the code casts to int), checked by computation in the example; one core vector"
  },
  {
   "property": "C33",
   "status": "proved",
   "theorems": [
    "C33_custom_basis_refuted"
   ],
   "note": "two accepted bases of width 3 and a history giving a wrong answer (_refuted)"
  },
  {
   "property": "C34",
   "status": "proved",
   "theorems": [
    "C34_builds",
    "C34_too_few_columns",
    "C34_too_many_columns",
    "C34_cancelled_first_column_refuted",
    "C34_zero_estimate_refuted",
    "C34_value_before_column_refuted"
   ],
   "note": "any ring with a decidable zero test; three situations where the builder runs out of bounds are exhibited (_refuted)"
  },
  {
   "property": "C35",
   "status": "proved",
   "theorems": [
    "C35_equality",
    "C35_hash",
    "C35_truncated_hash",
    "C35_truncation_refuted"
   ],
   "note": "Lie bases within 64-bit index range; truncated bases hash to 0 (_refuted); optional array arguments of the constructors and writes to the degree_begin attribute are not part of the histories"
  },
  {
   "property": "C36",
   "status": "proved",
   "theorems": [
    "C36_increments",
    "C36_product",
    "C36_signature",
    "C36_default",
    "C36_chen",
    "C36_cache_transparent",
    "C36_contexts_refuted"
   ],
   "note": "Lie increment streams behind the dyadic cache; calls run one after another (no threads); sound contexts are shown to exist (C36_signature uses the modelled kernels); with two contexts the cache is visible (_refuted)"
  },
  {
   "property": "C37",
   "status": "proved",
   "theorems": [
    "C37_pieces",
    "C37_inside_cell",
    "C37_cell_start",
    "C37_on_grid",
    "C37_default_on_grid",
    "C37_direct",
    "C37_chen_refuted",
    "C37_default_refuted"
   ],
   "note": "exact contribution of every piece; data loss, over-attribution and the failure of Chen's identity are theorems (_refuted)"
  },
  {
   "property": "C38",
   "status": "proved",
   "theorems": [
    "C38_exact",
    "C38_query",
    "C38_chen",
    "C38_right_end_refuted",
    "C38_chen_refuted",
    "C38_order_refuted",
    "C38_empty_piece_refuted"
   ],
   "note": "generic in the context and the scaling of Lie elements; wrong right-end multiplier shown for every such query (_refuted)"
  },
  {
   "property": "C39",
   "status": "proved",
   "theorems": [
    "C39_coordinates",
    "C39_refused",
    "C39_inverse",
    "C39_time_key",
    "C39_labels",
    "C39_label_unknown",
    "C39_lookup_defined",
    "C39_finalize_fails",
    "C39_finalize",
    "C39_finalize_width",
    "C39_of_width"
   ],
   "note": "dimensions are natural numbers; the cast of the width to int in finalize is taken to be exact; JSON parsing and Python wrappers of schemas are not modelled"
  },
  {
   "property": "C40",
   "status": "proved",
   "theorems": [
    "C40_categorical",
    "C40_label_index_refuted",
    "C40_increment",
    "C40_value",
    "C40_value_label_refuted",
    "C40_defined",
    "C40_values_telescope"
   ],
   "note": "the overloads that address other coordinates are characterised exactly (C40_categorical, C40_label_index_refuted, C40_value_label_refuted); C40_values_telescope needs every call by index and increments on channels with at least one variant"
  },
  {
   "property": "C41",
   "status": "proved",
   "theorems": [
    "C41_monomial",
    "C41_product_unique",
    "C41_add",
    "C41_sub",
    "C41_add_refuted",
    "C41_mul",
    "C41_mul_single",
    "C41_mul_refuted",
    "C41_div",
    "C41_equal",
    "C41_zero",
    "C41_constant",
    "C41_degree"
   ],
   "note": "exponents and degrees are unbounded integers (deg_t is int); aliasing p -= p not modelled; undefined cases are exact"
  },
  {
   "property": "C42",
   "status": "proved",
   "theorems": [
    "C42_total",
    "C42_transitive",
    "C42_equal",
    "C42_graded",
    "C42_le",
    "C42_lt_le",
    "C42_le_refuted",
    "C42_multiplicative_refuted",
    "C42_exponent",
    "C42_indeterminate",
    "C42_indeterminate_order"
   ],
   "note": "degrees are unbounded integers"
  },
  {
   "property": "C43",
   "status": "proved",
   "theorems": [
    "C43_life",
    "C43_growing",
    "C43_size_refuted",
    "C43_leak_refuted",
    "C43_deallocate_refuted"
   ],
   "note": "implicit copies of a CacheArray (which share the block) are not modelled"
  },
  {
   "property": "C44",
   "status": "proved",
   "theorems": [
    "C44_key",
    "C44_key_all",
    "C44_basis",
    "C44_word_order",
    "C44_parents",
    "C44_parents_refuted",
    "C44_index",
    "C44_index_refuted",
    "C44_advance",
    "C44_reverse",
    "C44_letters",
    "C44_unpacked",
    "C44_unpacked_words",
    "C44_increment",
    "C44_increment_refuted",
    "C44_unpacked_order",
    "C44_unpacked_order_refuted",
    "C44_vector_refuted"
   ],
   "note": "widths and depths for which index and degree fit their bit fields"
  },
  {
   "property": "C45",
   "status": "proved",
   "theorems": [
    "C45_exists",
    "C45_same_order",
    "C45_same_elements",
    "C45_lookup_finds_only_elements",
    "C45_past_the_end",
    "C45_sizes",
    "C45_next",
    "C45_growing",
    "C45_copy_refuted"
   ],
   "note": "width^depth at most 2^56, depth at most 254 (so that keys do not overflow), and depth*width^depth below 2^63; C45_copy_refuted for the constructor from an existing set"
  },
  {
   "property": "C46",
   "status": "proved",
   "theorems": [
    "C46_safe",
    "C46_unsafe_refuted",
    "C46_copies_refuted"
   ],
   "note": "the histories that fail are characterised exactly (C46_unsafe_refuted); threads other than through the cache's mutex are not modelled"
  },
  {
   "property": "C47",
   "status": "proved",
   "theorems": [
    "C47_witt",
    "C47_agrees",
    "C47_end_refuted",
    "C47_deep_refuted"
   ],
   "note": "debug assertions off"
  },
  {
   "property": "C48",
   "status": "proved",
   "theorems": [
    "C48_bounds",
    "C48_dense_ft_fma"
   ],
   "note": ""
  },
  {
   "property": "C49",
   "status": "proved",
   "theorems": [
    "C49_inplace_addition",
    "C49_scalar_multiply",
    "C49_inplace_scalar_multiply",
    "C49_addition",
    "C49_view_size"
   ],
   "note": ""
  },
  {
   "property": "C50",
   "status": "proved",
   "theorems": [
    "C50_domain",
    "C50_increment",
    "C50_terminal",
    "C50_query",
    "C50_query_throws",
    "C50_history",
    "C50_caching_streams",
    "C50_touching_refuted"
   ],
   "note": "generic in any increments satisfying Chen's identity; instantiated with caching Lie increment streams after any call history"
  },
  {
   "property": "C51",
   "status": "proved",
   "theorems": [
    "C51_log_of_signature_is_lie",
    "C51_cbh",
    "C51_cbh2"
   ],
   "note": "context operations are the modelled compute kernels on dense coordinates"
  },
  {
   "property": "C52",
   "status": "proved",
   "theorems": [
    "C52_published",
    "C52_incremental",
    "C52_one_octet",
    "C52_state",
    "C52_string",
    "C52_string_refuted",
    "C52_finalize"
   ],
   "note": ""
  },
  {
   "property": "C53",
   "status": "proved",
   "theorems": [
    "C53_sizes",
    "C53_lie_refuted",
    "C53_depth_refuted"
   ],
   "note": "C53_sizes needs depth*width^depth below 2^63 (so that Witt's numbers are shown to exist); the size arrays given by derived contexts are not covered"
  },
  {
   "property": "C54",
   "status": "proved",
   "theorems": [
    "C54_extension"
   ],
   "note": "func and binop are pure functions; operands evaluated left first, from any cache that calls can leave"
  },
  {
   "property": "C55",
   "status": "proved",
   "theorems": [
    "C55_kernel",
    "C55_adjoint"
   ],
   "note": "the kernel has no Python entry point at this commit; argument not deeper than operator and output"
  },
  {
   "property": "C56",
   "status": "proved",
   "theorems": [
    "C56_programs",
    "C56_storage"
   ],
   "note": "scalars are an arbitrary Q-algebra with decidable equality: floating-point rounding is not modelled; serialisation, borrowing and printing are not modelled"
  },
  {
   "property": "C57",
   "status": "proved",
   "theorems": [
    "C57_mul_assoc",
    "C57_mul_distributes",
    "C57_log_exp",
    "C57_exp_log",
    "C57_fmexp",
    "C57_exp_inverse"
   ],
   "note": "as C56; C57_mul_distributes needs operands of + not cleared by an in-place product"
  },
  {
   "property": "C58",
   "status": "proved",
   "theorems": [
    "C58_mul_null_refuted",
    "C58_exp_null_refuted",
    "C58_null_left_refuted",
    "C58_self_subtraction_refuted",
    "C58_subscript_refuted",
    "C58_division_refuted",
    "C58_division_by_zero",
    "C58_two_contexts",
    "C58_stale_degree_refuted",
    "C58_depth_zero_refuted"
   ],
   "note": "C58_stale_degree_refuted and C58_depth_zero_refuted are single programs showing the failure"
  },
  {
   "property": "C59",
   "status": "proved",
   "theorems": [
    "C59_antipode_twice",
    "C59_antipode_mul",
    "C59_antipode_exp",
    "C59_antipode_inverse",
    "C59_antipode_empty_refuted"
   ],
   "note": "as C56; dense tensors must be nonzero (C59_antipode_empty_refuted), and have fewer than 2^16 letters or depth at most 2: the word counter of the tiled copy has 16-bit letters"
  },
  {
   "property": "C60",
   "status": "proved",
   "theorems": [
    "C60_lie_to_tensor_injective",
    "C60_round_trip",
    "C60_tables_exist",
    "C60_alternating",
    "C60_antisymmetric",
    "C60_jacobi",
    "C60_expands_to_commutator",
    "C60_key_is_bracket_of_parents"
   ],
   "note": "exact scalars; standard bases; coordinates against keys of the whole basis. The Lie product of coordinate vectors is the bilinear extension of the modelled bracket answers"
  },
  {
   "property": "C61",
   "status": "proved",
   "theorems": [
    "C61_signature_injective",
    "C61_log_signature",
    "C61_unique",
    "C61_history_independent",
    "C61_associative",
    "C61_list_splits",
    "C61_commuting",
    "C61_multiples",
    "C61_unit",
    "C61_inverse"
   ],
   "note": "context operations are the modelled compute kernels on dense coordinates; that the calls return is C51"
  },
  {
   "property": "C62",
   "status": "proved",
   "theorems": [
    "C62_constructed",
    "C62_filed",
    "C62_product",
    "C62_in_order",
    "C62_signature",
    "C62_pieces",
    "C62_chen",
    "C62_empty",
    "C62_default",
    "C62_order_refuted",
    "C62_default_refuted",
    "C62_zero_cell_refuted"
   ],
   "note": "clopen streams; the refuted parts of the statement are proved as counterexamples; a tick in the cell at 0 together with one before 0 is excluded (C62_zero_cell_refuted)"
  },
  {
   "property": "C63",
   "status": "proved",
   "theorems": [
    "C63_total",
    "C63_exact",
    "C63_function",
    "C63_signature",
    "C63_one_path",
    "C63_chen",
    "C63_repeat",
    "C63_brownian",
    "C63_first",
    "C63_saved",
    "C63_two_sides_refuted",
    "C63_repeat_refuted",
    "C63_history_refuted",
    "C63_resolution_refuted",
    "C63_growth_refuted",
    "C63_brownian_refuted"
   ],
   "note": "the source of increments is a parameter (function, or any stream of random numbers); exact arithmetic; the refuted parts of the statement are proved as counterexamples; concurrent queries are not modelled"
  },
  {
   "property": "C64",
   "status": "proved",
   "theorems": [
    "C64_programs",
    "C64_commutative",
    "C64_associative",
    "C64_distributes",
    "C64_unit",
    "C64_function_is_operator",
    "C64_halves",
    "C64_half_twice",
    "C64_functionals_multiply",
    "C64_overflow_refuted",
    "C64_shallow_right_refuted",
    "C64_widths_refuted",
    "C64_stale_degree_refuted",
    "C64_operators_refuse"
   ],
   "note": "exact arithmetic; one thread (the caches have no lock); null operands are those of C58; the cases the statement names as going wrong are proved as counterexamples"
  },
  {
   "property": "C65",
   "status": "proved",
   "theorems": [
    "C65_contexts",
    "C65_programs",
    "C65_int32",
    "C65_antisymmetric",
    "C65_jacobi",
    "C65_additive",
    "C65_homogeneous",
    "C65_round_trip",
    "C65_commutator",
    "C65_to_tensor_width",
    "C65_to_lie_width",
    "C65_shallow_refuted"
   ],
   "note": "exact scalars; one thread; null objects are those of C58; 32-bit integer coefficients: any run overflows or agrees (C65_int32); the case named in the statement as going wrong is proved as a counterexample"
  },
  {
   "property": "C66",
   "status": "proved",
   "theorems": [
    "C66_chen",
    "C66_log_signature",
    "C66_log_signature_cbh",
    "C66_cbh_two",
    "C66_cbh_associative",
    "C66_cbh_inverse"
   ],
   "note": "exact scalars; one thread; rows of data as for C65"
  },
  {
   "property": "C67",
   "status": "proved",
   "theorems": [
    "C67_additive",
    "C67_several",
    "C67_two_intervals_refuted",
    "C67_storage_refuted"
   ],
   "note": "exact scalars; over two or more intervals the code computes something else: characterised (C67_several) and refuted"
  },
  {
   "property": "C68",
   "status": "proved",
   "theorems": [
    "C68_ft_fma",
    "C68_ft_inplace_mul",
    "C68_antipode",
    "C68_adjoint",
    "C68_st_fma",
    "C68_ft_exp",
    "C68_ft_log",
    "C68_ft_fmexp",
    "C68_matrix",
    "C68_stacks",
    "C68_stacks_exp",
    "C68_lie_to_tensor",
    "C68_tensor_to_lie",
    "C68_products",
    "C68_shuffles",
    "C68_antipodes",
    "C68_exponentials",
    "C68_logarithms",
    "C68_fused_exponentials",
    "C68_c_order",
    "C68_shape_mismatch",
    "C68_matrix_mismatch",
    "C68_fortran_order_refuted",
    "C68_short_rows_refuted"
   ],
   "note": "exact ring scalars; output and inputs in different blocks of memory; elements of one tensor consecutive (other layouts refuted: C68_fortran_order_refuted, C68_short_rows_refuted); the items must individually succeed, which C13-C24, C31, C32 give"
  },
  {
   "property": "C69",
   "status": "proved",
   "theorems": [
    "C69_elements",
    "C69_streams",
    "C69_defined",
    "C69_vectors",
    "C69_matrices",
    "C69_list_of_vectors",
    "C69_buffers",
    "C69_unsigned_read",
    "C69_unsigned_refuted",
    "C69_other_types_refuted",
    "C69_columns_read",
    "C69_columns_refuted",
    "C69_stream_keys_refuted",
    "C69_tuples_refuted",
    "C69_eighth_refuted",
    "C69_broadcast_refuted",
    "C69_zero_dim_refuted",
    "C69_buffer_conversion_refuted",
    "C69_fortran_buffer_refuted",
    "C69_order_refuted"
   ],
   "note": "scalar values and conversions are parameters; Python values are the constructors of DataModel.v (subclass tricks, iterators and objects with several protocols are not); offsets as integers; the cases the statement names as going wrong are proved as counterexamples"
  },
  {
   "property": "C70",
   "status": "proved",
   "theorems": [
    "C70_streams",
    "C70_elements",
    "C70_asking",
    "C70_first_entry_refuted"
   ],
   "note": "types with known size only (C70 excludes half precision and bfloat types); the first-entry rule is proved and refuted as stated"
  },
  {
   "property": "C71",
   "status": "proved",
   "theorems": [
    "C71_rows",
    "C71_in_order",
    "C71_context",
    "C71_accepted",
    "C71_refused",
    "C71_frame",
    "C71_whole_at",
    "C71_whole_plain",
    "C71_whole_default",
    "C71_whole_refuted",
    "C71_single_refuted",
    "C71_separated_refuted",
    "C71_strided_refuted",
    "C71_reversed_refuted",
    "C71_unsigned_refuted",
    "C71_other_types_refuted",
    "C71_time_overwrites"
   ],
   "note": "parameters are exact rationals; rows as read by C69; what goes wrong is in the _refuted theorems and C71_time_overwrites"
  },
  {
   "property": "C72",
   "status": "proved",
   "theorems": [
    "C72_object",
    "C72_description",
    "C72_retag",
    "C72_distinct",
    "C72_distinct_descriptions",
    "C72_empty",
    "C72_description_refuted",
    "C72_unsigned_refuted",
    "C72_rational_refuted"
   ],
   "note": "machine words as numbers below 2^64; the type object itself is its address; the codes whose description is lost are in C72_description_refuted"
  },
  {
   "property": "C73",
   "status": "proved",
   "theorems": [
    "C73_binary",
    "C73_assign_op",
    "C73_constant",
    "C73_copy",
    "C73_assign",
    "C73_equal",
    "C73_divide",
    "C73_programs",
    "C73_negate_refuted",
    "C73_fits_refuted",
    "C73_divide_refuted",
    "C73_negative_zero_refuted",
    "C73_type_refuted"
   ],
   "note": "conversions that succeed are taken to keep values and to succeed from each type to the common type of two (sound_values); x op x in place on values"
  },
  {
   "property": "C74",
   "status": "proved",
   "theorems": [
    "C74_safe",
    "C74_no_leak",
    "C74_null_refuted",
    "C74_divide_refuted"
   ],
   "note": "programs restricted as the property says (permitted); wrong cases refuted"
  },
  {
   "property": "C75",
   "status": "proved",
   "theorems": [
    "C75_pieces",
    "C75_query",
    "C75_default",
    "C75_same",
    "C75_piece_refuted",
    "C75_depth_refuted"
   ],
   "note": "queries exact for dyadic pieces; other pieces and contexts of lower depth refuted"
  },
  {
   "property": "C76",
   "status": "proved",
   "theorems": [
    "C76_arguments",
    "C76_answer",
    "C76_default",
    "C76_only",
    "C76_safe",
    "C76_dtype_refuted",
    "C76_name_refuted",
    "C76_second_refuted",
    "C76_resolution_refuted",
    "C76_wrap_refuted"
   ],
   "note": "reading of all arguments and the answers; dtype without depth, names of types, ignored and overridden arguments and reduction modulo 2^32 refuted"
  },
  {
   "property": "C77",
   "status": "proved",
   "theorems": [
    "C77_derivative_arguments",
    "C77_derivative",
    "C77_simplify_arguments",
    "C77_simplify",
    "C77_restrict",
    "C77_two_refuted"
   ],
   "note": "reading of all arguments and the answers; tuples of two directions and restrict of other objects refuted"
  },
  {
   "property": "C78",
   "status": "proved",
   "theorems": [
    "C78_programs",
    "C78_freed",
    "C78_lent",
    "C78_assigned_apart",
    "C78_copies_apart_refuted",
    "C78_assign_nothing_refuted",
    "C78_assign_borrowed_refuted",
    "C78_assign_lent_refuted",
    "C78_index_nothing_refuted",
    "C78_alloc_info_refuted"
   ],
   "note": "rightly used programs as in does_all; counts of new buffers start at 0; assignment from borrowed arrays, copies, empty arrays and type information refuted"
  },
  {
   "property": "C79",
   "status": "proved",
   "theorems": [
    "C79_construct",
    "C79_words",
    "C79_keys",
    "C79_order",
    "C79_equal",
    "C79_degree",
    "C79_reverse",
    "C79_split",
    "C79_split_exact",
    "C79_split_refuted",
    "C79_product",
    "C79_concatenation_refuted",
    "C79_product_depth_refuted",
    "C79_letter_zero_refuted",
    "C79_index_width_one_refuted",
    "C79_equal_keys_alike_refuted",
    "C79_iterate",
    "C79_iterate_range"
   ],
   "note": "contexts are taken to exist only for widths and depths whose words can be numbered in 64 bits; product order, products beyond the depth, split_n inside, letter 0, index with width 1 refuted"
  },
  {
   "property": "C80",
   "status": "proved",
   "theorems": [
    "C80_construct",
    "C80_construct_or_error",
    "C80_written_once",
    "C80_basis_key",
    "C80_one_bracket",
    "C80_one_key",
    "C80_hall_sets",
    "C80_iterate",
    "C80_index_letter",
    "C80_index_refuted",
    "C80_index_first",
    "C80_only_basis_refuted",
    "C80_width_refuted",
    "C80_letter_zero_refuted"
   ],
   "note": "letters are written as numbers (digits not modelled); indexing by brackets, and refusing brackets outside the basis, letters beyond the width and letter 0 refuted"
  },
  {
   "property": "C81",
   "status": "proved",
   "theorems": [
    "C81_described",
    "C81_only_described",
    "C81_one_meaning",
    "C81_types",
    "C81_categories",
    "C81_type_alone_refuted",
    "C81_taken_refuted",
    "C81_taken_options_refuted",
    "C81_example"
   ],
   "note": "strings are bytes; short forms without options and one channel per item refuted"
  },
  {
   "property": "C82",
   "status": "proved",
   "theorems": [
    "C82_schema",
    "C82_accepted",
    "C82_accepted_or_error",
    "C82_only_these",
    "C82_width",
    "C82_time",
    "C82_time_with_schema_refuted",
    "C82_context_width_refuted",
    "C82_schema_kept_refuted",
    "C82_example"
   ],
   "note": "vtype, resolution, support and warnings are left out; time with a schema, agreement of context and schema width, and types ignored beside a schema refuted"
  },
  {
   "property": "C83",
   "status": "proved",
   "theorems": [
    "C83_order",
    "C83_rows",
    "C83_rows_from",
    "C83_total",
    "C83_channels",
    "C83_given_schema_kept",
    "C83_width_depth",
    "C83_accepts",
    "C83_defined",
    "C83_defined_rows",
    "C83_first_at_zero",
    "C83_always_defined_refuted",
    "C83_defined_for_schemas_refuted",
    "C83_categories_move_refuted",
    "C83_times_kept_refuted",
    "C83_channels_added",
    "C83_width_reached",
    "C83_width_refused",
    "C83_final_untouched",
    "C83_stream_channels",
    "C83_stream_width",
    "C83_stream_defined",
    "C83_width_reached_refuted"
   ],
   "note": "timestamps are exact rationals or microseconds; lead-lag cbh is any product additive on letters, so for lead-lag values the theorems fix the coordinates of rows but not which increment comes first; absence of reads out of range, categories moving their own coordinate and kept times refuted"
  },
  {
   "property": "C84",
   "status": "proved",
   "theorems": [
    "C84_items",
    "C84_calls",
    "C84_or_error",
    "C84_four_fields",
    "C84_tuples",
    "C84_records",
    "C84_by_label",
    "C84_by_time",
    "C84_numbers",
    "C84_parts",
    "C84_rows",
    "C84_accepted",
    "C84_defined",
    "C84_any_labels_refuted",
    "C84_each_item_counts_refuted",
    "C84_types_as_in_schemas_refuted",
    "C84_tuple_data_refuted"
   ],
   "note": "subclasses of dict, list and tuple and bytes labels are left out; labels named as fields, one tick per item, type names as in schemas and tuples as data refuted"
  },
  {
   "property": "C85",
   "status": "proved",
   "theorems": [
    "C85_rows",
    "C85_frame",
    "C85_split",
    "C85_total",
    "C85_increments",
    "C85_made",
    "C85_frames",
    "C85_given_width",
    "C85_given_rows",
    "C85_given_defined",
    "C85_given_always_defined_refuted",
    "C85_value_type_refuted",
    "C85_time_refuted",
    "C85_defined_refuted"
   ],
   "note": "samples and times are exact; libsndfile is a list of frames; use of the channel type and of time, and absence of reads out of range refuted"
  },
  {
   "property": "C86",
   "status": "proved",
   "theorems": [
    "C86_defined",
    "C86_released_once",
    "C86_nothing_left",
    "C86_factory",
    "C86_register",
    "C86_move",
    "C86_assign",
    "C86_destroy",
    "C86_construct",
    "C86_true_usable_refuted",
    "C86_always_released_refuted",
    "C86_default_kept_refuted"
   ],
   "note": "one thread; factories as predicates on URIs; use of true constructors after construct, release after an error and survival of the built-in factory refuted"
  }
 ]
}