{
 "claims": [
  {
   "property": "C01",
   "status": "proved",
   "theorems": [
    "C01_bounded_list",
    "C01_release",
    "C01_wrap_refuted",
    "C01_access_copy_swap"
   ],
   "note": "Proved for all histories with size()+count < 2^64; C01_wrap_refuted shows the assert is bypassed when size()+count wraps around size_t."
  },
  {
   "property": "C02",
   "status": "proved",
   "theorems": [
    "C02_at"
   ],
   "note": ""
  },
  {
   "property": "C03",
   "status": "partial",
   "theorems": [
    "C03_insert_refuted",
    "C03_insert_smears",
    "C03_insert_strict_ub",
    "C03_insert_partial",
    "C03_insert_trivial"
   ],
   "note": "REFUTED for element-by-element std::copy (C03_insert_refuted); exact result C03_insert_smears; holds for trivially copyable T (C03_insert_trivial) and for positions >= size()-1 (C03_insert_partial)."
  },
  {
   "property": "C04",
   "status": "partial",
   "theorems": [
    "C04_eq_refuted",
    "C04_eq_asymmetric_refuted",
    "C04_eq_prefix",
    "C04_eq_partial"
   ],
   "note": "REFUTED: sizes are not compared; lhs==rhs is a prefix test (C04_eq_prefix)."
  },
  {
   "property": "C05",
   "status": "partial",
   "theorems": [
    "C05_insert_alias",
    "C05_insert_alias_refuted",
    "C05_insert_alias_partial"
   ],
   "note": "REFUTED for an argument aliasing an element after pos; exact characterisation in C05_insert_alias."
  },
  {
   "property": "C06",
   "status": "partial",
   "theorems": [
    "C06_erase_empty_range_refuted",
    "C06_erase_range_partial",
    "C06_erase_one"
   ],
   "note": "REFUTED for empty ranges, which return begin(); non-empty ranges proved."
  },
  {
   "property": "C07",
   "status": "proved",
   "theorems": [
    "C07_window_history",
    "C07_at",
    "C07_vec",
    "C07_access",
    "C07_release_refuted"
   ],
   "note": "All windows of all histories stay inside the array. Additionally C07_release_refuted: with asserts compiled out remove_prefix/suffix beyond the length leave the array."
  },
  {
   "property": "C08",
   "status": "partial",
   "theorems": [
    "C08_replace_all_partial",
    "C08_empty_pattern_refuted"
   ],
   "note": "REFUTED for an empty search string (the loop never terminates). Proved for every non-empty one (C08_replace_all_partial)."
  },
  {
   "property": "C09",
   "status": "partial",
   "theorems": [
    "C09_basename",
    "C09_extension_partial",
    "C09_no_extension",
    "C09_dotted_directory_refuted"
   ],
   "note": "REFUTED: a dot in a directory name is taken for an extension by split_extension/remove_extension. Proved when the last component has a dot or the path has none; basename fully."
  },
  {
   "property": "C10",
   "status": "proved",
   "theorems": [
    "C10_split",
    "C10_negative_delim_ub"
   ],
   "note": ""
  },
  {
   "property": "C11",
   "status": "proved",
   "theorems": [
    "C11_num_digits",
    "C11_zero_padded"
   ],
   "note": ""
  },
  {
   "property": "C12",
   "status": "proved",
   "theorems": [
    "C12_linearize_bijection"
   ],
   "note": ""
  },
  {
   "property": "C13",
   "status": "proved",
   "theorems": [
    "C13_iteration",
    "C13_decrement",
    "C13_reverse"
   ],
   "note": ""
  },
  {
   "property": "C14",
   "status": "partial",
   "theorems": [
    "C14_empty_refuted",
    "C14_empty_partial"
   ],
   "note": "REFUTED for every shape with a zero and a non-zero extent; C14_empty_partial gives the exact set of visited indices."
  },
  {
   "property": "C15",
   "status": "partial",
   "theorems": [
    "C15_begin_plus_size_refuted",
    "C15_random_access_partial",
    "C15_rank_one"
   ],
   "note": "REFUTED: begin()+size() != end() for every rank >= 2. All other random access and all differences proved."
  },
  {
   "property": "C16",
   "status": "proved",
   "theorems": [
    "C16_slicing_strided",
    "C16_at",
    "C16_slicing_contiguous",
    "C16_slice_checked"
   ],
   "note": ""
  },
  {
   "property": "C17",
   "status": "proved",
   "theorems": [
    "C17_section",
    "C17_section_accepts",
    "C17_section_compose",
    "C17_section_origin"
   ],
   "note": ""
  },
  {
   "property": "C18",
   "status": "partial",
   "theorems": [
    "C18_empty_refuted",
    "C18_empty_exact"
   ],
   "note": "REFUTED: empty() returns data()!=nullptr (C18_empty_exact)."
  },
  {
   "property": "C19",
   "status": "partial",
   "theorems": [
    "C19_view_equality_refuted",
    "C19_contiguous",
    "C19_strided_partial",
    "C19_contiguous_iteration"
   ],
   "note": "REFUTED for strided views sharing their data pointer; proved for contiguous/static views and for strided views with different data pointers."
  },
  {
   "property": "C20",
   "status": "partial",
   "theorems": [
    "C20_index_order_refuted",
    "C20_index_order_partial"
   ],
   "note": "REFUTED: operator< is 'some component is smaller'; meaning of all comparison operators proved in C20_index_order_partial."
  },
  {
   "property": "C21",
   "status": "partial",
   "theorems": [
    "C21_c_array_refuted",
    "C21_c_array_partial"
   ],
   "note": "REFUTED: strides are the extents themselves; right iff all extents are 1."
  },
  {
   "property": "C22",
   "status": "proved",
   "theorems": [
    "C22_zip_lockstep"
   ],
   "note": ""
  },
  {
   "property": "C23",
   "status": "partial",
   "theorems": [
    "C23_zip_size_refuted",
    "C23_zip_size_partial"
   ],
   "note": "REFUTED: the first container's size is never compared; exact condition in C23_zip_size_partial; zip of one container reads past the size array."
  },
  {
   "property": "C24",
   "status": "partial",
   "theorems": [
    "C24_filter_iterator_refuted",
    "C24_increment_partial"
   ],
   "note": "REFUTED: operator++ does not leave a matching element, so every traversal with a match is infinite; one step characterised in C24_increment_partial."
  },
  {
   "property": "C25",
   "status": "partial",
   "theorems": [
    "C25_set_intersection",
    "C25_remove_duplicates_refuted",
    "C25_remove_duplicates_partial",
    "C25_remove_adjacent"
   ],
   "note": "Intersection proved. remove_duplicates REFUTED for unsorted input; proved for sorted input and characterised in general (C25_remove_adjacent)."
  },
  {
   "property": "C26",
   "status": "proved",
   "theorems": [
    "C26_dhms",
    "C26_dhms_negative"
   ],
   "note": ""
  },
  {
   "property": "C27",
   "status": "partial",
   "theorems": [
    "C27_round_trip",
    "C27_str",
    "C27_overflow_refuted",
    "C27_const_string"
   ],
   "note": "Round trip proved; REFUTED: strings of length >= N overflow the buffer, operator[](N) passes the assert."
  },
  {
   "property": "C28",
   "status": "partial",
   "theorems": [
    "C28_array_op_assign",
    "C28_array_scalar_partial",
    "C28_array_scalar_alias_exact",
    "C28_array_scalar_last",
    "C28_array_scalar_alias_refuted",
    "C28_array_div_scalar_partial",
    "C28_array_div_integral_refuted",
    "C28_array_free",
    "C28_fill",
    "C28_dimensioned_partial",
    "C28_dimensioned_self_refuted"
   ],
   "note": "REFUTED in three ways: += -= *= by an own element use the updated value (C28_array_scalar_alias_refuted, exact result in _alias_exact), /= s on integers gives zeros (C28_array_div_integral_refuted), dimensioned_array op= itself is a no-op (C28_dimensioned_self_refuted). All other combinations proved componentwise."
  },
  {
   "property": "C29",
   "status": "proved",
   "theorems": [
    "C29_bijection",
    "C29_access",
    "C29_write_frame"
   ],
   "note": ""
  },
  {
   "property": "C30",
   "status": "proved",
   "theorems": [
    "C30_cas_linearizable",
    "C30_finished"
   ],
   "note": ""
  },
  {
   "property": "C31",
   "status": "proved",
   "theorems": [
    "C31_weak_linearizable"
   ],
   "note": ""
  },
  {
   "property": "C32",
   "status": "proved",
   "theorems": [
    "C32_tickets",
    "C32_tickets_distinct"
   ],
   "note": ""
  },
  {
   "property": "C33",
   "status": "proved",
   "theorems": [
    "C33_commutative",
    "C33_add_sub_min_max"
   ],
   "note": ""
  },
  {
   "property": "C34",
   "status": "proved",
   "theorems": [
    "C34_failure_means_progress",
    "C34_solo",
    "C34_terminates"
   ],
   "note": "Failure implies another thread changed the cell (object representation) in between; termination bound (threads+7)*operations for every schedule when distinct representations have distinct values; a lone thread needs one attempt, two if representations are not unique."
  },
  {
   "property": "C35",
   "status": "proved",
   "theorems": [
    "C35_lock_linearizable",
    "C35_mutual_exclusion",
    "C35_mixing_loses_update"
   ],
   "note": "The mixing clause is C35_mixing_loses_update."
  },
  {
   "property": "C36",
   "status": "partial",
   "theorems": [
    "C36_cpp_partial",
    "C36_cpp_return_refuted",
    "C36_kokkos_post_refuted"
   ],
   "note": "REFUTED: two concurrent cpp-scheme add(1) both return the value after both (C36_cpp_return_refuted), two concurrent kokkos post-increments return the same ticket (C36_kokkos_post_refuted). C36_cpp_partial: the updates are atomic (final value explained by a real-time order) and each returned value is that of the variable at a later (cpp) or earlier (kokkos post) moment, within the call."
  },
  {
   "property": "C37",
   "status": "proved",
   "theorems": [
    "C37_leibniz",
    "C37_multiplicative",
    "C37_transpose",
    "C37_alternating",
    "C37_swap",
    "C37_identity"
   ],
   "note": ""
  },
  {
   "property": "C38",
   "status": "proved",
   "theorems": [
    "C38_inverse",
    "C38_singular_asserts",
    "C38_specialisations_agree"
   ],
   "note": "Singular matrices are reported by assert only (debug builds); a release build divides by zero, which is not modelled."
  },
  {
   "property": "C39",
   "status": "proved",
   "theorems": [
    "C39_solve",
    "C39_solve_product"
   ],
   "note": ""
  },
  {
   "property": "C40",
   "status": "partial",
   "theorems": [
    "C40_formula",
    "C40_gemv_partial",
    "C40_gemv_refuted"
   ],
   "note": "REFUTED: beta*y is applied once per column, so the result is sum_j alpha*A_ij*x_j*beta^(n-1-j) + beta^n*y_i (C40_formula); equals gemv only for beta = 1 or one column (C40_gemv_partial)."
  },
  {
   "property": "C41",
   "status": "proved",
   "theorems": [
    "C41_entries",
    "C41_vector",
    "C41_associative",
    "C41_distributive",
    "C41_transpose",
    "C41_transpose_involutive",
    "C41_identity",
    "C41_trace",
    "C41_doubledot",
    "C41_outer"
   ],
   "note": ""
  },
  {
   "property": "C42",
   "status": "proved",
   "theorems": [
    "C42_reflection",
    "C42_reflection_fixes_plane",
    "C42_reflect_agrees",
    "C42_reflect_isometry",
    "C42_projection",
    "C42_reflection_projection",
    "C42_rotation"
   ],
   "note": ""
  },
  {
   "property": "C43",
   "status": "proved",
   "theorems": [
    "C43_largest_sums",
    "C43_infinity_norm",
    "C43_one_infinity",
    "C43_one_norm",
    "C43_induced",
    "C43_two_norm"
   ],
   "note": "two_norm is the Frobenius norm; also shown: infinity_norm is the operator norm of the maximum norm."
  },
  {
   "property": "C44",
   "status": "proved",
   "theorems": [
    "C44_dot",
    "C44_dot_bilinear",
    "C44_dot_container",
    "C44_magnitude_container",
    "C44_cauchy_schwarz",
    "C44_magnitude_norm",
    "C44_unit",
    "C44_reflect",
    "C44_cross3",
    "C44_triple",
    "C44_two_dimensions",
    "C44_normal3_throws",
    "C44_dot_instances",
    "C44_sgn"
   ],
   "note": "The 3-D normal() overload unconditionally throws (C44_normal3_throws)."
  },
  {
   "property": "C45",
   "status": "partial",
   "theorems": [
    "C45_average",
    "C45_average_empty_asserts",
    "C45_average_versions_agree",
    "C45_extreme_elements",
    "C45_elementwise_arrays",
    "C45_container_minmax_refuted",
    "C45_container_minmax_always_undefined",
    "C45_int_average_refuted",
    "C45_int_average_nonnegative"
   ],
   "note": "REFUTED for run-time containers: element-wise min/max write into an unsized temporary (C45_container_minmax_refuted, always undefined when non-empty); average of an int container with a negative sum is wrong because the division happens in size_t (C45_int_average_refuted). Averages over real scalars, extreme elements and array min/max proved."
  },
  {
   "property": "C46",
   "status": "proved",
   "theorems": [
    "C46_area",
    "C46_variadic_agrees",
    "C46_too_few",
    "C46_invariance",
    "C46_rotation_scaling",
    "C46_cut",
    "C46_triangle",
    "C46_normal"
   ],
   "note": ""
  },
  {
   "property": "C47",
   "status": "proved",
   "theorems": [
    "C47_centroid",
    "C47_equivariance",
    "C47_triangle",
    "C47_cut"
   ],
   "note": ""
  },
  {
   "property": "C48",
   "status": "proved",
   "theorems": [
    "C48_volume",
    "C48_permutation",
    "C48_affine",
    "C48_rotation",
    "C48_zero_iff_coplanar"
   ],
   "note": ""
  },
  {
   "property": "C49",
   "status": "partial",
   "theorems": [
    "C49_polyhedron_volume",
    "C49_volume_partial",
    "C49_volume_refuted",
    "C49_centroid"
   ],
   "note": "REFUTED: hexahedron::volume takes std::abs of each of the three triple products (C49_volume_refuted, witness with eight positive corner Jacobians). C49_volume_partial: it is never smaller than the polyhedron volume and equal exactly when the three terms do not differ in sign. Centroids agree always."
  },
  {
   "property": "C50",
   "status": "proved",
   "theorems": [
    "C50_volume",
    "C50_empty_face",
    "C50_translation",
    "C50_closed_normals",
    "C50_nsum",
    "C50_invariance",
    "C50_closedness_needed"
   ],
   "note": "Closedness implies vanishing normal sum (C50_closed_normals); C50_closedness_needed shows that the hypothesis of C50_translation cannot be dropped: the volume of an open surface depends on its position."
  },
  {
   "property": "C51",
   "status": "partial",
   "theorems": [
    "C51_normal",
    "C51_area_versions",
    "C51_triangle_refuted",
    "C51_triangle_release",
    "C51_invariance"
   ],
   "note": "REFUTED: the iterator overloads assert num_points > 3 and so refuse triangles (C51_triangle_refuted); the variadic ones need four arguments. With assertions off the results are the triangle's (C51_triangle_release). Normal = area vector for every polygon."
  },
  {
   "property": "C52",
   "status": "partial",
   "theorems": [
    "C52_partition_of_unity",
    "C52_nodal",
    "C52_linear",
    "C52_position_at_nodes",
    "C52_position_affine",
    "C52_position_reference",
    "C52_tess16_partial",
    "C52_tess16_refuted",
    "C52_tess16_zeroed_refuted"
   ],
   "note": "REFUTED for Tess16: ref_vert and num_nodes are uninitialised non-static members (elements.h 743-773) and the table in elements.cc is an unrelated namespace-scope variable, so a default-constructed Tess16 reads indeterminate values (C52_tess16_refuted); even zero-initialised it is not a partition of unity (C52_tess16_zeroed_refuted). With the intended table it holds (C52_tess16_partial), and it holds for all six Quad/Hex classes."
  },
  {
   "property": "C53",
   "status": "proved",
   "theorems": [
    "C53_quad",
    "C53_hex",
    "C53_tess16"
   ],
   "note": "Derivatives as derivable_pt_lim in each variable, every node, every reference point."
  },
  {
   "property": "C54",
   "status": "partial",
   "theorems": [
    "C54_basis_agrees",
    "C54_quad12_values",
    "C54_quad12_unwritten_refuted",
    "C54_quad12_refuted"
   ],
   "note": "REFUTED for Quad12: basis() is a copy of Quad8's, leaves entries 8..11 unwritten and disagrees with the shape functions (C54_quad12_unwritten_refuted, C54_quad12_refuted). It agrees for Quad4, Quad8, Hex8, Hex20, Hex32, Tess16."
  },
  {
   "property": "C55",
   "status": "proved",
   "theorems": [
    "C55_gauss_exact",
    "C55_gauss_tabulated",
    "C55_lobatto_exact",
    "C55_lobatto_tabulated",
    "C55_orders",
    "C55_gauss_symmetric",
    "C55_lobatto_symmetric",
    "C55_lobatto_ends"
   ],
   "note": "Exact for orders whose tables are closed forms (Gauss 1-5, Lobatto 2-3); for decimal tables the error is bounded by 3e-16 (Gauss 6-8) and 2e-21 (Lobatto 4-8) times the 1-norm of the coefficients. No rule for orders above 8 (C55_orders)."
  },
  {
   "property": "C56",
   "status": "partial",
   "theorems": [
    "C56_bijection2",
    "C56_bijection3",
    "C56_bijection4",
    "C56_dim_refuted",
    "C56_sum2",
    "C56_sum3",
    "C56_sum4",
    "C56_tensor2",
    "C56_tensor3",
    "C56_tensor4",
    "C56_gauss2d_exact",
    "C56_gauss3d_exact",
    "C56_order_refuted"
   ],
   "note": "REFUTED for orders above 8, which have no table and read uninitialised values (C56_order_refuted), and for the 4-D rules when dim is not 4 (C56_dim_refuted). Proved: the index map for every order; every integrand for orders 1..8."
  },
  {
   "property": "C57",
   "status": "partial",
   "theorems": [
    "C57_jacobian",
    "C57_storage_refuted",
    "C57_jacobian4D",
    "C57_is_derivative",
    "C57_inverse_2d",
    "C57_inverse_3d_refuted",
    "C57_inverse_3d_partial",
    "C57_inverse_3d_value",
    "C57_inverse_4d_refuted",
    "C57_inverse_4d_partial"
   ],
   "note": "REFUTED: jacobian_inverse_3d returns the cofactor matrix untransposed, with one mistyped cofactor, over a wrong determinant (C57_inverse_3d_refuted; exact result C57_inverse_3d_value; right iff harmless for symmetric J, C57_inverse_3d_partial); jacobian_inverse_4d has a mistyped term (C57_inverse_4d_refuted; right iff J30 J03 (J11-J12) = 0, C57_inverse_4d_partial); jacobian reads J[2][2] even for dim = 2 (C57_storage_refuted). Proved: entries, determinants, derivative of the position, inverse_2d."
  },
  {
   "property": "C58",
   "status": "proved",
   "theorems": [
    "C58_nodal",
    "C58_reproduce",
    "C58_sum_one",
    "C58_derivative",
    "C58_derivative_reproduce",
    "C58_frame"
   ],
   "note": ""
  },
  {
   "property": "C59",
   "status": "partial",
   "theorems": [
    "C59_quadn_entries",
    "C59_quadn_partials",
    "C59_quadn_nodal",
    "C59_quadn_reproduce",
    "C59_quadn_sum_one",
    "C59_quadn_corners",
    "C59_hexn_entries",
    "C59_hexn_partials",
    "C59_hexn_nodal",
    "C59_hexn_reproduce",
    "C59_hexn_sum_one",
    "C59_hexn_corners",
    "C59_quadn_position_partial",
    "C59_hexn_position_partial",
    "C59_quadn_position_refuted",
    "C59_hexn_position_refuted",
    "C59_position_accumulates"
   ],
   "note": "REFUTED for physical_position: QuadN writes only coordinate 0 and HexN only coordinates 0 and 1 (loops dim < 1, dim < 2), and neither resets x_point, so results accumulate. The exact behaviour is C59_*_position_partial; everything else in the statement (entries, partial derivatives, nodal, sum to 1, reproduction of tensor polynomials, corners) is proved for every order."
  },
  {
   "property": "C60",
   "status": "proved",
   "theorems": [
    "C60_increasing",
    "C60_ends",
    "C60_distinct",
    "C60_literal",
    "C60_close",
    "C60_code",
    "C60_symmetric",
    "C60_near_symmetric",
    "C60_values",
    "C60_order_zero",
    "C60_basis"
   ],
   "note": "Increasing, ends, distinct: proved for every constant 0 < pi <= PI and, via Machin's formula, for the literal of the source and its double. Exact symmetry is proved for pi = PI; for the code's constant it holds up to PI - pi. Over exact reals: rounding of cos is not modelled."
  },
  {
   "property": "C61",
   "status": "proved",
   "theorems": [
    "C61_lua_first",
    "C61_hard_coded_second",
    "C61_success_iff",
    "C61_frame",
    "C61_lua_present",
    "C61_all_types"
   ],
   "note": "Proved for every registry reachable by any history of calls, provided no Lua lookup throws (C62 says when) and, for std::function targets taken from the hard-coded source, no older function is registered (C64)."
  },
  {
   "property": "C62",
   "status": "partial",
   "theorems": [
    "C62_fallback_iff",
    "C62_fallback_partial",
    "C62_no_lua",
    "C62_unknown_key_refuted",
    "C62_base_state_refuted",
    "C62_ctor_keys"
   ],
   "note": "REFUTED: a key missing from the table map (C62_unknown_key_refuted) or registered in base_state (C62_base_state_refuted) throws although a default exists; exact fallback condition C62_fallback_iff."
  },
  {
   "property": "C63",
   "status": "partial",
   "theorems": [
    "C63_idempotent_partial",
    "C63_idempotent_refuted",
    "C63_second_value",
    "C63_instant_refuted"
   ],
   "note": "REFUTED for types with destructive moves (C63_idempotent_refuted, C63_instant_refuted; general law C63_second_value); proved for trivially moved types and functions (C63_idempotent_partial)."
  },
  {
   "property": "C64",
   "status": "partial",
   "theorems": [
    "C64_plain",
    "C64_lua_function",
    "C64_function_refuted",
    "C64_after_clear_partial"
   ],
   "note": "REFUTED: hard-coded functions are inserted, not assigned (C64_function_refuted); plain values, Lua functions and functions after clear_registry are delivered."
  },
  {
   "property": "C65",
   "status": "partial",
   "theorems": [
    "C65_clear",
    "C65_resolved_partial",
    "C65_first_partial",
    "C65_stale_refuted",
    "C65_failures_refuted",
    "C65_flag_refuted"
   ],
   "note": "REFUTED: values of earlier resolutions remain (C65_stale_refuted), failures are never removed (C65_failures_refuted), the flag survives clear (C65_flag_refuted); exact law C65_resolved_partial; nothing is resolved after clear (C65_clear)."
  },
  {
   "property": "C66",
   "status": "partial",
   "theorems": [
    "C66_ctor",
    "C66_get_valid",
    "C66_get_throws",
    "C66_get_succeeds",
    "C66_valid_partial",
    "C66_valid_refuted",
    "C66_invalid_refuted",
    "C66_status_names"
   ],
   "note": "get() proved; REFUTED for valid(): the verdict is cached (C66_valid_refuted, C66_invalid_refuted); without a cached verdict it agrees (C66_valid_partial)."
  },
  {
   "property": "C67",
   "status": "partial",
   "theorems": [
    "C67_injective_partial",
    "C67_injective_refuted",
    "C67_shared_refuted"
   ],
   "note": "REFUTED: namespace and name are joined by ':' (C67_injective_refuted, C67_shared_refuted); injective for names without ':' (C67_injective_partial)."
  },
  {
   "property": "C68",
   "status": "partial",
   "theorems": [
    "C68_keeps",
    "C68_stores_partial",
    "C68_keys_partial",
    "C68_report_refuted",
    "C68_collision_refuted",
    "C68_other_types_refuted",
    "C68_bytes",
    "C68_encode",
    "C68_group"
   ],
   "note": "REFUTED: always returns true (C68_report_refuted), key?name collisions (C68_collision_refuted), undefined behaviour for other types (C68_other_types_refuted); rest proved."
  },
  {
   "property": "C69",
   "status": "partial",
   "theorems": [
    "C69_global_partial",
    "C69_convert_partial",
    "C69_call_partial",
    "C69_index_refuted",
    "C69_convert_refuted",
    "C69_call_refuted",
    "C69_not_function_refuted"
   ],
   "note": "REFUTED: operator[] clears the whole stack (C69_index_refuted), a failing conversion (C69_convert_refuted), a failing call (C69_call_refuted) and calling a non-function (C69_not_function_refuted) leave values behind; balanced in the success cases (C69_global_partial, C69_convert_partial, C69_call_partial)."
  },
  {
   "property": "C70",
   "status": "partial",
   "theorems": [
    "C70_tuple",
    "C70_single",
    "C70_adjust_refuted",
    "C70_adjust_single_refuted",
    "C70_trailing_nil_refuted",
    "C70_no_result_refuted"
   ],
   "note": "Order of a tuple proved; REFUTED for Lua's adjustment of results: counts must match (C70_adjust_refuted, C70_adjust_single_refuted), trailing nil (C70_trailing_nil_refuted), no result is undefined behaviour (C70_no_result_refuted)."
  },
  {
   "property": "C71",
   "status": "partial",
   "theorems": [
    "C71_signed",
    "C71_size_t",
    "C71_double",
    "C71_float",
    "C71_bool",
    "C71_string_upto_nul",
    "C71_string_partial",
    "C71_string_refuted",
    "C71_array_push_refuted",
    "C71_vector",
    "C71_array",
    "C71_default",
    "C71_array_length"
   ],
   "note": "Proved for integers, doubles, floats, booleans, vectors and arrays; REFUTED for strings with a NUL byte (C71_string_refuted) and for arrays pushed as arguments (C71_array_push_refuted)."
  },
  {
   "property": "C72",
   "status": "partial",
   "theorems": [
    "C72_passes",
    "C72_fires",
    "C72_throw",
    "C72_notify",
    "C72_nothing",
    "C72_value",
    "C72_off_partial",
    "C72_one_of_refuted",
    "C72_insist",
    "C72_insist_continues_refuted"
   ],
   "note": "REFUTED: disabled OneOf is true for every set (C72_one_of_refuted); Insist continues when the action is not to throw (C72_insist_continues_refuted). Everything else proved."
  },
  {
   "property": "C73",
   "status": "proved",
   "theorems": [
    "C73_decodable",
    "C73_length",
    "C73_opposite",
    "C73_no_cells_ub",
    "C73_mesh"
   ],
   "note": "For faces that list at least one cell; otherwise face_cells[0] is undefined (C73_no_cells_ub)."
  },
  {
   "property": "C74",
   "status": "partial",
   "theorems": [
    "C74_visit_order",
    "C74_visit_trace",
    "C74_tuple_binop",
    "C74_tuple_scalar_partial",
    "C74_tuple_scalar_alias_refuted",
    "C74_tuple_zip",
    "C74_fill",
    "C74_multiply",
    "C74_multiply_sizes"
   ],
   "note": "Loops and tuple-tuple operators proved; REFUTED for tuple op= scalar when the scalar refers to a component of the tuple."
  },
  {
   "property": "C75",
   "status": "partial",
   "theorems": [
    "C75_resize_resurrects",
    "C75_resize_value_init_refuted"
   ],
   "note": "REFUTED: resize(n) exposes stale or indeterminate cells; C75_resize_resurrects states it for every vector."
  },
  {
   "property": "C76",
   "status": "partial",
   "theorems": [
    "C76_strided_container_refuted",
    "C76_total_size_partial",
    "C76_contiguous_container"
   ],
   "note": "REFUTED: the constructor compares bounds.size() instead of total_size(); total_size() is proved to be the right bound, contiguous views are safe."
  },
  {
   "property": "C77",
   "status": "partial",
   "theorems": [
    "C77_col_major_partial",
    "C77_col_major_refuted",
    "C77_col_major_rank2"
   ],
   "note": "REFUTED: col_major_ordering strides leave the storage for 2x3 and collide for 3x2; right for palindromic shapes; exact for rank 2."
  },
  {
   "property": "C78",
   "status": "proved",
   "theorems": [
    "C78_access",
    "C78_swap",
    "C78_assign",
    "C78_compare"
   ],
   "note": ""
  },
  {
   "property": "C79",
   "status": "proved",
   "theorems": [
    "C79_single_thread"
   ],
   "note": ""
  },
  {
   "property": "C80",
   "status": "proved",
   "theorems": [
    "C80_exp_neg"
   ],
   "note": ""
  },
  {
   "property": "C81",
   "status": "partial",
   "theorems": [
    "C81_exp_nilpotent",
    "C81_exp_zero_refuted"
   ],
   "note": "REFUTED for the zero matrix: log(0) = -inf is converted to int (C81_exp_zero_refuted). For every non-zero matrix with A^13 = 0 the result is exactly the exponential series; for all other non-zero matrices see C107."
  },
  {
   "property": "C82",
   "status": "partial",
   "theorems": [
    "C82_acc_frame",
    "C82_alias_refuted"
   ],
   "note": "REFUTED for aliased operands (C82_alias_refuted); for distinct objects see C41_entries/C41_vector and the frame theorem C82_acc_frame."
  },
  {
   "property": "C83",
   "status": "proved",
   "theorems": [
    "C83_metric",
    "C83_midpoint",
    "C83_centroid"
   ],
   "note": ""
  },
  {
   "property": "C84",
   "status": "proved",
   "theorems": [
    "C84_centroid",
    "C84_equivariance",
    "C84_tetrahedron",
    "C84_hexahedron",
    "C84_midpoint"
   ],
   "note": ""
  },
  {
   "property": "C85",
   "status": "partial",
   "theorems": [
    "C85_area_ge_normal",
    "C85_nonconvex_refuted"
   ],
   "note": "REFUTED for non-convex polygons: unsigned triangle areas about the midpoint are added up (C85_nonconvex_refuted, arrowhead 14 instead of 4). C85_area_ge_normal: area >= |normal|, equality when the fan does not fold."
  },
  {
   "property": "C86",
   "status": "proved",
   "theorems": [
    "C86_ctor",
    "C86_ctor_reads"
   ],
   "note": "Metatables not modelled."
  },
  {
   "property": "C87",
   "status": "partial",
   "theorems": [
    "C87_register_value",
    "C87_register_table_partial",
    "C87_lua_key_refuted",
    "C87_replace_refuted"
   ],
   "note": "REFUTED: the Lua key is ignored (C87_lua_key_refuted) and a loaded table is never replaced (C87_replace_refuted)."
  },
  {
   "property": "C88",
   "status": "partial",
   "theorems": [
    "C88_abort_refuted",
    "C88_prefix_partial"
   ],
   "note": "REFUTED: the exception aborts the loop (C88_abort_refuted)."
  },
  {
   "property": "C89",
   "status": "partial",
   "theorems": [
    "C89_type_refuted",
    "C89_value_partial"
   ],
   "note": "REFUTED: the recorded type is that of the value below (C89_type_refuted); the reference itself is right (C89_value_partial)."
  },
  {
   "property": "C90",
   "status": "partial",
   "theorems": [
    "C90_array_refuted",
    "C90_unchecked_refuted",
    "C90_call_partial"
   ],
   "note": "REFUTED: pushing an array checks one slot too few (C90_array_refuted), globals and element reads are unchecked (C90_unchecked_refuted); a call with one more free slot than pushed values plus the function is safe (C90_call_partial)."
  },
  {
   "property": "C91",
   "status": "partial",
   "theorems": [
    "C91_matrix_partial",
    "C91_matrix_row_refuted",
    "C91_cut_refuted"
   ],
   "note": "REFUTED: a row that is not a table is undefined behaviour (C91_matrix_row_refuted), long rows are cut (C91_cut_refuted); exact conversion C91_matrix_partial."
  },
  {
   "property": "C92",
   "status": "partial",
   "theorems": [
    "C92_index_refuted"
   ],
   "note": "REFUTED: length and elements are taken from the top (C92_index_refuted)."
  },
  {
   "property": "C93",
   "status": "partial",
   "theorems": [
    "C93_not_an_integer_refuted",
    "C93_out_of_range_refuted",
    "C93_integer_partial"
   ],
   "note": "REFUTED: non-integers give 0 (C93_not_an_integer_refuted), out-of-range values wrap (C93_out_of_range_refuted); integers in range proved (C93_integer_partial)."
  },
  {
   "property": "C94",
   "status": "partial",
   "theorems": [
    "C94_script_refuted",
    "C94_script_partial"
   ],
   "note": "REFUTED: results of the script stay on the stack (C94_script_refuted); scripts without results leave it unchanged (C94_script_partial)."
  },
  {
   "property": "C95",
   "status": "partial",
   "theorems": [
    "C95_on_once",
    "C95_on_once_range",
    "C95_in_open_range_refuted",
    "C95_require_refuted",
    "C95_pure_partial"
   ],
   "note": "REFUTED: disabled InOpenRange evaluates x twice (C95_in_open_range_refuted), disabled Require does not evaluate (C95_require_refuted); arguments without effects proved (C95_pure_partial), enabled checks evaluate once (C95_on_once, C95_on_once_range)."
  },
  {
   "property": "C96",
   "status": "partial",
   "theorems": [
    "C96_raise",
    "C96_text",
    "C96_what_refuted",
    "C96_assert_true_partial",
    "C96_dangling_refuted",
    "C96_message",
    "C96_check_alone_partial",
    "C96_semicolon_refuted",
    "C96_here_order_refuted"
   ],
   "note": "REFUTED: the exception has a fixed text (C96_what_refuted), assert_true captures a following else (C96_dangling_refuted), enabled checks before else do not parse (C96_semicolon_refuted), HERE and HERE_STR differ in order (C96_here_order_refuted); raising never continues (C96_raise)."
  },
  {
   "property": "C97",
   "status": "proved",
   "theorems": [
    "C97_cells"
   ],
   "note": "Cell identifiers below the number of cells, owned cells among them; two dimensions: C99."
  },
  {
   "property": "C98",
   "status": "partial",
   "theorems": [
    "C98_iteration_order",
    "C98_partial",
    "C98_order_refuted",
    "C98_write_points"
   ],
   "note": "REFUTED for createMesh when vertices are not iterated by identifier (C98_order_refuted); true when they are (C98_partial); proved for writePointsToGrid in any order (C98_write_points)."
  },
  {
   "property": "C99",
   "status": "partial",
   "theorems": [
    "C99_two_dimensions_refuted",
    "C99_three_dimensions_partial"
   ],
   "note": "REFUTED: every two-dimensional mesh with two or more vertices writes past vertex_coord (C99_two_dimensions_refuted); three dimensions proved."
  },
  {
   "property": "C100",
   "status": "partial",
   "theorems": [
    "C100_scalar",
    "C100_vector",
    "C100_short_refuted"
   ],
   "note": "Layout proved when every component has enough values; REFUTED: a shorter component is read out of bounds (C100_short_refuted)."
  },
  {
   "property": "C101",
   "status": "partial",
   "theorems": [
    "C101_add_partial",
    "C101_set_partial",
    "C101_set_twice_refuted"
   ],
   "note": "REFUTED: setPoints after other points (C101_set_twice_refuted); true for addPoint alone and for one setPoints."
  },
  {
   "property": "C102",
   "status": "partial",
   "theorems": [
    "C102_first_stop",
    "C102_running",
    "C102_never",
    "C102_last_stop_refuted"
   ],
   "note": "REFUTED: the first stop after the start counts (C102_last_stop_refuted, exact law C102_first_stop); rest proved."
  },
  {
   "property": "C103",
   "status": "partial",
   "theorems": [
    "C103_process",
    "C103_process_catalyst_refuted",
    "C103_finalize_refuted"
   ],
   "note": "REFUTED: processCatalyst always forces output (C103_process_catalyst_refuted); finalizeAdaptor has no return statement, which the model records as undefined behaviour (C103_finalize_refuted); adaptor_t::process proved."
  },
  {
   "property": "C104",
   "status": "partial",
   "theorems": [
    "C104_directory_partial",
    "C104_bare_refuted",
    "C104_none"
   ],
   "note": "REFUTED: a file name without directory is used as directory (C104_bare_refuted); names with a directory proved."
  },
  {
   "property": "C105",
   "status": "partial",
   "theorems": [
    "C105_first_partial",
    "C105_absent_refuted"
   ],
   "note": "REFUTED: throws when the pattern does not occur (C105_absent_refuted); first occurrence proved."
  },
  {
   "property": "C106",
   "status": "partial",
   "theorems": [
    "C106_files",
    "C106_images",
    "C106_large_refuted",
    "C106_symmetric",
    "C106_not_transitive"
   ],
   "note": "REFUTED: the share of differing bytes is rounded to float, so images of 2^24 bytes or more can be judged similar although more than 2 percent of their bytes differ (C106_large_refuted). Exact for every size below 2^24 bytes (C106_images); the comparison of files and of sizes is exact."
  },
  {
   "property": "C107",
   "status": "proved",
   "theorems": [
    "C107_accuracy",
    "C107_simple",
    "C107_scaling",
    "C107_every_field"
   ],
   "note": "Exact real arithmetic: rounding, and the overflow of 2^s, are not modelled. The zero matrix is C81."
  },
  {
   "property": "C108",
   "status": "proved",
   "theorems": [
    "C108_quads",
    "C108_hexes",
    "C108_left_handed",
    "C108_tess"
   ],
   "note": "Exact reals."
  },
  {
   "property": "C109",
   "status": "proved",
   "theorems": [
    "C109_face",
    "C109_join"
   ],
   "note": "Exact reals; Tess16 with its reference table set (C52: as declared it is not)."
  },
  {
   "property": "C110",
   "status": "proved",
   "theorems": [
    "C110_complete",
    "C110_multilinear",
    "C110_sharp"
   ],
   "note": "Exact reals."
  },
  {
   "property": "C111",
   "status": "partial",
   "theorems": [
    "C111_import",
    "C111_get_attribute",
    "C111_get_value",
    "C111_build_args",
    "C111_call",
    "C111_import_leak_refuted",
    "C111_call_leak_refuted"
   ],
   "note": "REFUTED: a failing import keeps the name (C111_import_leak_refuted), a failing call or a failing conversion of an argument keeps the argument tuple (C111_call_leak_refuted); exact laws C111_import, C111_build_args, C111_call; the rest proved. Calls without arguments do not compile."
  },
  {
   "property": "C112",
   "status": "partial",
   "theorems": [
    "C112_add_to_path",
    "C112_tuple_element",
    "C112_borrowed_refuted",
    "C112_element_borrowed_refuted",
    "C112_owned"
   ],
   "note": "REFUTED: python_add_to_path and python_get_tuple_element return borrowed references (C112_borrowed_refuted, C112_element_borrowed_refuted); the test frees the path. True for the other functions (C112_owned)."
  },
  {
   "property": "C113",
   "status": "proved",
   "theorems": [
    "C113_arguments",
    "C113_round_trip"
   ],
   "note": "The conversions of Python's own types are parameters."
  },
  {
   "property": "C114",
   "status": "partial",
   "theorems": [
    "C114_reported",
    "C114_shared_tuple",
    "C114_as_long_refuted",
    "C114_as_double_refuted",
    "C114_run_string_refuted"
   ],
   "note": "REFUTED: python_as_long and python_as_double return -1 and leave the error pending (C114_as_long_refuted, C114_as_double_refuted), python_run_string ignores the result (C114_run_string_refuted); proved for all others (C114_reported)."
  },
  {
   "property": "C115",
   "status": "partial",
   "theorems": [
    "C115_copied",
    "C115_dangling_refuted",
    "C115_undecodable"
   ],
   "note": "REFUTED for Python before 3.8, which keeps the pointer to the freed string (C115_dangling_refuted); proved when the interpreter copies it."
  },
  {
   "property": "C116",
   "status": "proved",
   "theorems": [
    "C116_linearizable",
    "C116_lock_linearizable",
    "C116_tickets"
   ],
   "note": "Weak orders: loads and failed compare-exchanges return any value the variable ever held; statements are per variable."
  },
  {
   "property": "C117",
   "status": "partial",
   "theorems": [
    "C117_race_free",
    "C117_locked_read_refuted"
   ],
   "note": "REFUTED: T(x) and os << x do not take the mutex while lock updates through a plain reference (C117_locked_read_refuted). Proved when each variable is used only with lock, or without lock and serial, or by one thread (C117_race_free)."
  },
  {
   "property": "C118",
   "status": "proved",
   "theorems": [
    "C118_no_deadlock",
    "C118_bounded"
   ],
   "note": "Bound for programs without compare-and-swap loops."
  },
  {
   "property": "C119",
   "status": "proved",
   "theorems": [
    "C119_pun"
   ],
   "note": "A 16-byte long double is refused on LP64."
  },
  {
   "property": "C120",
   "status": "partial",
   "theorems": [
    "C120_operators",
    "C120_determined",
    "C120_min_max",
    "C120_members",
    "C120_scheme",
    "C120_available",
    "C120_orders_accepted",
    "C120_orders_ok",
    "C120_two_orders",
    "C120_two_orders_refuted"
   ],
   "note": "REFUTED for the forms with two memory orders: (acq_rel, release) reaches compare_exchange (C120_two_orders_refuted, exact law C120_two_orders); everything else proved. Operands are unbounded integers."
  },
  {
   "property": "C121",
   "status": "proved",
   "theorems": [
    "C121_agree",
    "C121_cross_magnitude",
    "C121_parallel",
    "C121_normal2",
    "C121_normal3"
   ],
   "note": "Over the reals."
  },
  {
   "property": "C122",
   "status": "partial",
   "theorems": [
    "C122_list",
    "C122_list_length",
    "C122_list_refuted",
    "C122_fill",
    "C122_axes"
   ],
   "note": "REFUTED: in a release build a list longer than the array is undefined behaviour and a shorter one leaves elements uninitialised (C122_list_refuted, exact law C122_list_length). Proved for lists of the right length, fill and assignment, with the value possibly an element of the array."
  },
  {
   "property": "C123",
   "status": "partial",
   "theorems": [
    "C123_key_order",
    "C123_group_arguments",
    "C123_all_options",
    "C123_independent",
    "C123_title",
    "C123_title_refuted"
   ],
   "note": "REFUTED: a group registered after one of its arguments keeps an empty title while registration reports success (C123_title_refuted, exact law C123_title). Everything else proved."
  },
  {
   "property": "C124",
   "status": "proved",
   "theorems": [
    "C124_as",
    "C124_process"
   ],
   "note": "The boost parser is a parameter."
  },
  {
   "property": "C125",
   "status": "partial",
   "theorems": [
    "C125_log",
    "C125_content",
    "C125_determined",
    "C125_silent_refuted"
   ],
   "note": "REFUTED: a file that cannot be opened is skipped silently (C125_silent_refuted). Proved for every file that can be opened."
  },
  {
   "property": "C126",
   "status": "partial",
   "theorems": [
    "C126_task",
    "C126_elementwise",
    "C126_single_refuted"
   ],
   "note": "REFUTED: with a single container zip reads sizes[1] out of bounds (C126_single_refuted). Proved for two or more containers."
  },
  {
   "property": "C127",
   "status": "proved",
   "theorems": [
    "C127_dot",
    "C127_dot_normal",
    "C127_dot_finite",
    "C127_matvec",
    "C127_matmul",
    "C127_sqr",
    "C127_cube"
   ],
   "note": "For every IEEE 754 binary format, with round to nearest even; the rounding of each operation is itself proved from its bit-level definition in FloatRound.v."
  },
  {
   "property": "C128",
   "status": "proved",
   "theorems": [
    "C128_dot_comm",
    "C128_distance_sym",
    "C128_delta_is_distance",
    "C128_magnitude_is_sqrt_dot",
    "C128_magnitude_opp",
    "C128_transpose_product",
    "C128_cross2_anti",
    "C128_cross3_anti",
    "C128_normal2_anti",
    "C128_normal2",
    "C128_cross2_self"
   ],
   "note": "Bitwise, for all values. The exception for the sign of a zero cross product is needed (C128_zero_sign)."
  },
  {
   "property": "C129",
   "status": "partial",
   "theorems": [
    "C129_nonneg",
    "C129_length",
    "C129_length_normal",
    "C129_finite",
    "C129_component",
    "C129_refuted"
   ],
   "note": "REFUTED: the magnitude of (1e200, 1) is infinite, of (1e-200, 1e-200) zero, and a component can exceed it (C129_refuted). Proved: error bounds with and without underflow, nonnegativity, finiteness below the range limit, and that no component exceeds it when its square does not underflow."
  },
  {
   "property": "C130",
   "status": "partial",
   "theorems": [
    "C130_in_range",
    "C130_length",
    "C130_refuted"
   ],
   "note": "REFUTED: unit of (1e200, 1e200) is the zero vector, of (1e-200, 1e-200) infinite, and of a single small number 1.2 (C130_refuted). Proved when no square overflows or underflows: components in [-1,1] and length one up to rounding."
  },
  {
   "property": "C131",
   "status": "partial",
   "theorems": [
    "C131_two",
    "C131_same",
    "C131_mean",
    "C131_mean_args",
    "C131_refuted"
   ],
   "note": "REFUTED: the average of three times 0.1 is above 0.1, of ten times 0.1 below, and the average of two largest numbers is infinite (C131_refuted). Proved: two numbers with a finite sum average between them, and the error bound for any number of values."
  },
  {
   "property": "C132",
   "status": "partial",
   "theorems": [
    "C132_min",
    "C132_max",
    "C132_elementwise",
    "C132_sgn",
    "C132_refuted"
   ],
   "note": "REFUTED: with a NaN the order of the arguments decides, sgn of NaN is 0 and zeros of different sign depend on the order (C132_refuted). Proved for all finite numbers."
  },
  {
   "property": "C133",
   "status": "partial",
   "theorems": [
    "C133_area",
    "C133_area_args",
    "C133_triangle_translation",
    "C133_triangle",
    "C133_refuted"
   ],
   "note": "REFUTED: the unit square moved by 2^27 has area 0, and the two overloads disagree on one polygon (C133_refuted). Proved: error bounds for both overloads and for the triangle, and bitwise translation invariance of the triangle."
  },
  {
   "property": "C134",
   "status": "partial",
   "theorems": [
    "C134_nonneg",
    "C134_self",
    "C134_separated",
    "C134_distance",
    "C134_triangle_approximate",
    "C134_refuted"
   ],
   "note": "REFUTED: the triangle inequality fails in the last bit and different points can be at distance 0 (C134_refuted). Proved: nonnegative, symmetric (C128), zero from a point to itself, positive when the points are apart by enough, error bounds and the triangle inequality up to rounding."
  },
  {
   "property": "C135",
   "status": "partial",
   "theorems": [
    "C135_det",
    "C135_regular",
    "C135_entries",
    "C135_singular",
    "C135_refuted"
   ],
   "note": "REFUTED: 1e-200 times the identity is rejected though its inverse is representable, a 3x3 matrix with two equal rows is accepted, and 2^-537 times the identity is accepted but its inverse consists of infinities and NaNs because the reciprocal of the determinant overflows (C135_refuted). Proved: every exactly singular 2x2 matrix with finite products is rejected, one far enough from singular accepted, error bounds of determinant and entries."
  },
  {
   "property": "C136",
   "status": "partial",
   "theorems": [
    "C136_identity_right",
    "C136_identity_left",
    "C136_refuted"
   ],
   "note": "REFUTED: associativity, distributivity, and the identity law for matrices with infinite elements (C136_refuted). Proved: the identity is neutral on both sides for finite matrices."
  },
  {
   "property": "C137",
   "status": "partial",
   "theorems": [
    "C137_norm",
    "C137_refuted"
   ],
   "note": "REFUTED: a row with a NaN is ignored (C137_refuted). Proved: the error bound for finite matrices below the range limit."
  },
  {
   "property": "C138",
   "status": "partial",
   "theorems": [
    "C138_reflect",
    "C138_all",
    "C138_in_plane",
    "C138_refuted"
   ],
   "note": "REFUTED: reflecting (0.7, 0.7) twice at the normal (0.6, 0.8) gives 0.7000000000000002 (C138_refuted). Proved: the error bound of every component, and that a vector whose computed dot product with the normal is zero is unchanged."
  },
  {
   "property": "C139",
   "status": "partial",
   "theorems": [
    "C139_no_overflow",
    "C139_size_mod",
    "C139_size_refuted",
    "C139_empty_refuted"
   ],
   "note": "REFUTED: extents (2^32, 2^32) have size() 0, so a view of them over an empty container is accepted (C139_size_refuted); strides of (0, 2^32, 2^32), bounds without elements, overflow (C139_empty_refuted). Proved: with positive extents and fewer than 2^63 elements strides, size, offsets and the container check are those of unlimited arithmetic; size() is the product modulo 2^64 always."
  },
  {
   "property": "C140",
   "status": "partial",
   "theorems": [
    "C140_add_sub",
    "C140_unary",
    "C140_integers",
    "C140_fraction_refuted",
    "C140_whole"
   ],
   "note": "REFUTED: a floating-point scalar is truncated to ptrdiff_t first, so index * 0.5 is zero and index / 0.5 divides by zero (C140_fraction_refuted). Proved: all laws for integers, with the exact conditions of overflow, and for whole numbers in floating-point variables."
  },
  {
   "property": "C141",
   "status": "proved",
   "theorems": [
    "C141_counter"
   ],
   "note": "Comparison in size_t, increments in int (overflow undefined) or size_t (wrapping)."
  },
  {
   "property": "C142",
   "status": "partial",
   "theorems": [
    "C142_to_wstring",
    "C142_single_bytes",
    "C142_ascii",
    "C142_multibyte_refuted"
   ],
   "note": "REFUTED: the UTF-8 text of one two-byte character gives that character followed by a NUL, and invalid text gives NULs without an error (C142_multibyte_refuted). Proved: the exact result for every decoding, and correctness exactly for texts of single-byte characters, ASCII in particular."
  },
  {
   "property": "C143",
   "status": "partial",
   "theorems": [
    "C143_normal2",
    "C143_normal3",
    "C143_normal3_refuted"
   ],
   "note": "REFUTED in three dimensions: the vector product of the positions depends on the origin and vanishes for lines through it, and math::normal throws (C143_normal3_refuted). Proved: everything in two dimensions, including uniqueness; in three dimensions perpendicularity, length and agreement with the space vectors."
  },
  {
   "property": "C144",
   "status": "partial",
   "theorems": [
    "C144_polygon_area",
    "C144_polygon_normal",
    "C144_volumes",
    "C144_midpoint",
    "C144_distance",
    "C144_shapes_refuted",
    "C144_centroid_refuted"
   ],
   "note": "REFUTED: area, normal and midpoint of every triangle and the midpoints of the other shapes are zero (C144_shapes_refuted); the centroid of a polygon is the origin or a division by zero (C144_centroid_refuted). Proved: polygon areas and the volumes of tetrahedra and hexahedra are the exact values rounded down, normals rounded towards zero, midpoints and distances of points truncated. Overflow of the coordinate type is not modelled."
  },
  {
   "property": "C145",
   "status": "partial",
   "theorems": [
    "C145_average",
    "C145_negative_refuted"
   ],
   "note": "REFUTED: the container and variadic versions divide by a size_t; the average of -3, -3, -3 is 1431655762 (C145_negative_refuted). Proved: the iterator and two-argument versions always, the others for sums that are not negative."
  },
  {
   "property": "C146",
   "status": "proved",
   "theorems": [
    "C146_triple",
    "C146_sign",
    "C146_det3",
    "C146_tet",
    "C146_hex",
    "C146_finite",
    "C146_hex_finite",
    "C146_nonneg"
   ],
   "note": "Bounds by a general theorem on the rounding of arithmetic formulas (FloatExpr.v)."
  },
  {
   "property": "C147",
   "status": "proved",
   "theorems": [
    "C147_triple",
    "C147_det3",
    "C147_inverse3",
    "C147_tet"
   ],
   "note": ""
  },
  {
   "property": "C148",
   "status": "partial",
   "theorems": [
    "C148_hex",
    "C148_refuted"
   ],
   "note": "REFUTED for tetrahedra: the volume of the tetrahedron with unit edges along the axes is 42.67 at (1e6, 1e6, 1e6), exact value 1/6, and 0 at (1e8, 1e8, 1e8); it depends on the order of the points and need not vanish for two equal points (C148_refuted). Proved: the volume of a hexahedron is the same to the last bit after any exactly representable displacement (C148_hex)."
  },
  {
   "property": "C149",
   "status": "proved",
   "theorems": [
    "C149_error",
    "C149_exact",
    "C149_inverse"
   ],
   "note": "n >= 1 for determinants, n >= 2 for inverses."
  },
  {
   "property": "C150",
   "status": "partial",
   "theorems": [
    "C150_mid3",
    "C150_mid4",
    "C150_mid8",
    "C150_refuted"
   ],
   "note": "REFUTED: the midpoint of three points with the coordinate 0.3, and of eight with 0.1, is smaller than that coordinate (C150_refuted). Proved: the error bounds."
  },
  {
   "property": "C151",
   "status": "partial",
   "theorems": [
    "C151_regular",
    "C151_rejected",
    "C151_overflow",
    "C151_refuted"
   ],
   "note": "REFUTED: the inverse of 1e100 times the identity of size 4 is the zero matrix, that of 1e-100 times the identity is rejected (C151_refuted). Proved: whenever the determinant exceeds its error bound there is a result; zero and NaN determinants are rejected; with an infinite determinant all entries are zero or NaN."
  },
  {
   "property": "C152",
   "status": "partial",
   "theorems": [
    "C152_whole",
    "C152_agree",
    "C152_refuted"
   ],
   "note": "REFUTED: the centroid of the triangle with the corner (73000009, 73000009) and edges of length one is (73000008, 73000008), outside of it; that of the unit square at (1e8, 1e8) is infinite; the two versions differ for coordinates that are not whole (C152_refuted). Proved: for n points with whole coordinates of magnitude at most M and 4 n M^3 within the significand both versions return the same numbers, with two relative rounding errors, and nothing finite exactly when the area is zero."
  },
  {
   "property": "C153",
   "status": "partial",
   "theorems": [
    "C153_indices",
    "C153_unchecked_refuted",
    "C153_unchecked_exact"
   ],
   "note": "REFUTED: operator() in a release build and operator[] with an index list accept index lists outside of the dimensions and return another element: (1, -1) of a 2 x 3 matrix is element (0, 2) (C153_unchecked_refuted); exactly which element or undefined behaviour results is C153_unchecked_exact. Proved: at() throws and operator() of a debug build stops for exactly the index lists that are not within the dimensions, whatever the integer types, and all accept the others with the row-major element."
  },
  {
   "property": "C154",
   "status": "partial",
   "theorems": [
    "C154_list",
    "C154_release",
    "C154_release_refuted",
    "C154_array",
    "C154_equal_value"
   ],
   "note": "REFUTED in a release build: a list shorter than the matrix leaves elements undefined, a longer one writes past the end (C154_release_refuted, for all such lists C154_release). Proved: lists of the right length and of length one construct the matrix in every build, all others stop a debug build; the constructors of array define all elements as given; comparison with a value."
  },
  {
   "property": "C155",
   "status": "partial",
   "theorems": [
    "C155_array",
    "C155_tuple",
    "C155_matrix",
    "C155_rows_refuted"
   ],
   "note": "REFUTED: a matrix is printed with one line for each column, so transposed (C155_rows_refuted). Proved: exactly that, for every matrix (C155_matrix), and the texts of arrays and tuples."
  },
  {
   "property": "C156",
   "status": "proved",
   "theorems": [
    "C156_inverse",
    "C156_singular",
    "C156_solve",
    "C156_whole"
   ],
   "note": "Existence of an inverse and of a solution are stated by sums over the reals; the determinant and Cramer's rule come from mathcomp through DetBridge.v and RealInst.v."
  },
  {
   "property": "C157",
   "status": "proved",
   "theorems": [
    "C157_one_transpose",
    "C157_one",
    "C157_doubledot",
    "C157_two",
    "C157_two_finite",
    "C157_trace",
    "C157_symmetric",
    "C157_reflection",
    "C157_projection"
   ],
   "note": "The error bounds assume that the result is finite; sufficient conditions for that are part of C157_one and C157_two_finite."
  },
  {
   "property": "C158",
   "status": "proved",
   "theorems": [
    "C158_values",
    "C158_registry",
    "C158_state",
    "C158_misuse"
   ],
   "note": "References refine a machine whose objects are plain values (C158_values), for every choice of unused keys by luaL_ref; registry and state as stated; use of a destroyed object is undefined behaviour (C158_misuse)."
  },
  {
   "property": "C159",
   "status": "partial",
   "theorems": [
    "C159_wrappers",
    "C159_unique",
    "C159_dangling_refuted",
    "C159_assigned_refuted"
   ],
   "note": "REFUTED: a wrapper made from a reference keeps a copy but calls the original: undefined after the original is destroyed (C159_dangling_refuted), another function after assignment to it (C159_assigned_refuted). Proved: otherwise, and for wrappers made from unique pointers always, it calls its function (C159_wrappers, C159_unique)."
  },
  {
   "property": "C160",
   "status": "proved",
   "theorems": [
    "C160_empty",
    "C160_dump",
    "C160_last"
   ],
   "note": "For strings without newlines; a string is shown up to its first NUL."
  },
  {
   "property": "C161",
   "status": "partial",
   "theorems": [
    "C161_same_call",
    "C161_call_name",
    "C161_call_name_refuted",
    "C161_path",
    "C161_path_refuted"
   ],
   "note": "REFUTED: the types in the name of a call start with that of the function itself (C161_call_name_refuted, exactly C161_call_name); keys with quotes make names ambiguous (C161_path_refuted). Proved: the names of chains of keys without quotes are unambiguous (C161_path); the model of the call with its name agrees with that of LuaModel.v (C161_same_call)."
  },
  {
   "property": "C162",
   "status": "proved",
   "theorems": [
    "C162_text",
    "C162_basis",
    "C162_nodal",
    "C162_derivatives_at_nodes",
    "C162_position_at_nodes",
    "C162_accuracy",
    "C162_partition_of_unity",
    "C162_position"
   ],
   "note": "The formulas are texts read with any arithmetic; C162_text shows that their reading over reals is ElementsModel.v. (a) C162_nodal, (b) C162_derivatives_at_nodes, (c) C162_position_at_nodes, (d) C162_accuracy and C162_partition_of_unity, (e) C162_position, (f) C162_basis. Quad_12_2D::basis evaluates other formulas (see C53) and is not part of it."
  },
  {
   "property": "C163",
   "status": "proved",
   "theorems": [
    "C163_text",
    "C163_nodal",
    "C163_quadn_nodal",
    "C163_hexn_nodal",
    "C163_accuracy",
    "C163_partition_of_unity",
    "C163_derivative",
    "C163_quadn_accuracy",
    "C163_hexn_accuracy",
    "C163_gap_needed"
   ],
   "note": "C163_text: the reading over reals is LagrangeModel.v. (a) C163_nodal, C163_quadn_nodal, C163_hexn_nodal; (b) C163_accuracy, C163_partition_of_unity; (c) C163_derivative; (d) C163_quadn_accuracy, C163_hexn_accuracy. C163_gap_needed: for nodes that are merely distinct the claim is false, with 0, 2^-600, 2^-599 in double precision the denominator underflows to 0 and the function is NaN at its own node."
  },
  {
   "property": "C164",
   "status": "partial",
   "theorems": [
    "C164_text",
    "C164_shape",
    "C164_entry",
    "C164_element",
    "C164_det",
    "C164_det_whole",
    "C164_det4",
    "C164_det4_whole",
    "C164_inverse_2d",
    "C164_det2",
    "C164_inverse_2d_whole",
    "C164_stale_refuted"
   ],
   "note": "REFUTED: for dimension 2 the determinant depends on what the caller left in the third row and column of J_matrix, which the loops do not write (C164_stale_refuted: in double precision the determinant of the identity is 0 with 2^60 left in J[2][2], NaN with 2^600 in J[1][2] and J[2][1] or with infinity or NaN in J[2][2]). Proved: C164_text (the reading over reals is the model of C57), C164_shape, C164_entry, C164_element for (a); C164_det with the factor 1 + 2 |J[2][2]| that the left-over entry brings in dimension 2, C164_det_whole, C164_det4, C164_det4_whole for (b); C164_det2, C164_inverse_2d, C164_inverse_2d_whole for (c). The 3D and 4D inverses have wrong entries already over exact reals (C57)."
  },
  {
   "property": "C165",
   "status": "partial",
   "theorems": [
    "C165_are_type",
    "C165_decay",
    "C165_integral",
    "C165_index",
    "C165_iterator",
    "C165_iterator_refuted",
    "C165_callable",
    "C165_callable_refuted",
    "C165_container",
    "C165_container_refuted",
    "C165_view",
    "C165_view_refuted",
    "C165_subscript",
    "C165_subscript_refuted",
    "C165_extents_refuted",
    "C165_special_decay",
    "C165_special_decay_refuted",
    "C165_name",
    "C165_name_refuted",
    "C165_average_range",
    "C165_average_different",
    "C165_average_values",
    "C165_average_refuted",
    "C165_category",
    "C165_output"
   ],
   "note": "REFUTED: (c) C165_iterator_refuted (references to iterators and const pointers are denied), (d) C165_callable_refuted (functions, function pointers, references to functors and unions are denied, final classes are ill-formed), (e) C165_container_refuted (containers without data() such as std::list are denied), C165_view_refuted (ref-qualified members: enabled and ill-formed), (f) C165_subscript_refuted (an integer has a subscript operator for pointers), (g) C165_extents_refuted (every instantiation is ill-formed: auto & is bound to a prvalue), (h) C165_special_decay_refuted (a const wrapper or a reference to one stays a wrapper), (i) C165_name_refuted (references and cv are dropped), (j) C165_average_refuted (two variables of the same type where only the second is const are rejected; a variable is cast to an rvalue if the first argument is a temporary). Proved: (a) C165_are_type, C165_decay; (b) C165_integral, C165_index; (c) for types deduced by value, as in average(first, last): C165_iterator; (d) for classes: C165_callable; (e) C165_container, C165_view; (f) C165_subscript; (h) C165_special_decay; (i) C165_name; (j) C165_average_range, C165_average_different, C165_average_values."
  },
  {
   "property": "C166",
   "status": "partial",
   "theorems": [
    "C166_agree",
    "C166_found",
    "C166_error_refuted",
    "C166_error_kept",
    "C166_size",
    "C166_size_refuted",
    "C166_table",
    "C166_ownership",
    "C166_ownership_refuted",
    "C166_get_refuted"
   ],
   "note": "REFUTED: (b) C166_error_refuted (throw x copies a std::exception: type and message are lost for every key and every failure), (c) C166_size_refuted (a key that is absent from its table has size 0, no exception), (e) C166_ownership_refuted (registering the same pointer again deletes it while it is stored; two engines delete it twice), (f) C166_get_refuted (undefined with the assertions off). Proved: (a) C166_agree, C166_found; (b) for functions and raw access C166_error_kept; (c) C166_size; (d) C166_table; (e) if no pointer is handed over twice: C166_ownership."
  },
  {
   "property": "C167",
   "status": "partial",
   "theorems": [
    "C167_strided",
    "C167_random",
    "C167_order_refuted",
    "C167_order_rank_one",
    "C167_contiguous",
    "C167_same",
    "C167_lifetime_refuted",
    "C167_copies_refuted",
    "C167_static_const",
    "C167_static_const_refuted",
    "C167_flatten",
    "C167_flatten_refuted",
    "C167_default",
    "C167_default_static_refuted",
    "C167_convert",
    "C167_compare"
   ],
   "note": "REFUTED: (b) C167_order_refuted (< of strided iterators holds both ways for every view of two dimensions), (c) C167_lifetime_refuted and C167_copies_refuted (a strided iterator of a temporary slice dangles; iterators of copies fail the assertion), (d) C167_static_const_refuted (constant iterators of a static view meet as many elements as there are dimensions, also past the end), (e) C167_flatten_refuted (a section), (f) C167_default_static_refuted. Proved: (a) C167_strided, C167_contiguous, C167_same; (b) C167_random, C167_order_rank_one, C167_contiguous; (d) exactly C167_static_const; (e) contiguous views C167_flatten; (f) C167_default; (g) C167_convert; (h) C167_compare."
  },
  {
   "property": "C168",
   "status": "partial",
   "theorems": [
    "C168_balance",
    "C168_released",
    "C168_leak_refuted",
    "C168_reset_refuted",
    "C168_copy_refuted",
    "C168_init_refuted"
   ],
   "note": "REFUTED: addScalarData, addTensorData, two of the overloads of addVectorData and setScalarData, setVectorData, setTensorData never give up the reference of the array they make, and outputVTKUnstructredGrid that of its writer, so these (and the written grid) are never destroyed, whatever follows; reset gives up references that the members still hold, so later uses and the destructor touch destroyed objects; copies of an adaptor both delete the processor; initVTKUnstructuredGrid sets a copy of its argument. Proved: without reset and copies of adaptors nothing is touched after its destruction and references are holders plus the leaked ones, one for each of these calls; without leaking calls everything is destroyed in the end. VTK's reference counting itself is assumed."
  },
  {
   "property": "C169",
   "status": "partial",
   "theorems": [
    "C169_chebyshev",
    "C169_lagrange_1D",
    "C169_quadn",
    "C169_hexn",
    "C169_natural_sizes",
    "C169_position",
    "C169_corners",
    "C169_jacobian",
    "C169_square_refuted",
    "C169_inverses",
    "C169_lobatto",
    "C169_gauss"
   ],
   "note": "REFUTED: jacobian always reads and writes row and column 2, so the 2 by 2 matrix of a two-dimensional element is overrun whatever else is passed (C169_square_refuted). Proved for all sizes: each routine runs without undefined behaviour exactly when the sizes listed in its theorem fit, the natural sizes do, and the results are those of the value models. The fixed-order elements are C170."
  },
  {
   "property": "C170",
   "status": "proved",
   "theorems": [
    "C170_quad4",
    "C170_quad8",
    "C170_quad12",
    "C170_hex8",
    "C170_hex20",
    "C170_hex32",
    "C170_tess16"
   ],
   "note": "Exact sizes per routine, with undefined behaviour proved for every smaller size. The loops are transcribed a second time and shown to compute the function models of C52-C54. Tess16 is taken with an initialised member ref_vert."
  },
  {
   "property": "C171",
   "status": "proved",
   "theorems": [
    "C171_gauss",
    "C171_lobatto",
    "C171_tight",
    "C171_sound",
    "C171_ends",
    "C171_orders",
    "C171_nearest",
    "C171_copies2",
    "C171_copies3",
    "C171_copies4",
    "C171_tensor2",
    "C171_tensor3"
   ],
   "note": "Bit-level model of the tables in the order of the text, decimal literals included. The sums over the points are exact real sums: the caller's summation is not part of the library. The bounds for the line rules are not twice the actual error (C171_tight). Orders above 8 leave the results uninitialised (C171_orders)."
  },
  {
   "property": "C172",
   "status": "partial",
   "theorems": [
    "C172_ring",
    "C172_exact",
    "C172_narrow",
    "C172_narrow_refuted",
    "C172_bits",
    "C172_cpp",
    "C172_overflow_refuted",
    "C172_step",
    "C172_common",
    "C172_div",
    "C172_div_refuted",
    "C172_min_max",
    "C172_min_max_refuted",
    "C172_shift",
    "C172_kokkos",
    "C172_kokkos_refuted",
    "C172_double",
    "C172_double_refuted"
   ],
   "note": "REFUTED: (1) overflow of a signed variable is undefined under strong, weak, lock and serial but wraps under cpp and kokkos (C172_overflow_refuted); (2) dividing a negative int by an unsigned divides it modulo 2^32 (C172_div_refuted); (3) min(-1, 3u) stores 3 and max(5, 2^32) stores 0 (C172_min_max_refuted); (4) kokkos cuts the right-hand side to the type of the variable first (C172_kokkos_refuted); (5) -3 += 1.5 leaves -1, under cpp -2 (C172_double_refuted); (6) the product of two unsigned short can overflow int, undefined (C172_narrow_refuted). Proved: exactness and modular results for all types, agreement of cpp with the language wherever the latter is defined, of kokkos for equal types, and exact conditions for undefined behaviour."
  },
  {
   "property": "C173",
   "status": "partial",
   "theorems": [
    "C173_agree",
    "C173_symmetric",
    "C173_area2",
    "C173_parallel",
    "C173_area3",
    "C173_plane",
    "C173_refuted",
    "C173_distance",
    "C173_magnitude",
    "C173_area_int",
    "C173_int_refuted"
   ],
   "note": "REFUTED: (1) vectors that are not parallel can have cross_magnitude 0, and the area of two plane vectors stored in three dimensions can be 0 or infinite when the two-dimensional one is neither (C173_refuted); (2) cross_magnitude of long vectors goes through fabs of a double: 2^53+1 becomes 2^53 and 2^63-1 undefined; of unsigned vectors it is wrong when the difference is negative; the length of a long vector can be rounded up (C173_int_refuted). Proved: agreement with math, symmetry to the last bit, error bounds in two and three dimensions, exact zero for parallel vectors, equality in two and three dimensions while the square neither underflows nor overflows; integer distance and magnitude rounded down for every type while the sum of squares fits and is below 2^52 (unsigned differences may wrap), integer area exact for signed types below 2^53."
  },
  {
   "property": "C174",
   "status": "partial",
   "theorems": [
    "C174_final",
    "C174_threads",
    "C174_test",
    "C174_data",
    "C174_data_refuted",
    "C174_check",
    "C174_check_refuted",
    "C174_add",
    "C174_add_sub",
    "C174_inc_dec",
    "C174_mul_div",
    "C174_min_max",
    "C174_serial_refuted"
   ],
   "note": "REFUTED: (1) the int data of unit-threads-mul.cc and unit-threads-lshift.cc overflows (1*3^20, 1<<32): the tests are undefined in their serial part (C174_data_refuted); (2) equal results that are zero, infinite, NaN or very small doubles fail the comparison (C174_check_refuted); (3) the examples accept the serial scheme with several threads, which loses updates (C174_serial_refuted). Proved: the final value for every program, type and permitted scheme; the assertion holds whenever the serial part is defined, which it is for all other int and unsigned data; the comparison accepts every equal non-zero finite float and doubles from 2^-1040 on; the results of all five examples (multithreaded-mul-div-shift.cc prints 0 under any scheme, racing or not)."
  },
  {
   "property": "C175",
   "status": "proved",
   "theorems": [
    "C175_single",
    "C175_fit_needed",
    "C175_rounds",
    "C175_floats",
    "C175_operation",
    "C175_steps",
    "C175_correct_operators",
    "C175_char_needed"
   ],
   "note": "C175_single covers every one-thread program. C175_fit_needed: an operation that re-reads the variable (CppBin) must be one that returns the new value. C175_char_needed: correct-operators.cc would fail for char, which it does not instantiate."
  },
  {
   "property": "C176",
   "status": "proved",
   "theorems": [
    "C176_ring",
    "C176_exact",
    "C176_short",
    "C176_short_needed",
    "C176_divides",
    "C176_mixed_needed",
    "C176_array",
    "C176_fits",
    "C176_order_needed"
   ],
   "note": "C176_mixed_needed: with a negative operand beside an unsigned one at least as wide the quotient and the sum are not the mathematical ones (divides(-4, 2u) is 2147483646). C176_short_needed: the product of two unsigned shorts can overflow int. C176_order_needed: to_array takes the first element's type, not the common one."
  },
  {
   "property": "C177",
   "status": "partial",
   "theorems": [
    "C177_each",
    "C177_uniform",
    "C177_add",
    "C177_steps",
    "C177_post_refuted",
    "C177_post_run_refuted",
    "C177_min_max",
    "C177_min_max_refuted",
    "C177_threads",
    "C177_pun"
   ],
   "note": "REFUTED: (1) foo++ and foo-- return the new value, for every foo (C177_post_refuted), and so does an atomic<foo> (C177_post_run_refuted); (2) min(foo(1), bar(2)) leaves foo(2), which is larger; max with bar(256) leaves foo(0); min with two bars depends on their order (C177_min_max_refuted). Proved: the operators byte by byte, ++ and --, the exact condition under which min and max do what they say (C177_min_max), the sum after any threaded run, and that the punned integer determines the foo."
  }
 ]
}
