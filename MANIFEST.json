{
 "claims": [
  {
   "property": "C01",
   "status": "proved",
   "theorems": [
    "C01_stack_refines_history",
    "C01_undo_redo_identity",
    "C01_undo_all_restores"
   ],
   "note": "Functions whose do part calls no other undoable function and whose undo part restores the document; nested undoable calls inside a do part are excluded (predicate reversible)."
  },
  {
   "property": "C02",
   "status": "partial",
   "theorems": [
    "C02_group_is_one_step",
    "C02_nested_group_refuted"
   ],
   "note": "One step for a group of non-raising calls; a group inside a group is refuted (inner group replaces the receiver)."
  },
  {
   "property": "C03",
   "status": "partial",
   "theorems": [
    "C03_failed_call_records_nothing",
    "C03_raising_undo_clears",
    "C03_recording_continues",
    "C03_exception_in_group_refuted"
   ],
   "note": "Outside groups; an exception inside a group leaves the recorder of the group active (refuted)."
  },
  {
   "property": "C04",
   "status": "partial",
   "theorems": [
    "C04_new_action_discards_redo",
    "C04_undo_moves_one_entry",
    "C04_redo_moves_one_entry",
    "C04_stale_redo_refuted",
    "C04_undo_reenables_recording_refuted"
   ],
   "note": "True for recorded calls; refuted when recording is off, and undo/redo switch recording on again."
  },
  {
   "property": "C05",
   "status": "partial",
   "theorems": [
    "C05_haschanged_refuted",
    "C05_haschanged_partial"
   ],
   "note": "Refuted after an undo past the savepoint followed by new actions; true variant proved."
  },
  {
   "property": "C06",
   "status": "partial",
   "theorems": [
    "C06_redocount_refuted",
    "C06_redocount_partial"
   ],
   "note": "redocount reads the undo deque (refuted in general); equal when both deques have the same length."
  },
  {
   "property": "C07",
   "status": "proved",
   "theorems": [
    "C07_history_legal"
   ],
   "note": ""
  },
  {
   "property": "C08",
   "status": "proved",
   "theorems": [
    "C08_allocation_undone_by_reversed_removal",
    "C08_ids_bounded_by_peak",
    "C08_other_order_differs"
   ],
   "note": "Removal in reverse order restores ids; other orders differ (theorem C08_other_order_differs)."
  },
  {
   "property": "C09",
   "status": "proved",
   "theorems": [
    "C09_histories_never_diverge",
    "C09_intersect_candidates_exact",
    "C09_zero_size_refuted"
   ],
   "note": "Needs init_size > 0 (otherwise add_object loops, C09_zero_size_refuted) and query coordinates below the sentinel."
  },
  {
   "property": "C10",
   "status": "proved",
   "theorems": [
    "C10_closest_never_missed",
    "C10_sqrt_test_faithful",
    "C10_degenerate_box_refuted"
   ],
   "note": "Boxes of positive size; degenerate boxes refuted."
  },
  {
   "property": "C11",
   "status": "partial",
   "theorems": [
    "C11_only_live_ids_refuted",
    "C11_only_live_ids_partial"
   ],
   "note": "Refuted after all objects are removed; holds while some object is live."
  },
  {
   "property": "C12",
   "status": "proved",
   "theorems": [
    "C12_make_aabb_smallest"
   ],
   "note": ""
  },
  {
   "property": "C13",
   "status": "proved",
   "theorems": [
    "C13_projection_is_nearest",
    "C13_projection_defined"
   ],
   "note": ""
  },
  {
   "property": "C14",
   "status": "proved",
   "theorems": [
    "C14_intersection_sound",
    "C14_intersection_complete",
    "C14_parallel_none"
   ],
   "note": "Exact arithmetic; tolerance 1e-10 of the code kept."
  },
  {
   "property": "C15",
   "status": "proved",
   "theorems": [
    "C15_ray_crossing",
    "C15_orientation_independent",
    "C15_on_segment"
   ],
   "note": "Points on the segment are characterised separately (C15_on_segment)."
  },
  {
   "property": "C16",
   "status": "proved",
   "theorems": [
    "C16_outside_bounding_box",
    "C16_dendrites_ignored",
    "C16_orientation_ignored",
    "C16_constant_off_wire",
    "C16_convex_polygon",
    "C16_on_wire_orientation_refuted"
   ],
   "note": "C16_on_wire_orientation_refuted shows the hypothesis that the point is off the wire is needed."
  },
  {
   "property": "C17",
   "status": "proved",
   "theorems": [
    "C17_half_edges",
    "C17_wires"
   ],
   "note": "Histories with sound containment answers; deletion of an exposed segment must leave the wire tree whole (C23_refuted shows that it need not)."
  },
  {
   "property": "C18",
   "status": "proved",
   "theorems": [
    "C18_segments",
    "C18_free"
   ],
   "note": "Histories as in C17."
  },
  {
   "property": "C19",
   "status": "proved",
   "theorems": [
    "C19_same",
    "C19_unique",
    "C19_index",
    "C19_join_refuted"
   ],
   "note": "Histories as in C17; for join_segments of segments with joined far ends refuted (C19_join_refuted)."
  },
  {
   "property": "C20",
   "status": "proved",
   "theorems": [
    "C20_euler"
   ],
   "note": "Histories as in C17."
  },
  {
   "property": "C21",
   "status": "proved",
   "theorems": [
    "C21_new",
    "C21_delete"
   ],
   "note": "States reached by histories as in C17; new_segment with sound containment answers. The id named by a shape report is not covered here (an earlier wording claimed it); see C117."
  },
  {
   "property": "C22",
   "status": "proved",
   "theorems": [
    "C22_delete",
    "C22_join",
    "C22_join_refuted"
   ],
   "note": "Partial correctness: both calls return. The vector is excepted for split_segment / join_segments; C22_join_refuted shows that it must be."
  },
  {
   "property": "C23",
   "status": "proved",
   "theorems": [
    "C23_consistent",
    "C23_whole",
    "C23_refuted",
    "C23_join_refuted"
   ],
   "note": "Histories as in C17; for all calls refuted (C23_refuted), and for join_segments of segments that point at each other (C23_join_refuted)."
  },
  {
   "property": "C24",
   "status": "proved",
   "theorems": [
    "C24_vector",
    "C24_join_refuted"
   ],
   "note": "Histories as in C17 without join_segments; refuted with join_segments (C24_join_refuted)."
  },
  {
   "property": "C25",
   "status": "proved",
   "theorems": [
    "C25_covered",
    "C25_found",
    "C25_found_near",
    "C25_alive",
    "C25_join_refuted",
    "C25_move_refuted",
    "C25_rm_point_refuted"
   ],
   "note": "Calls that return and are as in the statement (eproper in Editor_Spec); histories need sound answers of contains_wire and whole trees after removal of exposed segments as in C17. Refuted beyond: C25_join_refuted, C25_move_refuted, C25_rm_point_refuted."
  },
  {
   "property": "C26",
   "status": "proved",
   "theorems": [
    "C26_add_point",
    "C26_rm_point",
    "C26_add_segment",
    "C26_rm_segment",
    "C26_split",
    "C26_join",
    "C26_existing_refuted",
    "C26_split_refuted",
    "C26_merge_refuted"
   ],
   "note": "For segments partial correctness: undo returns. C26_rm_segment speaks of points, segments and the index (links and polygons depend on the answers of geometric tests). Vectors up to date (C24) where they are read. Refuted beyond: C26_existing_refuted, C26_split_refuted (vector), C26_merge_refuted."
  },
  {
   "property": "C27",
   "status": "proved",
   "theorems": [
    "C27_pack_round_trip",
    "C27_unpack_round_trip"
   ],
   "note": ""
  },
  {
   "property": "C28",
   "status": "proved",
   "theorems": [
    "C28_find_knot_interval",
    "C28_below_domain_raises",
    "C28_make_equidistant",
    "C28_check_clamps"
   ],
   "note": "np.searchsorted on a sorted array is modelled by its documented meaning (count of entries <= t)."
  },
  {
   "property": "C29",
   "status": "proved",
   "theorems": [
    "C29_nonnegative",
    "C29_local_support",
    "C29_partition_of_unity",
    "C29_eval_vector"
   ],
   "note": "Real arithmetic."
  },
  {
   "property": "C30",
   "status": "proved",
   "theorems": [
    "C30_fast_values",
    "C30_fast_derivatives",
    "C30_empty_last_interval_refuted"
   ],
   "note": "C30_empty_last_interval_refuted: the fast path divides by zero when the last interval is empty."
  },
  {
   "property": "C31",
   "status": "proved",
   "theorems": [
    "C31_two_sided",
    "C31_right_derivative",
    "C31_left_derivative_at_end",
    "C31_derivatives_sum_to_zero",
    "C31_full_multiplicity_refuted"
   ],
   "note": "C31_full_multiplicity_refuted: an inner knot of multiplicity degree+1 makes eval_diff divide by zero."
  },
  {
   "property": "C32",
   "status": "proved",
   "theorems": [
    "C32_linear_poles",
    "C32_identity_refuted"
   ],
   "note": "C32_identity_refuted: the documented f(x)=x fails for domains not starting at 0."
  },
  {
   "property": "C33",
   "status": "proved",
   "theorems": [
    "C33_curve_in_aabb",
    "C33_rational_curve_in_aabb",
    "C33_aabb_attained_by_poles",
    "C33_surface_aabb_attained_by_poles",
    "C33_curve_ends",
    "C33_curve_affine_invariant",
    "C33_surface_in_aabb",
    "C33_surface_corners",
    "C33_first_pole_refuted"
   ],
   "note": "C33_first_pole_refuted: start knot of multiplicity degree+2."
  },
  {
   "property": "C34",
   "status": "proved",
   "theorems": [
    "C34_patch_numbering"
   ],
   "note": ""
  },
  {
   "property": "C35",
   "status": "proved",
   "theorems": [
    "C35_maps_inverse",
    "C35_constructor",
    "C35_transform",
    "C35_transform_succeeds"
   ],
   "note": "Z_Surface.eval (ragged array) is not modelled."
  },
  {
   "property": "C36",
   "status": "proved",
   "theorems": [
    "C36_height_difference",
    "C36_agrees_unscaled",
    "C36_nodes",
    "C36_scaled_refuted"
   ],
   "note": "C36_scaled_refuted: eval_array and z_eval_array disagree for a z scale other than 1 (defect)."
  },
  {
   "property": "C37",
   "status": "proved",
   "theorems": [
    "C37_contains",
    "C37_negative_scale_refuted"
   ],
   "note": "C37_negative_scale_refuted: box turned over for a negative scale (defect)."
  },
  {
   "property": "C38",
   "status": "proved",
   "theorems": [
    "C38_copy_does_not_affect_original",
    "C38_height_independent",
    "C38_after_own_transform",
    "C38_copy_follows_original",
    "C38_refuted"
   ],
   "note": "C38_refuted: a copy moves with the original (defect)."
  },
  {
   "property": "C39",
   "status": "proved",
   "theorems": [
    "C39_line",
    "C39_plane",
    "C39_bilinear_overhang",
    "C39_bilinear",
    "C39_bilinear_overhang_refuted",
    "C39_integer_overhang_refuted",
    "C39_negative_overhang_refuted",
    "C39_brep_line",
    "C39_brep_bilinear",
    "C39_brep_plane",
    "C39_brep_uv_of_points",
    "C39_brep_plane_twice_refuted"
   ],
   "note": "Refuted variants: C39_bilinear_overhang_refuted, C39_integer_overhang_refuted, C39_negative_overhang_refuted, C39_brep_plane_twice_refuted."
  },
  {
   "property": "C40",
   "status": "proved",
   "theorems": [
    "C40_readback",
    "C40_effect",
    "C40_each_once",
    "C40_succeeds",
    "C40_first_write",
    "C40_identity_power_refuted"
   ],
   "note": "Refuted variant: C40_identity_power_refuted."
  },
  {
   "property": "C41",
   "status": "proved",
   "theorems": [
    "C41_second_write_empty",
    "C41_same_file_refuted",
    "C41_repr_refuted",
    "C41_shared_refuted",
    "C41_disjoint_models"
   ],
   "note": "The original claim is refuted by C41_same_file_refuted; further refuted variants: C41_repr_refuted, C41_shared_refuted."
  },
  {
   "property": "C42",
   "status": "proved",
   "theorems": [
    "C42_wire_closed",
    "C42_face_closed",
    "C42_append_refuted"
   ],
   "note": "Refuted variant: C42_append_refuted."
  },
  {
   "property": "C43",
   "status": "proved",
   "theorems": [
    "C43_read_written",
    "C43_round_trip",
    "C43_names",
    "C43_refuted"
   ],
   "note": "Refuted variant of the unrestricted round trip: C43_refuted. Conversion of floats is a parameter with parse(show x) = x; binary files are not modelled."
  },
  {
   "property": "C44",
   "status": "proved",
   "theorems": [
    "C44_round_trip",
    "C44_unreadable",
    "C44_written"
   ],
   "note": "C44_unreadable covers the texts that are written and cannot be read."
  },
  {
   "property": "C45",
   "status": "proved",
   "theorems": [
    "C45_index",
    "C45_element_ids",
    "C45_node_ids",
    "C45_refuted"
   ],
   "note": "C45_refuted: without the restriction on move_node."
  },
  {
   "property": "C46",
   "status": "proved",
   "theorems": [
    "C46_merge",
    "C46_no_repeated",
    "C46_raises"
   ],
   "note": ""
  },
  {
   "property": "C47",
   "status": "proved",
   "theorems": [
    "C47_terminates"
   ],
   "note": "The geometric computations are an arbitrary parameter."
  },
  {
   "property": "C48",
   "status": "proved",
   "theorems": [
    "C48_checked",
    "C48_refuted"
   ],
   "note": "C48_refuted: the first alternative cannot be left out."
  },
  {
   "property": "C49",
   "status": "proved",
   "theorems": [
    "C49_histogram",
    "C49_refuted"
   ],
   "note": "C49_refuted: qualities that are not numbers."
  },
  {
   "property": "C50",
   "status": "proved",
   "theorems": [
    "C50_edge",
    "C50_face",
    "C50_triangle"
   ],
   "note": ""
  },
  {
   "property": "C51",
   "status": "proved",
   "theorems": [
    "C51_ids",
    "C51_same_for_all_coordinates",
    "C51_refuted"
   ],
   "note": "The claim as first written is refuted (C51_refuted); C51_ids says what the code computes."
  },
  {
   "property": "C52",
   "status": "proved",
   "theorems": [
    "C52_group",
    "C52_split_region",
    "C52_split_region_raises",
    "C52_split_dimension",
    "C52_split_dimension_raises"
   ],
   "note": "The geometry kernel is an arbitrary parameter."
  },
  {
   "property": "C53",
   "status": "proved",
   "theorems": [
    "C53_fragment",
    "C53_twice"
   ],
   "note": "The geometry kernel is an arbitrary parameter."
  },
  {
   "property": "C54",
   "status": "proved",
   "theorems": [
    "C54_groups",
    "C54_distinct",
    "C54_raises",
    "C54_refuted"
   ],
   "note": "The geometry kernel is an arbitrary parameter. C54_refuted: names a, a, a_0."
  },
  {
   "property": "C55",
   "status": "proved",
   "theorems": [
    "C55_constant",
    "C55_lower",
    "C55_ramp",
    "C55_refuted"
   ],
   "note": "The claim as first written is refuted (C55_refuted); the theorems say what holds."
  },
  {
   "property": "C56",
   "status": "proved",
   "theorems": [
    "C56_full_surface",
    "C56_same_surface",
    "C56_shifted_refuted"
   ],
   "note": "C56_shifted_refuted: shifted surface if the knot domain does not start at 0 (defect)."
  },
  {
   "property": "C57",
   "status": "proved",
   "theorems": [
    "C57_lattice_accepted"
   ],
   "note": ""
  },
  {
   "property": "C58",
   "status": "proved",
   "theorems": [
    "C58_nearly_regular"
   ],
   "note": ""
  },
  {
   "property": "C59",
   "status": "proved",
   "theorems": [
    "C59_curve_record",
    "C59_surface_record"
   ],
   "note": ""
  },
  {
   "property": "C60",
   "status": "proved",
   "theorems": [
    "C60_default_geometry"
   ],
   "note": ""
  },
  {
   "property": "C61",
   "status": "proved",
   "theorems": [
    "C61_lines",
    "C61_refuted"
   ],
   "note": "C61_refuted: meshes with triangles."
  },
  {
   "property": "C62",
   "status": "proved",
   "theorems": [
    "C62_difference",
    "C62_refuted"
   ],
   "note": "The claim is refuted; C62_difference gives the exact error."
  },
  {
   "property": "C63",
   "status": "proved",
   "theorems": [
    "C63_triangle",
    "C63_tetrahedron",
    "C63_refuted"
   ],
   "note": "Refuted for tetrahedra (C63_refuted), where C63_tetrahedron gives the factor."
  },
  {
   "property": "C64",
   "status": "proved",
   "theorems": [
    "C64_consistent",
    "C64_history"
   ],
   "note": "The geometry kernel is an arbitrary parameter."
  },
  {
   "property": "C65",
   "status": "proved",
   "theorems": [
    "C65_rectangle",
    "C65_refuted"
   ],
   "note": "The geometry kernel is an arbitrary parameter. C65_refuted: the default list."
  },
  {
   "property": "C66",
   "status": "proved",
   "theorems": [
    "C66_inherit"
   ],
   "note": "The geometry kernel is an arbitrary parameter."
  },
  {
   "property": "C67",
   "status": "proved",
   "theorems": [
    "C67_split_by_cut",
    "C67_tools"
   ],
   "note": "The geometry kernel is an arbitrary parameter."
  },
  {
   "property": "C68",
   "status": "proved",
   "theorems": [
    "C68_select"
   ],
   "note": "The geometry kernel is an arbitrary parameter."
  },
  {
   "property": "C69",
   "status": "proved",
   "theorems": [
    "C69_synchronized",
    "C69_eliminate",
    "C69_polygon_refuted",
    "C69_fragment_refuted"
   ],
   "note": "The geometry kernel is an arbitrary parameter. C69_polygon_refuted, C69_fragment_refuted: the restrictions are needed; C69_eliminate is the general failure."
  },
  {
   "property": "C70",
   "status": "proved",
   "theorems": [
    "C70_box",
    "C70_constant",
    "C70_min",
    "C70_max",
    "C70_others"
   ],
   "note": "What gmsh computes from the settings of a field is a specification written after the docstrings."
  },
  {
   "property": "C71",
   "status": "proved",
   "theorems": [
    "C71_restrict",
    "C71_boundary"
   ],
   "note": "The geometry kernel is an arbitrary parameter."
  },
  {
   "property": "C72",
   "status": "proved",
   "theorems": [
    "C72_assign",
    "C72_prefix",
    "C72_enum_refuted"
   ],
   "note": "C72_enum_refuted: enumerations."
  },
  {
   "property": "C73",
   "status": "proved",
   "theorems": [
    "C73_same_region",
    "C73_refuted",
    "C73_ids"
   ],
   "note": "The geometry kernel is an arbitrary parameter. C73_refuted: the name itself changes."
  },
  {
   "property": "C74",
   "status": "proved",
   "theorems": [
    "C74_boundary"
   ],
   "note": "The geometry kernel is an arbitrary parameter."
  },
  {
   "property": "C75",
   "status": "proved",
   "theorems": [
    "C75_small_mass"
   ],
   "note": "The geometry kernel is an arbitrary parameter."
  },
  {
   "property": "C76",
   "status": "proved",
   "theorems": [
    "C76_point",
    "C76_nearest_refuted",
    "C76_dead_refuted",
    "C76_segment_gone_refuted"
   ],
   "note": "Exact rationals. Range of the tables: room_points in Snap_Spec. Refuted beyond: C76_nearest_refuted, C76_dead_refuted, C76_segment_gone_refuted."
  },
  {
   "property": "C77",
   "status": "proved",
   "theorems": [
    "C77_one",
    "C77_several",
    "C77_polygon"
   ],
   "note": "Partial correctness where the answer for several segments or a polygon may raise (failed assertion of contains_point, which is a parameter of the model). vec_ok as in C24. A drawing with points but no segment is not covered by C77_polygon."
  },
  {
   "property": "C78",
   "status": "proved",
   "theorems": [
    "C78_near",
    "C78_split",
    "C78_two_refuted"
   ],
   "note": "Partial correctness: add_point returns. Some point and some segment exist. Refuted beyond: C78_two_refuted. The square root used for two close segments is a parameter."
  },
  {
   "property": "C79",
   "status": "proved",
   "theorems": [
    "C79_again"
   ],
   "note": "As C78."
  },
  {
   "property": "C80",
   "status": "proved",
   "theorems": [
    "C80_apart",
    "C80_apart_refuted"
   ],
   "note": "As C78; refuted beyond: C80_apart_refuted."
  },
  {
   "property": "C81",
   "status": "proved",
   "theorems": [
    "C81_depth",
    "C81_number",
    "C81_docstring_refuted"
   ],
   "note": "Refuted beyond: C81_docstring_refuted."
  },
  {
   "property": "C82",
   "status": "proved",
   "theorems": [
    "C82_vertices",
    "C82_root"
   ],
   "note": "The docstring also promises counter-clockwise direction; this is geometric and not claimed."
  },
  {
   "property": "C83",
   "status": "proved",
   "theorems": [
    "C83_childs",
    "C83_all",
    "C83_wires",
    "C83_again"
   ],
   "note": "Order of set walks is a parameter."
  },
  {
   "property": "C84",
   "status": "proved",
   "theorems": [
    "C84_neighbors",
    "C84_docstring_refuted"
   ],
   "note": "Refuted beyond: C84_docstring_refuted."
  },
  {
   "property": "C85",
   "status": "proved",
   "theorems": [
    "C85_hull",
    "C85_vertical",
    "C85_vertical_refuted"
   ],
   "note": "Recursion limit of Python not modelled. Refuted beyond: C85_vertical_refuted."
  },
  {
   "property": "C86",
   "status": "proved",
   "theorems": [
    "C86_least",
    "C86_contains",
    "C86_smallest",
    "C86_one_refuted"
   ],
   "note": "Exact real arithmetic. Refuted beyond: C86_one_refuted."
  },
  {
   "property": "C87",
   "status": "proved",
   "theorems": [
    "C87_quad",
    "C87_vertical",
    "C87_vertical_refuted"
   ],
   "note": "Composition of C85 and C86. Refuted beyond: C87_vertical_refuted."
  },
  {
   "property": "C88",
   "status": "proved",
   "theorems": [
    "C88_points",
    "C88_flat",
    "C88_default",
    "C88_line"
   ],
   "note": "Exact real arithmetic; default quad for rational points."
  },
  {
   "property": "C89",
   "status": "proved",
   "theorems": [
    "C89_values",
    "C89_roughness"
   ],
   "note": "Exact real arithmetic."
  },
  {
   "property": "C90",
   "status": "proved",
   "theorems": [
    "C90_least"
   ],
   "note": "Points without weights. The norms and spsolve of scipy are parameters; spsolve is assumed to return solutions."
  },
  {
   "property": "C91",
   "status": "proved",
   "theorems": [
    "C91_error",
    "C91_largest_deviation_refuted"
   ],
   "note": "As C90. Refuted beyond: C91_largest_deviation_refuted."
  },
  {
   "property": "C92",
   "status": "proved",
   "theorems": [
    "C92_unique",
    "C92_constant",
    "C92_succeeds",
    "C92_default"
   ],
   "note": "As C90; for the existence spsolve is assumed to solve every regular system."
  },
  {
   "property": "C93",
   "status": "proved",
   "theorems": [
    "C93_nuv",
    "C93_shape",
    "C93_unknowns",
    "C93_unknowns_refuted"
   ],
   "note": "Exact real arithmetic. Refuted beyond: C93_unknowns_refuted."
  },
  {
   "property": "C94",
   "status": "proved",
   "theorems": [
    "C94_drawn"
   ],
   "note": "Exact rational arithmetic; check_displacment is a boolean parameter; that the call returns is assumed (as in C17 the angular insertion is a parameter)."
  },
  {
   "property": "C95",
   "status": "proved",
   "theorems": [
    "C95_planar"
   ],
   "note": "Exact rational arithmetic; check_displacment is a boolean parameter; that the call returns is assumed (as in C17 the angular insertion is a parameter)."
  },
  {
   "property": "C96",
   "status": "proved",
   "theorems": [
    "C96_chain",
    "C96_points",
    "C96_new"
   ],
   "note": "Exact rational arithmetic; check_displacment is a boolean parameter; that the call returns is assumed (as in C17 the angular insertion is a parameter)."
  },
  {
   "property": "C97",
   "status": "proved",
   "theorems": [
    "C97_again",
    "C97_free_refuted",
    "C97_gap_refuted",
    "C97_point_refuted"
   ],
   "note": "Exact rational arithmetic; check_displacment is a boolean parameter; that the call returns is assumed (as in C17 the angular insertion is a parameter). Refuted beyond: C97_free_refuted, C97_gap_refuted, C97_point_refuted."
  },
  {
   "property": "C98",
   "status": "proved",
   "theorems": [
    "C98_add_line"
   ],
   "note": "As C94 and C78: the drawing has a point and a segment; coordinates stay below 2.5e49."
  },
  {
   "property": "C99",
   "status": "proved",
   "theorems": [
    "C99_parts",
    "C99_segments",
    "C99_valid",
    "C99_crossing_refuted"
   ],
   "note": "Exact rational arithmetic. check_displacment refuses (with a possible move the attribute of the point would raise). That wires are inside of each other is read off the drawing (`steady`); that the call returns and that points of the result are the tolerance apart is assumed, except for C99_valid."
  },
  {
   "property": "C100",
   "status": "proved",
   "theorems": [
    "C100_polygons",
    "C100_sides"
   ],
   "note": "As C99."
  },
  {
   "property": "C101",
   "status": "proved",
   "theorems": [
    "C101_other",
    "C101_polygons",
    "C101_fill",
    "C101_value_refuted"
   ],
   "note": "As C99; C101_polygons and C101_fill need no distance of points. Refuted: every polygon gets a value. Not claimed: that the segments mapped to one of the other decomposition cover exactly its line (snapping can bend it)."
  },
  {
   "property": "C102",
   "status": "proved",
   "theorems": [
    "C102_next",
    "C102_later",
    "C102_values",
    "C102_again_refuted"
   ],
   "note": "As C99; the decompositions in the list are any states, the common one starts empty. Refuted: a list with one decomposition twice can raise."
  },
  {
   "property": "C103",
   "status": "proved",
   "theorems": [
    "C103_ways"
   ],
   "note": "As C99; the order of points has each point once. A walk can have parts of segments of the first decomposition. Not claimed: that the walk is straight (snapping can bend it)."
  },
  {
   "property": "C104",
   "status": "proved",
   "theorems": [
    "C104_wire",
    "C104_joined",
    "C104_tip_refuted",
    "C104_open_refuted"
   ],
   "note": "A wire of a decomposition made by calls can start at the tip of a dendrite; its list of segments raises (C104_tip_refuted). A way that is not closed gives a next side that starts elsewhere (C104_open_refuted). Box tables are left out."
  },
  {
   "property": "C105",
   "status": "proved",
   "theorems": [
    "C105_polygons",
    "C105_valid"
   ],
   "note": "Directions and roles of the ways are those of the listing: geometry is not looked at, neither by the code."
  },
  {
   "property": "C106",
   "status": "proved",
   "theorems": [
    "C106_parents",
    "C106_rest",
    "C106_orphan_refuted"
   ],
   "note": "The queue loop has a budget of turns; enough is size(next) * (wires + 1) + 1. C106_orphan_refuted: both sides of a square as outer wires."
  },
  {
   "property": "C107",
   "status": "proved",
   "theorems": [
    "C107_answer",
    "C107_clear",
    "C107_free_refuted",
    "C107_moving_refuted",
    "C107_pass_refuted"
   ],
   "note": "Sets are walked through in a fixed order, the answer does not depend on it. The loop over wires has a budget of turns; some number of turns is enough. The report is part of the answer. C107_free_refuted, C107_moving_refuted and C107_pass_refuted show what True does not promise."
  },
  {
   "property": "C108",
   "status": "proved",
   "theorems": [
    "C108_moved",
    "C108_twice_refuted"
   ],
   "note": "Boxes of the editor are not part of this (C25_move_refuted)."
  },
  {
   "property": "C109",
   "status": "proved",
   "theorems": [
    "C109_patches",
    "C109_boundary",
    "C109_domain_refuted"
   ],
   "note": "Parameters are reals, so equality with a knot is exact. C109_domain_refuted has a domain [0, 2]."
  },
  {
   "property": "C110",
   "status": "proved",
   "theorems": [
    "C110_threads",
    "C110_rational_refuted"
   ],
   "note": "C110_rational_refuted shows a surface with weights."
  },
  {
   "property": "C111",
   "status": "proved",
   "theorems": [
    "C111_result",
    "C111_jacobian",
    "C111_returns",
    "C111_flat",
    "C111_stale_refuted"
   ],
   "note": "numpy.linalg.solve is a parameter; only C111_returns and C111_flat ask that it solves regular systems. Reals for floats. C111_stale_refuted has conv set with a distance of four times abs_tol at the returned parameters."
  },
  {
   "property": "C112",
   "status": "proved",
   "theorems": [
    "C112_points",
    "C112_complete"
   ],
   "note": "The tree of boxes is a parameter that gives numbers of patches. The connection of the points (lines 173-676) is not modelled; get_intersection of the class never returns, since _free_point is called with an argument too few."
  },
  {
   "property": "C113",
   "status": "proved",
   "theorems": [
    "C113_piece",
    "C113_patch",
    "C113_candidates",
    "C113_crossing"
   ],
   "note": "The package bih is outside: AABB is modelled as the smallest box around points and find_box as the list of boxes that meet in three coordinates, touching included."
  },
  {
   "property": "C114",
   "status": "proved",
   "theorems": [
    "C114_points",
    "C114_surface"
   ],
   "note": "Reals for floats. Composed with the model of GridSurface (C36, C57)."
  },
  {
   "property": "C115",
   "status": "proved",
   "theorems": [
    "C115_gamma",
    "C115_flat",
    "C115_circle",
    "C115_skew"
   ],
   "note": "Reals for floats. Values kept in fields of a shape are not modelled (nodes of a shape do not change). Flat nodes on one circle fail the assertion: C115_circle."
  },
  {
   "property": "C116",
   "status": "proved",
   "theorems": [
    "C116_moved",
    "C116_heights",
    "C116_points"
   ],
   "note": "Reals for floats. Composed with the models of GridSurface and its transforms (C35, C36, C57) and of linear poles (C32)."
  },
  {
   "property": "C117",
   "status": "proved",
   "theorems": [
    "C117_delete",
    "C117_new",
    "C117_recorded_refuted"
   ],
   "note": "For new_segment under the stated condition on recorded polygons of free ends; C117_recorded_refuted shows that it is needed (a point given a wrong polygon by the caller). The kinds add/split and remove/join are not told apart."
  }
 ]
}