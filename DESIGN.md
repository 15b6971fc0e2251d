# Formal model of bgem (GeoMop/PyBS): design

Source modelled: `/repo/src/bgem` at the pinned commit, read as text. Nothing
was executed. Proof assistant: Rocq / Coq 8.16.1, files in `rocq/theories`,
logical name `Verif`.

## 1. How the model is written

* One family of files per source module: `<Mod>_Model.v` (definitions only, each
  with a comment citing file and lines), `<Mod>_Spec.v` where an independent
  specification is needed, `<Mod>_Proofs.v` (lemmas), `<Mod>_Props.v` (property
  theorems, `Print Assumptions`, and an `Example`
  showing a concrete non-trivial case meets the hypotheses).
* Python exceptions are values (`Raise e`), never totalised away. Loops that the
  code runs on a condition use fuel; running out of fuel is its own outcome and
  is excluded by theorem.
* Objects with identity are ids in finite maps.
* Numbers. Integers are `Z`/`nat`. Coordinates in the polygon, lookup and
  mesh modules are rationals `Q` (every finite double is a rational; the model
  does exact arithmetic, rounding is NOT modelled). The B-spline modules use
  the reals `R` of the standard library (axioms listed per theorem) because
  derivatives are involved. Euclidean norms are compared through squares.
* When a statement is false of the code, the faithful model is kept and the
  negation is proved (`..._refuted`), together with the strongest true variant.

## 2. Plan per property

| id | model | proof |
|----|-------|-------|
| C01-C06 | `Undo_*`: stack with undo/redo deques, receiver (main stack, group list, paused list, none), savepoint; actions are pairs of partial document transformers | refinement to a document history with a cursor, induction on operation lists; C05/C06 refuted in general, true variants proved |
| C07-C08 | `IdMap_*`: dict + free list + next id | invariant (live and free ids partition `0..next`) by induction on histories; C08 simulation |
| C09-C12 | `Aabb_*`: table of boxes with sentinel rows, growth by doubling, queries | invariant table = live boxes; C10 by norm inequalities; C11 refuted when all boxes are removed, proved otherwise |
| C13-C16 | `Geom_*`: projection, intersection, ray crossing, parity | algebra over Q; parity by induction on closed walks |
| C17-C24 | `Decomp_*`: half-edge structure with points, segments, wires, polygons as finite maps, error monad | invariant (closed walks, exact incidence, tree of wires, index of points) preserved by each public operation, whatever the geometric tests answer; counting invariant for C20; C23, C24 refuted plus true variants |
| C25-C26 | `Editor_*`: lookups and undoable primitives on top of `Decomp` | invariant of histories with undo; effect of undo per primitive; refutations by concrete histories |
| C81-C84 | `Tree_*`: depth, vertices, childs, neighbours, read from the structure of `Decomp`; marks of child_wires are a set, order of set walks a parameter | invariant of `Decomp`; induction on the height in the tree of wires; docstrings refuted |
| C76-C80 | `Snap_*`: snapping of places, add_point with its split of segments; point-in-polygon answers and square root are parameters | box queries of C09-C12 cover all near objects; projection is nearest (algebra over Q); grown state again satisfies the hypotheses |
| C27-C34 | `Spline_*`: knots, Cox-de Boor recursion, curves, surfaces | induction on degree; real analysis (Coquelicot) for C31 |
| C35-C38, C56-C58 | `ZSurf_*`: Z-surfaces as a heap of objects with bound methods, affine maps, transforms, copies, grids | invariant relating each object to its history; refutations for C36-C38 and C56, true variants |
| C39, C59 | `Approx_*`: constructors of lines, planes, bilinear surfaces; BREP records of splines | one Bezier piece reproduces affine functions; overhang formula; refutations |
| C85-C87 | `Hull_*`, `Rect_*`, `Quad_*`: convex hull over Q, bounding rectangle over R, default quad | supporting lines at both ends of the recursion; turning a frame until an edge is flush, area does not grow; refutations |
| C88-C93 | `Fit_*`: SurfaceApprox over R, sparse matrices as lists of entries, scipy.sparse.linalg as parameters; integrals are those of Coquelicot | rows of the matrix are values of the basis; the quadrature is exact up to degree 5; normal equations and gap of the cost; zero roughness means constant; refutations |
| C94-C98 | `Line_*`: add_line and its helpers on the editor state; recursion with a budget, the order of a Python set is a parameter | the cuts and the new segments as lists of effects, every segment afterwards is a part of an old one or a piece of the line; refutations |
| C99-C103 | `Merge_*`, `MergeWay_*`: intersect_single and intersect_decompositions on the editor state; dictionaries as lists of pairs in order of insertion, loops with a budget | each step as a list of effects on segments and polygons with the map beside it; a measure for the filling loop; composition of maps; refutations |
| C104-C106 | `Build_*`: make_wire_from_segments, make_polygon, set_wire_parents (759-850) on the state of `Decomp_Model`; the queue loop with a budget | the exact effect of a wire; an invariant with the list of wires made so far; reachability through wires without parent, a measure for the queue; refutations |
| C107-C108 | `Shift_*`: check_displacment, move_points (190-255) on the state of `Decomp_Model`; the list of wires that grows has a budget; rationals for floats | depth of the tree of wires bounds the loop, the wires found are those below; exact answer of the crossing test; induction on moves; refutations |
| C109-C112 | `Isec_*`: SurfacePoint, _main_curves, get_intersection of a curve and a patch, get_intersections of two surfaces on curves and surfaces of `Spline_Model`; reals for floats, solver of linear systems and tree of boxes are parameters | splines on closed intervals, derivatives of them; invariant of the loop of Newton's method; invariant of marks in nested loops; refutations |
| C113 | `Ibox_*`: bounding_boxes of curves and surfaces, candidates of a piece; the tree of the package bih is replaced by the list of boxes that meet | convex combinations in windows of three functions; composed with C111_flat and C112_complete |
| C114 | `Fgrid_*`: make_function_grid, on GridSurface of `ZSurf_Model` | places of a flattened grid; bilinear cells reproduce bilinear functions; composed with C35, C36, C57 |
| C115 | `Tet_*`: edge_lens, face_areas, measure, gmsh_gamma, skew_line_dist of Tetrahedron | the centre of the outer sphere as a vector K over the volume, the product of the code is 4 K.K; inner sphere with weights of face areas; medians against altitudes; foot of a point over a plane |
| C116 | `Gapprox_*`: approx_from_grid_surface, on GridSurface of `ZSurf_Model` | linear poles of degree 1 are the knots; places of a mesh; composed with C35, C36, C57 |
| C117 | `Report_*`: get_last_polygon_changes, on `Decomp_Model` | from C21 and the effects of each operation; the polygon of a changed shape |
| C40-C42, C60 | `Brep_*`: shape graph as a heap, histories of calls, numbering, records of the file, default geometry, closed flag | sequential reader and tree as specification; invariant of the numbering relative to a region; progress from `ready`; refutations |
| C43-C44 | `MshIO_*`: text of the file, lines, columns, reader with its modes, element data blocks | one step of the reader per line; dictionaries up to key order; float printing is a parameter with the law parse(print x)=x; refutations |
| C45-C51, C61-C63 | `Heal_*`: mesh as finite maps, edits, healing loop with geometric answers and orders of set walks as parameters; measures and shape indicators | invariant kept by every call, also by failing ones; well-founded measure for C47; exact effect of a merge; C45, C48, C49, C51, C61-C63 refuted in general with true variants |
| C52-C54, C64-C69, C73-C75 | `Gmsh_*`: regions and object sets as heaps, physical groups, synchronization flag; the geometry kernel is a parameter whose answers may depend on the number of calls before | invariant and order of states kept by every call, also by failing ones; list algebra; C54, C65, C69, C73 refuted in general with true variants |
| C55, C70-C72 | `Field_*`: settings of fields and options; the value of a field is specified after the docstrings | induction on the number of fields; C55 and enumerations in C72 refuted |

Every property of the list can be expressed. Partial results are named
`_partial` and explained in section 4.

## 3. Tests against wrong programs

`seeded/LOG.jsonl` has one line per edit of a definition, made in a scratch
copy. `theorems_failed` lists the property theorems that depend on a proof
script that no longer goes through after the edit, and the examples that fail.
This is weaker than showing that the statement became false: a script can break
although the statement is still provable. Where that was checked by adapting
the script, the line says so in `theorems_tightened`.

## 4. Partial results

| id | proved | missing, and why |
|----|--------|------------------|
| C02 | a group of calls is one step of undo and of redo | false for a group inside a group: the inner group replaces the receiver of the outer one (`C02_nested_group_refuted`) |
| C03 | a failing call outside a group records nothing; a failing undo clears the stack; recording goes on | false inside a group: the recorder of the group stays active (`C03_exception_in_group_refuted`) |
| C04 | a recorded call discards redo, undo and redo move one entry | false while recording is off, and undo/redo switch recording on (`C04_stale_redo_refuted`, `C04_undo_reenables_recording_refuted`) |
| C05 | haschanged is right unless an undo passed the savepoint and new actions followed | false there (`C05_haschanged_refuted`) |
| C06 | redocount is right if both deques are equally long | false else: it reads the undo deque (`C06_redocount_refuted`) |
| C11 | a query answers live ids while some object is live | false after all objects are removed (`C11_only_live_ids_refuted`) |

In all six the missing part is false of the code, so the status stays partial.
Claims with status proved may carry `_refuted` theorems as well; their English
statement in `properties.jsonl` then says where the property stops to hold.

## 5. Trusted base

* The kernel of Coq 8.16.1 with the virtual machine (`vm_compute` in examples
  and in witnesses of refutations). No plugin, no extraction, no kernel check
  switched off, no axiom of our own.
* The reading of the source: that the definitions of `*_Model.v` say what the
  cited lines do. Python and numpy semantics (dict order, set walks, slicing,
  broadcasting) are part of that reading. Where the order of a walk over a set
  matters it is a parameter of the model.
* Exact numbers: floats are rationals or reals, rounding, overflow and nan are
  not modelled. Constants such as 1e-10 are kept.
* Parameters standing for calls outside of the source: the geometry kernel of
  gmsh, float printing, `np.angle` order of vectors and `contains_point` in the
  planar decomposition, square root in snapping. Theorems hold for all values
  of a parameter, subject to the hypotheses written in the theorem.

`Print Assumptions` gives for each theorem one of four answers:

* **0**: closed under the global context.
* **R**: `ClassicalDedekindReals.sig_forall_dec`,
  `FunctionalExtensionality.functional_extensionality_dep` (standard library, Reals).
* **R+**: as R and `ClassicalDedekindReals.sig_not_dec` (standard library, Reals).
* **RC**: as R+ and `Classical_Prop.classic` (standard library, used by its trigonometry).

| theorem | assumptions |
|---|---|
| `C01_stack_refines_history`, `C01_undo_redo_identity`, `C01_undo_all_restores` | 0 |
| `C02_group_is_one_step`, `C02_nested_group_refuted` | 0 |
| `C03_failed_call_records_nothing`, `C03_raising_undo_clears`, `C03_recording_continues`, `C03_exception_in_group_refuted` | 0 |
| `C04_new_action_discards_redo`, `C04_undo_moves_one_entry`, `C04_redo_moves_one_entry`, `C04_stale_redo_refuted`, `C04_undo_reenables_recording_refuted` | 0 |
| `C05_haschanged_refuted`, `C05_haschanged_partial` | 0 |
| `C06_redocount_refuted`, `C06_redocount_partial` | 0 |
| `C07_history_legal` | 0 |
| `C08_allocation_undone_by_reversed_removal`, `C08_ids_bounded_by_peak`, `C08_other_order_differs` | 0 |
| `C09_histories_never_diverge`, `C09_intersect_candidates_exact`, `C09_zero_size_refuted` | 0 |
| `C10_closest_never_missed`, `C10_degenerate_box_refuted` | 0 |
| `C10_sqrt_test_faithful` | R+ |
| `C11_only_live_ids_refuted`, `C11_only_live_ids_partial` | 0 |
| `C12_make_aabb_smallest` | 0 |
| `C13_projection_is_nearest`, `C13_projection_defined` | 0 |
| `C14_intersection_sound`, `C14_intersection_complete`, `C14_parallel_none` | 0 |
| `C15_ray_crossing`, `C15_orientation_independent`, `C15_on_segment` | 0 |
| `C16_outside_bounding_box`, `C16_dendrites_ignored`, `C16_orientation_ignored`, `C16_constant_off_wire`, `C16_convex_polygon`, `C16_on_wire_orientation_refuted` | 0 |
| `C17_half_edges`, `C17_wires` | 0 |
| `C18_segments`, `C18_free` | 0 |
| `C19_same`, `C19_unique`, `C19_index`, `C19_join_refuted` | 0 |
| `C20_euler` | 0 |
| `C21_new`, `C21_delete` | 0 |
| `C22_delete`, `C22_join`, `C22_join_refuted` | 0 |
| `C23_consistent`, `C23_whole`, `C23_refuted`, `C23_join_refuted` | 0 |
| `C24_vector`, `C24_join_refuted` | 0 |
| `C25_covered`, `C25_found`, `C25_found_near`, `C25_alive`, `C25_join_refuted`, `C25_move_refuted`, `C25_rm_point_refuted` | 0 |
| `C26_add_point`, `C26_rm_point`, `C26_add_segment`, `C26_rm_segment`, `C26_split`, `C26_join`, `C26_existing_refuted`, `C26_split_refuted`, `C26_merge_refuted` | 0 |
| `C27_pack_round_trip`, `C27_unpack_round_trip` | R |
| `C28_find_knot_interval`, `C28_below_domain_raises`, `C28_make_equidistant`, `C28_check_clamps` | R |
| `C29_nonnegative`, `C29_local_support`, `C29_partition_of_unity`, `C29_eval_vector` | R |
| `C30_fast_values`, `C30_fast_derivatives`, `C30_empty_last_interval_refuted` | R |
| `C31_two_sided`, `C31_right_derivative`, `C31_left_derivative_at_end`, `C31_derivatives_sum_to_zero`, `C31_full_multiplicity_refuted` | R |
| `C32_linear_poles`, `C32_identity_refuted` | R |
| `C33_curve_in_aabb`, `C33_rational_curve_in_aabb`, `C33_aabb_attained_by_poles`, `C33_surface_aabb_attained_by_poles`, `C33_curve_ends`, `C33_curve_affine_invariant`, `C33_surface_in_aabb`, `C33_surface_corners`, `C33_first_pole_refuted` | R |
| `C34_patch_numbering` | 0 |
| `C35_maps_inverse`, `C35_constructor`, `C35_transform`, `C35_transform_succeeds` | R |
| `C36_height_difference`, `C36_agrees_unscaled`, `C36_nodes`, `C36_scaled_refuted` | R+ |
| `C37_contains`, `C37_negative_scale_refuted` | R |
| `C38_copy_does_not_affect_original`, `C38_height_independent`, `C38_after_own_transform`, `C38_copy_follows_original`, `C38_refuted` | R |
| `C39_line`, `C39_plane`, `C39_bilinear_overhang`, `C39_bilinear`, `C39_bilinear_overhang_refuted`, `C39_integer_overhang_refuted`, `C39_negative_overhang_refuted`, `C39_brep_line`, `C39_brep_bilinear`, `C39_brep_plane`, `C39_brep_uv_of_points`, `C39_brep_plane_twice_refuted` | R |
| `C40_readback`, `C40_effect`, `C40_each_once`, `C40_succeeds`, `C40_first_write`, `C40_identity_power_refuted` | 0 |
| `C41_second_write_empty`, `C41_same_file_refuted`, `C41_repr_refuted`, `C41_shared_refuted`, `C41_disjoint_models` | 0 |
| `C42_wire_closed`, `C42_face_closed`, `C42_append_refuted` | 0 |
| `C43_read_written`, `C43_round_trip`, `C43_names`, `C43_refuted` | 0 |
| `C44_round_trip`, `C44_unreadable`, `C44_written` | 0 |
| `C45_index`, `C45_element_ids`, `C45_node_ids`, `C45_refuted` | 0 |
| `C46_merge`, `C46_no_repeated`, `C46_raises` | 0 |
| `C47_terminates` | 0 |
| `C48_checked`, `C48_refuted` | 0 |
| `C49_histogram`, `C49_refuted` | 0 |
| `C50_edge`, `C50_face` | 0 |
| `C50_triangle` | R+ |
| `C51_ids`, `C51_same_for_all_coordinates`, `C51_refuted` | 0 |
| `C52_group`, `C52_split_region`, `C52_split_region_raises`, `C52_split_dimension`, `C52_split_dimension_raises` | 0 |
| `C53_fragment`, `C53_twice` | 0 |
| `C54_groups`, `C54_distinct`, `C54_raises`, `C54_refuted` | 0 |
| `C55_constant`, `C55_lower`, `C55_ramp`, `C55_refuted` | 0 |
| `C56_full_surface`, `C56_same_surface`, `C56_shifted_refuted` | R |
| `C57_lattice_accepted` | R+ |
| `C58_nearly_regular` | R+ |
| `C59_curve_record`, `C59_surface_record` | R |
| `C60_default_geometry` | 0 |
| `C61_lines`, `C61_refuted` | 0 |
| `C62_difference` | R |
| `C62_refuted` | R+ |
| `C63_triangle`, `C63_tetrahedron`, `C63_refuted` | R+ |
| `C64_consistent`, `C64_history` | 0 |
| `C65_rectangle`, `C65_refuted` | 0 |
| `C66_inherit` | 0 |
| `C67_split_by_cut`, `C67_tools` | 0 |
| `C68_select` | 0 |
| `C69_synchronized`, `C69_eliminate`, `C69_polygon_refuted`, `C69_fragment_refuted` | 0 |
| `C70_box`, `C70_constant`, `C70_min`, `C70_max`, `C70_others` | 0 |
| `C71_restrict`, `C71_boundary` | 0 |
| `C72_assign`, `C72_prefix`, `C72_enum_refuted` | 0 |
| `C73_same_region`, `C73_refuted`, `C73_ids` | 0 |
| `C74_boundary` | 0 |
| `C75_small_mass` | 0 |
| `C76_point`, `C76_nearest_refuted`, `C76_dead_refuted`, `C76_segment_gone_refuted` | 0 |
| `C77_one`, `C77_several`, `C77_polygon` | 0 |
| `C78_near`, `C78_split`, `C78_two_refuted` | 0 |
| `C79_again` | 0 |
| `C80_apart`, `C80_apart_refuted` | 0 |
| `C81_depth`, `C81_number`, `C81_docstring_refuted` | 0 |
| `C82_vertices`, `C82_root` | 0 |
| `C83_childs`, `C83_all`, `C83_wires`, `C83_again` | 0 |
| `C84_neighbors`, `C84_docstring_refuted` | 0 |
| `C85_hull`, `C85_vertical`, `C85_vertical_refuted` | 0 |
| `C86_least`, `C86_contains`, `C86_smallest`, `C86_one_refuted` | RC |
| `C87_quad`, `C87_vertical`, `C87_vertical_refuted` | RC |
| `C88_points`, `C88_flat` | R |
| `C88_default`, `C88_line` | RC |
| `C89_values` | R |
| `C89_roughness` | RC |
| `C90_least` | RC |
| `C91_error`, `C91_largest_deviation_refuted` | R+ |
| `C92_unique`, `C92_default` | RC |
| `C92_constant`, `C92_succeeds` | R+ |
| `C93_nuv`, `C93_shape`, `C93_unknowns`, `C93_unknowns_refuted` | R+ |
| `C94_drawn` | 0 |
| `C95_planar` | 0 |
| `C96_chain`, `C96_points`, `C96_new` | 0 |
| `C97_again`, `C97_free_refuted`, `C97_gap_refuted`, `C97_point_refuted` | 0 |
| `C98_add_line` | 0 |
| `C99_parts`, `C99_segments`, `C99_valid`, `C99_crossing_refuted` | 0 |
| `C100_polygons`, `C100_sides` | 0 |
| `C101_other`, `C101_polygons`, `C101_fill`, `C101_value_refuted` | 0 |
| `C102_next`, `C102_later`, `C102_values`, `C102_again_refuted` | 0 |
| `C103_ways` | 0 |
| `C104_wire`, `C104_joined`, `C104_tip_refuted`, `C104_open_refuted` | 0 |
| `C105_polygons`, `C105_valid` | 0 |
| `C106_parents`, `C106_rest`, `C106_orphan_refuted` | 0 |
| `C107_answer`, `C107_clear`, `C107_free_refuted`, `C107_moving_refuted`, `C107_pass_refuted` | 0 |
| `C108_moved`, `C108_twice_refuted` | 0 |
| `C109_patches`, `C109_boundary`, `C109_domain_refuted` | R |
| `C110_threads`, `C110_rational_refuted` | R |
| `C111_result`, `C111_returns`, `C111_flat`, `C111_stale_refuted` | R+ |
| `C111_jacobian` | R |
| `C112_points`, `C112_complete` | R+ |
| `C113_piece`, `C113_patch`, `C113_candidates` | R |
| `C113_crossing` | R+ |
| `C114_points` | R |
| `C114_surface` | R+ |
| `C115_gamma`, `C115_flat`, `C115_circle`, `C115_skew` | R+ |
| `C116_moved`, `C116_heights`, `C116_points` | R+ |
| `C117_delete`, `C117_new`, `C117_recorded_refuted` | 0 |

## 6. What is modelled

| file | modelled | not modelled |
|------|----------|--------------|
| undo.py | all | |
| polygons/idmap.py, aabb_lookup.py | all | hash |
| polygons/point.py, segment.py, polygon.py | all that changes or reads the structure, ray crossing, parity | reprs; `is_outer_polygon`, printing |
| polygons/decomp.py | all operations | `__repr__`, `__eq__`, `check_consistency` |
| polygons/polygons.py | primitives with undo, box tables, snapping, add_point, merge_points, add_line, make_wire_from_segments, make_polygon, set_wire_parents, check_displacment, move_points | the boxes that make_segment fills (the answer of `check_displacment` is a parameter of merge_points) |
| polygons/merge.py, plot_polygons.py | intersect_single, intersect_decompositions (merge.py 42-206) | `deep_copy` (asserts False), plot_polygons.py |
| bspline/bspline.py | knots, basis functions and derivatives, curves, surfaces, Z-surfaces, grid surfaces | the tree of the package bih, `deep_copy`, `Z_Surface.eval`, `GridSurface.load`; array versions only point by point |
| bspline/bspline_approx.py | line, plane, bilinear constructors, convex hull, bounding rectangle, default quad, points in the quad, default nuv, both matrices, `compute_approximation` without weights (norms and `spsolve` are parameters) | `surface_from_grid`, `curve_from_grid` (scipy), weights in `compute_approximation`, `approx_from_file` |
| bspline/brep_writer.py | shapes, transforms, numbering, file records | `check_matrix` error texts |
| bspline/isec_*.py, curve_point.py, surface_point.py | SurfacePoint, IsecPoint, `_main_curves`, `_compute_jacobian_and_coordinates`, `get_intersection` of a curve and a patch, `get_intersections` of two surfaces, `_already_found` | CurvePoint (its constructor calls a method that is missing), IsecCurveSurf.get_intersections (reads a field that is missing), connection of points to curves |
| bspline/bspline_plot.py | | plotting |
| gmsh/gmsh.py | all | calls into the gmsh library are a parameter |
| gmsh/gmsh_io.py | text reader and writer | `write_binary` |
| gmsh/heal_mesh.py | mesh edits, healing loop, measures, indicators | `common_normal` (svd) |
| gmsh/field.py, options.py | fields, options | the tables of defaults |

A function is modelled if a comment of a definition in `*_Model.v` cites its
lines. Simplifications are written there.

## 7. Defects found in the code

Each is either shown by a theorem (named) or was met while reading.

* undo.py: nested groups and exceptions in groups lose the recorder (C02, C03);
  undo switches recording on (C04); `haschanged` (C05); `redocount` returns the
  length of the undo deque (C06).
* aabb_lookup.py: after all objects are removed a closest query answers dead ids (C11); snapping then raises (`C76_dead_refuted`, `C76_segment_gone_refuted`).
* decomp.py: `_split_wire` can make a wire its own parent or leave a hole with a
  wrong parent (C23); `join_segments` leaves a stale vector (C24), the wrong side
  in `wire.segment` (`C23_join...`), and does not look for an existing segment
  (C19); `split_segment` does not set `last_polygon_change`;
  `check_consistency` uses a stale variable (line 127) and a comparison
  without assert (line 115); `__eq__` compares counts only (92-95);
  `child_wires` reads an attribute that is not set in the constructor (polygon.py 222);
  `Polygon.depth` counts wires, twice the number promised (C81); `neighbors` also
  answers wires of another depth (C84); `child_polygons` yields the polygon twice.
* polygons.py: `add_line` runs over points that end no segment, can leave a gap between two close crossings, and returns
  a point where a list is documented (C97).
* merge.py: polygons inside of or apart from a polygon of the other decomposition get no value (C101); merging a decomposition
  again after it was cut raises (C102); two crossings of the first decomposition at one place lose a part (C99).
* polygons.py: `_join_segments` and `move_points` leave boxes behind, `_rm_point`
  deletes the box before the check (C25); undo of adding an existing segment
  deletes it, undo of merge_points connects wrong points, undo of a split leaves
  the vector (C26); snapping takes the first, not the nearest point
  (`C76_nearest_refuted`); with two close segments add_point can answer a point
  80 tolerances away (`C78_two_refuted`); the `make_*` functions (759-850) fill
  only the segment lookup, refuse a wire that starts at the tip of a dendrite and accept
  ways that are not closed (C104).
* bspline_approx.py: the hull of points on a vertical line is one point, and so is
  the default quad (C85, C87); the docstring of `dome` says right, the code takes the
  left side; `error` is the largest signed difference, not the largest deviation (C91);
  the exception for too few points is unreachable (C93).
* bspline, brep_writer, gmsh_io, heal_mesh, gmsh, field: see the theorems named
  `_refuted` in the table above and the notes in `MANIFEST.json`.
