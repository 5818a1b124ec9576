{
 "claims": [
  {
   "property": "C01",
   "status": "proved",
   "theorems": [
    "C01_never_panics",
    "C01_none_iff_no_repeat",
    "C01_result_is_runs",
    "C01_runs_are_unique",
    "C01_no_repeat_around_the_end",
    "C01_repeat_left_around_the_end_refuted",
    "C01_only_repeats_removed_refuted",
    "C01_one_vertex_kept_refuted"
   ],
   "note": "structural, any numeric type; the clause 'no repeat around the end' needs transitive closeness and is refuted without it; 'only repeats removed' and 'one vertex kept' refuted"
  },
  {
   "property": "C02",
   "status": "proved",
   "theorems": [
    "C02_reverse_segments",
    "C02_reverse_twice"
   ],
   "note": "structural, any numeric type"
  },
  {
   "property": "C03",
   "status": "proved",
   "theorems": [
    "C03_none_iff",
    "C03_rotation"
   ],
   "note": "structural, any numeric type; that the two halves trace the segment is C12"
  },
  {
   "property": "C04",
   "status": "proved",
   "theorems": [
    "C04_next_prev_permutation",
    "C04_next_is_successor_mod",
    "C04_fwd_index_is_addition_mod",
    "C04_fwd_dist_is_unique_offset"
   ],
   "note": "all numeric types; debug_asserts are hypotheses"
  },
  {
   "property": "C05",
   "status": "proved",
   "theorems": [
    "C05_segments_enumerated",
    "C05_segment_iterator_history",
    "C05_segment_indexes_enumerated",
    "C05_segment_index_iterator_history",
    "C05_vertex_iterator_interleaving"
   ],
   "note": "all numeric types, all call histories"
  },
  {
   "property": "C06",
   "status": "proved",
   "theorems": [
    "C06_path_length",
    "C06_path_length_tolerance",
    "C06_path_length_invariant"
   ],
   "note": "path_length = sum of arc lengths (constant-speed parametrisation), over R. Segments whose end vertexes agree within 1e-8 in x, y and bulge are counted as 0 by the code: exact equality is for polylines without them, otherwise the error is bounded by 1e-7 per segment."
  },
  {
   "property": "C07",
   "status": "proved",
   "theorems": [
    "C07_area",
    "C07_integral_unique",
    "C07_area_open",
    "C07_area_invariant"
   ],
   "note": "Area equals half the Newton integral of x dy - y dx along lines and arcs, over R; invariances for every bulge that is 0 or at least 1e-8 in absolute value."
  },
  {
   "property": "C08",
   "status": "proved",
   "theorems": [
    "C08_orientation",
    "C08_orientation_flip"
   ],
   "note": ""
  },
  {
   "property": "C09",
   "status": "proved",
   "theorems": [
    "C09_extents"
   ],
   "note": "over the reals for |bulge|<=1"
  },
  {
   "property": "C10",
   "status": "proved",
   "theorems": [
    "C10_bounding_box",
    "C10_fast_bounding_box",
    "C10_fast_contains_exact"
   ],
   "note": "over the reals for |bulge|<=1"
  },
  {
   "property": "C11",
   "status": "proved",
   "theorems": [
    "C11_radius_and_center"
   ],
   "note": "over R"
  },
  {
   "property": "C12",
   "status": "proved",
   "theorems": [
    "C12_split_inside",
    "C12_split_ends"
   ],
   "note": "over R; the pieces are related to the original point by point. Arc ends within the position epsilon give the stated degenerate pieces."
  },
  {
   "property": "C13",
   "status": "proved",
   "theorems": [
    "C13_midpoint",
    "C13_tangent"
   ],
   "note": "over R"
  },
  {
   "property": "C14",
   "status": "proved",
   "theorems": [
    "C14_small",
    "C14_closest_point",
    "C14_opposite_refuted"
   ],
   "note": "holds with the code's absolute tolerances stated in SpecClosest; the query point must be within 1e100 of the path because the loop starts from the largest float; refuted without the grazing exclusion, see C14_opposite_refuted"
  },
  {
   "property": "C15",
   "status": "proved",
   "theorems": [
    "C15_no_loop",
    "C15_turns",
    "C15_turn_unique",
    "C15_reversal",
    "C15_start",
    "C15_translate",
    "C15_scale"
   ],
   "note": "over the reals, for polylines with documented bulges (0 or 1e-8 <= |b| <= 1, arcs with different ends) and points off the path; C15_start needs the result's bulges to be documented ones too"
  },
  {
   "property": "C16",
   "status": "proved",
   "theorems": [
    "C16_find_point",
    "C16_walk_unique",
    "C16_walk_not_past_end",
    "C16_not_positive",
    "C16_find_point_tolerance"
   ],
   "note": "exact over the reals for polylines without segments below the tolerance, within 1e-7 per passed segment otherwise; the empty polyline panics for L<=0, see C41_find_point_of_empty_refuted"
  },
  {
   "property": "C17",
   "status": "proved",
   "theorems": [
    "C17_flatten",
    "C17_single_vertex_refuted",
    "C17_negative_error_refuted"
   ],
   "note": "C17_flatten gives the whole result over the reals: pieces per segment, least number of chords within |e|, straight segments, failure only when 2^64-1 chords do not suffice. The single-vertex loss and the failures for e=0 and e=-3 (doubles) are stated as refuted theorems."
  },
  {
   "property": "C18",
   "status": "proved",
   "theorems": [
    "C18_normalize",
    "C18_delta_angle",
    "C18_delta_angle_signed",
    "C18_angle_is_between",
    "C18_angle_is_within_sweep"
   ],
   "note": "over R; angle_is_between excludes the two differences that are exactly 2*pi, where the code uses the turn 2*pi instead of 0."
  },
  {
   "property": "C19",
   "status": "proved",
   "theorems": [
    "C19_angle_of_bulge_of_angle",
    "C19_bulge_of_angle_of_bulge"
   ],
   "note": "over R"
  },
  {
   "property": "C20",
   "status": "proved",
   "theorems": [
    "C20_line_line_nonparallel",
    "C20_line_line_parallel",
    "C20_line_line_collinear",
    "C20_short_segments_refuted"
   ],
   "note": "Over R. Non-parallel case (|cross| >= eps) sound, unique and complete; parallel branch: kinds and ordered parameters; collinear segments: overlap exact, NoIntersect sound. C20_short_segments_refuted: the parallel test is not scaled by the lengths, so short perpendicular segments are reported with parameters 100 eps apart."
  },
  {
   "property": "C21",
   "status": "proved",
   "theorems": [
    "C21_line_circle",
    "C21_line_circle_near_vertical",
    "C21_line_circle_point",
    "C21_at_epsilon_refuted"
   ],
   "note": "Over R. Degenerate (point) and nearly vertical lines have their own theorems. C21_at_epsilon_refuted: at distance exactly r+eps the code uses the absolute value of a negative discriminant and reports two points off the circle."
  },
  {
   "property": "C22",
   "status": "proved",
   "theorems": [
    "C22_circle_circle",
    "C22_overlap",
    "C22_tangent_far_refuted"
   ],
   "note": "Over R, radii >= 0. C22_tangent_far_refuted: for nearly concentric circles the tangent point can be off by a third of the radius, so the error is not O(eps)."
  },
  {
   "property": "C23",
   "status": "proved",
   "theorems": [
    "C23_lines",
    "C23_collinear",
    "C23_line_arc",
    "C23_line_arc_found",
    "C23_arcs",
    "C23_arcs_found",
    "C23_same_circle",
    "C23_concentric",
    "C23_steep_overlap_refuted",
    "C23_arcs_order_refuted",
    "C23_small_arc_refuted",
    "C23_shallow_crossing_refuted",
    "C23_tangent_missed_refuted",
    "C23_opposite_arcs_refuted",
    "C23_large_arcs_refuted"
   ],
   "note": "Six cases over the reals: lines that are not parallel (exact common point), collinear lines (exact common part), a line and an arc in either order (points within eps resp. eps*(1+2/r), order, completeness away from segment ends), arcs of circles about different centres, arcs of one circle up to eps (5*eps; order and maximality of the overlap when the circles are equal), concentric arcs. Refuted: nearly parallel steep lines, order of the two points of arcs of different circles, arcs of tiny radius, crossings next to a line end, nearly tangent crossings, arcs of opposite direction ending at one point, arcs of huge radius."
  },
  {
   "property": "C24",
   "status": "proved",
   "theorems": [
    "C24_visits",
    "C24_as_basic",
    "C24_meeting_examined"
   ],
   "note": "For every number type, visitor and order of the spatial index. local_events is a list fixed by the polyline; pairs_ok says which other pairs are examined. Over the reals every pair of segments with a common point is examined."
  },
  {
   "property": "C25",
   "status": "proved",
   "theorems": [
    "C25_search",
    "C25_reported",
    "C25_meeting_examined"
   ],
   "note": "For every number type and order of the spatial index: the reported points and overlaps are those of pline_seg_intr for the examined pairs, less those at the end of a continued segment and those at the end of an overlap. Whether pline_seg_intr finds a point again from the following segment is a matter of C23."
  },
  {
   "property": "C26",
   "status": "proved",
   "theorems": [
    "C26_forward",
    "C26_inverted"
   ],
   "note": "Every Num T. Forward views equal the explicit list; inverted views are the reversed path. For a view on a single segment the end bulge must equal the start's, as documented and as every constructor produces."
  },
  {
   "property": "C27",
   "status": "proved",
   "theorems": [
    "C27_entire",
    "C27_new_start_closed",
    "C27_new_start_open"
   ],
   "note": "Entire view: every Num T. New start: over R, points exactly on the segment and either at a vertex or at least eps from it, segments longer than eps (so that the code's closeness tests are decisive)."
  },
  {
   "property": "C28",
   "status": "proved",
   "theorems": [
    "C28_slice",
    "C28_same_place_refuted"
   ],
   "note": "Over R, with the same decisiveness assumptions as C27. The clause 'nothing exactly when the slice collapses to a single position' is false (C28_same_place_refuted: both points given as the end of the same segment of a closed polyline yield the whole loop); the statement was narrowed accordingly."
  },
  {
   "property": "C29",
   "status": "proved",
   "theorems": [
    "C29_join",
    "C29_sort_and_join",
    "C29_slice_path",
    "C29_last_bulge_refuted",
    "C29_merged_view_refuted"
   ],
   "note": "The division into runs, the indexes of the slices and the merge hold for every number type; order and path over the reals. Two clauses are false and refuted: a run whose last overlap starts within an arc segment gets the bulge of that part for the whole arc (this reaches the boolean operations), and the view of a merged slice starts at the wrong vertex."
  },
  {
   "property": "C30",
   "status": "proved",
   "theorems": [
    "C30_invalid",
    "C30_whole",
    "C30_region"
   ],
   "note": "Rejection of invalid input, the table for loops that do not meet or are the same, and the region of the table, for every number type. Whether loops are found not to meet is C28."
  },
  {
   "property": "C31",
   "status": "proved",
   "theorems": [
    "C31_stitching",
    "C31_or_and_selector",
    "C31_not_xor_selector",
    "C31_follows"
   ],
   "note": "For every number type, spatial-index order and selector. A loop may have 2 vertices (3 before the closing one is dropped); a slice may begin up to twice epsilon from the end of the one before, since a repeated vertex may replace that end."
  },
  {
   "property": "C32",
   "status": "proved",
   "theorems": [
    "C32_kept",
    "C32_between",
    "C32_boolean",
    "C32_union_area_refuted"
   ],
   "note": "Which candidates are kept, their direction, the overlaps and the stitching are proved for every number type. That the candidates run between consecutive cut points (C32_between) is proved in real arithmetic, for cut points that are at or clearly away from vertexes and each other. C32_union_area_refuted shows a wrong union caused by a wrong overlap slice (C29_last_bulge_refuted)."
  },
  {
   "property": "C33",
   "status": "proved",
   "theorems": [
    "C33_raw_offsets",
    "C33_corner"
   ],
   "note": "Over the reals, for segments with |bulge|<=1 (zero or >=1e-8) whose ends differ."
  },
  {
   "property": "C34",
   "status": "proved",
   "theorems": [
    "C34_point",
    "C34_slices"
   ],
   "note": "Over the reals with |bulge|<=1 and any index reporting exactly the overlapping boxes; the offset is at least the tolerance. Tolerances of the closest point (C14) appear in far_enough; intersections with the input are as found by pline_seg_intr."
  },
  {
   "property": "C35",
   "status": "proved",
   "theorems": [
    "C35_stitching",
    "C35_near"
   ],
   "note": "For slices that refer to the raw polyline and start at most at the last index passed; that the slicing produces such slices is part of C36. Both the stored boxes and the query box are grown by the join epsilon, so ends join at up to twice the epsilon per coordinate (C35_near)."
  },
  {
   "property": "C36",
   "status": "proved",
   "theorems": [
    "C36_contract",
    "C36_contract_constructed",
    "C36_one_vertex_refuted",
    "C36_no_vertex_refuted",
    "C36_last_first_refuted",
    "C36_closed_refuted"
   ],
   "note": "Any number type. C36_one_vertex_refuted, C36_no_vertex_refuted, C36_last_first_refuted and C36_closed_refuted are float runs of the clauses that do not hold (a single slice is closed with the join epsilon; fuzzy equality is not transitive; the offset of a closed simple polygon can hold an open polyline)."
  },
  {
   "property": "C37",
   "status": "proved",
   "theorems": [
    "C37_partition",
    "C37_offset",
    "C37_passes",
    "C37_bounds",
    "C37_distance_refuted",
    "C37_never_panics_refuted",
    "C37_open_refuted"
   ],
   "note": "Partition, and the whole offset (offset_of_shape in SpecShape.v) for every number type; over R the point tested is far enough (C37_passes). Refuted: absence of panics (default options, C37_never_panics_refuted), distance from the inputs (two disjoint polygons, default options, C37_distance_refuted: only the middle of the first segment of a slice is tested), open polylines staying in their list (C37_open_refuted)."
  },
  {
   "property": "C38",
   "status": "proved",
   "theorems": [
    "C38_end_point_kept_refuted",
    "C38_never_panics_refuted",
    "C38_open",
    "C38_closed",
    "C38_few",
    "C38_two",
    "C38_one_place",
    "C38_one_more",
    "C38_exact_drop",
    "C38_straight",
    "C38_arcs",
    "C38_corner_kept_refuted",
    "C38_right_angle_refuted"
   ],
   "note": "C38_open and C38_closed give the result as vertexes dropped one at a time; C38_exact_drop, C38_straight, C38_arcs say over the reals that exact drops keep the drawn points and exactly redundant vertexes are found; small cases C38_few/two/one_place/one_more. False clauses of the first wording are refuted: end point lost after a repeated start, panic on a small closed triangle, corner lost at wrap-around, right angle of short segments dropped."
  },
  {
   "property": "C39",
   "status": "proved",
   "theorems": [
    "C39_additions_are_runs",
    "C39_additions_keep_no_repeat",
    "C39_create_from_remove_repeat_is_runs",
    "C39_repeat_left_around_the_end_refuted"
   ],
   "note": "structural, any numeric type; repeat around the end of a closed result refuted"
  },
  {
   "property": "C40",
   "status": "proved",
   "theorems": [
    "C40_scale_translate_pointwise",
    "C40_path_image"
   ],
   "note": "pointwise for any numeric type; image of the drawn path over the reals for every factor including zero and negative"
  },
  {
   "property": "C41",
   "status": "proved",
   "theorems": [
    "C41_accessors_total",
    "C41_last_of_empty_refuted",
    "C41_find_point_of_empty_refuted"
   ],
   "note": "structural; last() and find_point_at_path_length on the empty polyline refuted"
  },
  {
   "property": "C42",
   "status": "proved",
   "theorems": [
    "C42_null",
    "C42_init_null",
    "C42_get_vertex",
    "C42_set_vertex",
    "C42_remove",
    "C42_vertex_data",
    "C42_is_closed",
    "C42_out_of_range",
    "C42_lists",
    "C42_unknown_operation",
    "C42_panics",
    "C42_frames",
    "C42_huge_refuted"
   ],
   "note": "All cavc_* functions are modelled over a memory of handles. Panic to -1 is stated for every function whose body can panic in the model. Positive position theorems assume fewer than 2^32 vertexes; C42_huge_refuted shows the truncated count."
  },
  {
   "property": "C43",
   "status": "proved",
   "theorems": [
    "C43_ownership",
    "C43_pop",
    "C43_take",
    "C43_tidy",
    "C43_lost",
    "C43_list_free_refuted"
   ],
   "note": "Freeing a list does not free the polylines in it although lib.rs:1164 says so (C43_list_free_refuted); the statement was narrowed. C43_ownership: any history of allowed calls keeps memory and ownership in agreement and no allowed call reaches undefined behaviour."
  },
  {
   "property": "C44",
   "status": "proved",
   "theorems": [
    "C44_vertex",
    "C44_pline",
    "C44_point",
    "C44_view_data",
    "C44_boolean_slice",
    "C44_boolean_result",
    "C44_point_read",
    "C44_vertex_read",
    "C44_point_refuted",
    "C44_view_data_refuted"
   ],
   "note": "Formats: delimited, count-prefixed and bare token streams. The clause for formats storing tuple counts is false for points (C44_point_refuted, C44_view_data_refuted); the statement was narrowed."
  },
  {
   "property": "C45",
   "status": "proved",
   "theorems": [
    "C45_boolean",
    "C45_overlaps",
    "C45_self_touching_refuted"
   ],
   "note": "C45_self_touching_refuted: the exception is real; with a second polyline that touches itself all four operations panic."
  },
  {
   "property": "C46",
   "status": "proved",
   "theorems": [
    "C46_far",
    "C46_whole_refuted",
    "C46_between_refuted"
   ],
   "note": "Over R for the vertexes; the exception for the raw offset kept whole is real: C46_whole_refuted is a float run on a simple polygon with default options. Between the vertexes nothing is promised: C46_between_refuted is a float run where the middle of a result line is nearer than 0.87 of the offset."
  },
  {
   "property": "C47",
   "status": "proved",
   "theorems": [
    "C47_line_corner",
    "C47_line_straight",
    "C47_line_back",
    "C47_collapsed",
    "C47_line_arc",
    "C47_arc_line",
    "C47_arcs",
    "C47_line_arc_touch",
    "C47_arc_line_touch",
    "C47_arcs_touch",
    "C47_arcs_even",
    "C47_drawn",
    "C47_missed",
    "C47_same_circle",
    "C47_line_arc_apart",
    "C47_arc_line_apart",
    "C47_arcs_apart",
    "C47_first",
    "C47_short_refuted"
   ],
   "note": "Over R, one theorem per kind of corner. Not covered: tangent crossings and crossings within the tolerance of a segment end (arcs), arcs meeting at nearly equal distances from the corner. C47_short_refuted is a float run."
  },
  {
   "property": "C48",
   "status": "proved",
   "theorems": [
    "C48_raw_near"
   ],
   "note": "Lines only; corners must be clear. Corners with a smaller cross product are the subject of C47_short_refuted."
  },
  {
   "property": "C49",
   "status": "proved",
   "theorems": [
    "C49_cut",
    "C49_raw",
    "C49_dual",
    "C49_circle_line",
    "C49_circle_line_crossed",
    "C49_circle_arc",
    "C49_circle_arc_crossed",
    "C49_circle_examined",
    "C49_long_line_refuted",
    "C49_near_end_refuted"
   ],
   "note": "Cuts, order, stretches and kept slices for every numeric type and index order, tied to the whole of parallel_offset; circle cuts over the reals, sound and complete. Refuted: cuts on the first tolerance-th part of a long line are missed, so a result passes an end of the input at half the offset."
  },
  {
   "property": "C50",
   "status": "proved",
   "theorems": [
    "C50_straight",
    "C50_local",
    "C50_curve"
   ],
   "note": "Reals, |bulge|<=1 or line. The example derives that every curve out of a triangle meets it."
  },
  {
   "property": "C51",
   "status": "proved",
   "theorems": [
    "C51_region",
    "C51_times"
   ],
   "note": "Reals. The result is described by the sum of the winding numbers of all its loops; which loops are called positive or negative is not used. Assumes that the search reports no overlaps and all common points (clean_crossing), and that each loop winds around a point at most once (simple_loop). Example: two triangles evaluated over the reals."
  },
  {
   "property": "C52",
   "status": "proved",
   "theorems": [
    "C52_create",
    "C52_create_null",
    "C52_clone",
    "C52_reads",
    "C52_edits",
    "C52_offset_default",
    "C52_offset_options",
    "C52_boolean_default",
    "C52_boolean_options",
    "C52_index",
    "C52_index_extents",
    "C52_init",
    "C52_free",
    "C52_list_count"
   ],
   "note": "all proved; generic in the numeric type except the extents of an index"
  },
  {
   "property": "C53",
   "status": "proved",
   "theorems": [
    "C53_numbers",
    "C53_default",
    "C53_vectors",
    "C53_polylines"
   ],
   "note": "proved over the reals"
  },
  {
   "property": "C54",
   "status": "proved",
   "theorems": [
    "C54_pieces",
    "C54_near_raw",
    "C54_near"
   ],
   "note": "Over the reals, for every clean raw offset: segments of results are pieces of raw segments, every point is near the raw offset and, for polylines of lines, near the input. The clean hypothesis (cuts, vertexes and ends at or clearly away from each other) is needed because ends of very short slices may otherwise drift."
  },
  {
   "property": "C55",
   "status": "proved",
   "theorems": [
    "C55_line"
   ],
   "note": "Exact result over the reals of the whole function, for any correct spatial index, given or built."
  },
  {
   "property": "C56",
   "status": "proved",
   "theorems": [
    "C56_products",
    "C56_units",
    "C56_sums",
    "C56_rotate",
    "C56_points",
    "C56_angle",
    "C56_parametric",
    "C56_min_max",
    "C56_sides",
    "C56_sector",
    "C56_quadratic",
    "C56_both_zero_refuted",
    "C56_vertexes",
    "C56_bulges",
    "C56_defaults"
   ],
   "note": "Over the reals; sectors for points clearly away from both sides. For x^2 = 0 the second solution is NaN (C56_both_zero_refuted, evaluated in binary64)."
  },
  {
   "property": "C57",
   "status": "proved",
   "theorems": [
    "C57_slice",
    "C57_entire",
    "C57_new_start",
    "C57_valid_means",
    "C57_refusal_means",
    "C57_small_eps_refuted"
   ],
   "note": "Over the reals, with the assumptions of C27 and C28 and an epsilon of at least 1e-5 (the default); with a smaller one C57_small_eps_refuted gives a slice that is refused."
  },
  {
   "property": "C58",
   "status": "proved",
   "theorems": [
    "C58_at",
    "C58_last",
    "C58_insert",
    "C58_end",
    "C58_range"
   ],
   "note": "For every numeric type. Indexing an empty polyline from the end is a subtraction underflow as in a debug build."
  },
  {
   "property": "C59",
   "status": "proved",
   "theorems": [
    "C59_circle",
    "C59_gone"
   ],
   "note": "Exact results for circles of either sense and for circles that vanish; with handle_self_intersects off (on, the raw offset is cut by the dual as well)."
  },
  {
   "property": "C60",
   "status": "proved",
   "theorems": [
    "C60_uncut",
    "C60_polygon",
    "C60_nothing",
    "C60_rectangle"
   ],
   "note": "Whole-or-nothing for uncut raw offsets; exact results for polygons with met corners and for rectangles offset to the inner side, with handle_self_intersects off."
  },
  {
   "property": "C61",
   "status": "proved",
   "theorems": [
    "C61_repeated",
    "C61_origin",
    "C61_shapes",
    "C61_boolean",
    "C61_none_asked_refuted"
   ],
   "note": "Refuted part: with a count of 0 the polyline scene still shows one generation (C61_none_asked_refuted). Widgets and colours are outside the model."
  },
  {
   "property": "C62",
   "status": "proved",
   "theorems": [
    "C62_kept",
    "C62_unseen",
    "C62_ordered",
    "C62_closing_refuted",
    "C62_commands",
    "C62_path",
    "C62_drawn",
    "C62_bounds",
    "C62_shape_bounds",
    "C62_vertexes"
   ],
   "note": "Refuted part: an end event that closes a path can be left in a part that began elsewhere, so the closing line is lost (C62_closing_refuted). Coordinates are reals, not f32."
  },
  {
   "property": "C63",
   "status": "proved",
   "theorems": [
    "C63_relation",
    "C63_apart",
    "C63_search",
    "C63_region"
   ],
   "note": "Reals. Polygons are only asked to be clear in terms of their coordinates and to wind around a point at most once (simple_loop), which they do if their sides clearly do not meet (C65_polygon). For loops with arcs the absence of reported intersects is assumed here; C71 proves it for loops that clearly do not meet."
  },
  {
   "property": "C64",
   "status": "proved",
   "theorems": [
    "C64_winding"
   ],
   "note": "Fully proved for closed polylines of lines and arcs over the reals."
  },
  {
   "property": "C65",
   "status": "proved",
   "theorems": [
    "C65_area_sign",
    "C65_orientation",
    "C65_polygon"
   ],
   "note": "Over the reals; loops of lines and arcs up to half circles, each segment with distinct end points."
  },
  {
   "property": "C66",
   "status": "proved",
   "theorems": [
    "C66_region",
    "C66_polygons"
   ],
   "note": "Over the reals. Clean crossing as in C51 (no overlaps, crossings away from vertexes) and clear polygons as in C63; the assumption on winding numbers is replaced by passing no point twice."
  },
  {
   "property": "C67",
   "status": "proved",
   "theorems": [
    "C67_one_piece"
   ],
   "note": "Both directions; with C64 the Jordan curve theorem for polylines of lines and arcs."
  },
  {
   "property": "C68",
   "status": "proved",
   "theorems": [
    "C68_region",
    "C68_polygons",
    "C68_overlap"
   ],
   "note": "Over the reals. C68_region: loops of lines and arcs crossing cleanly (as in C51) whose insides overlap; C68_polygons: clear polygons with overlap and crossings derived; C68_overlap. Loops that only touch are not covered."
  },
  {
   "property": "C69",
   "status": "proved",
   "theorems": [
    "C69_inside",
    "C69_offset"
   ],
   "note": "Over the reals, either sense. The sides of the result correspond one to one to the sides of the input (no side vanishes); handle_self_intersects off."
  },
  {
   "property": "C70",
   "status": "proved",
   "theorems": [
    "C70_raw",
    "C70_corners",
    "C70_offset"
   ],
   "note": "Over the reals, either sense. Corners at least m off the lines of other sides and directions apart by m/e, with m large compared with the tolerance; handle_self_intersects off."
  },
  {
   "property": "C71",
   "status": "proved",
   "theorems": [
    "C71_segments",
    "C71_search",
    "C71_overlap",
    "C71_region",
    "C71_disc",
    "C71_circles"
   ],
   "note": "Over the reals. The assumptions are in terms of the input's coordinates, circles and common points (clear_loops, clear_circles); touching loops and overlaps along a segment are not covered here (C23, C32)."
  },
  {
   "property": "C72",
   "status": "proved",
   "theorems": [
    "C72_winding",
    "C72_nested",
    "C72_loops",
    "C72_areas",
    "C72_circle_area",
    "C72_circles"
   ],
   "note": "For the pairs of loops of C71 (clearly crossing or clearly apart, each passing no point twice); C72_winding and C72_nested for all valid loops of lines and arcs."
  },
  {
   "property": "C73",
   "status": "proved",
   "theorems": [
    "C73_apart",
    "C73_circles",
    "C73_plate"
   ],
   "note": "C73_apart for any numbers (the offsets of the inputs given by rss, no intersections reported by find_intersects); C73_circles and C73_plate over the reals for circles drawn as two half circles, in terms of centres and radii only. Inputs between the cases of has_fate (within the tolerances of the distance test) are not covered; offset loops that meet are the subject of C37."
  },
  {
   "property": "C74",
   "status": "proved",
   "theorems": [
    "C74_outward",
    "C74_inward"
   ],
   "note": "The outward offset of a convex polygon has length L + 2 pi e and area larger by e L + pi e^2; the inward offset, when it keeps all corners, has area smaller by e (L + L') / 2. For polygons in clear position, as in C69 and C70."
  },
  {
   "property": "C75",
   "status": "proved",
   "theorems": [
    "C75_same_line",
    "C75_same_arc",
    "C75_parted",
    "C75_boolean",
    "C75_inside",
    "C75_region",
    "C75_polygons",
    "C75_circles"
   ],
   "note": "C75_same_line and C75_same_arc: a segment against itself; C75_parted: no false overlaps; C75_boolean: the result; C75_inside, C75_region: it is the region of the operation; C75_polygons and C75_circles are instances without hypotheses on crossings."
  },
  {
   "property": "C76",
   "status": "proved",
   "theorems": [
    "C76_offset"
   ],
   "note": "C76_offset: the results are closed polygons along the raw offset that together wind once round exactly the points farther than the offset inside the polygon. Rests on a general argument (ProofTarget*.v): the slices of a crossing path that the distance test keeps, stitched, wind like the whole target."
  },
  {
   "property": "C77",
   "status": "proved",
   "theorems": [
    "C77_loops",
    "C77_circles"
   ],
   "note": "Over the reals, for loops each of which passes no point twice and whose segments clearly cross or clearly miss each other (clear_loops, as in C71), and for circles. Loops of an xor result may touch, but only where the two given loops cross."
  },
  {
   "property": "C78",
   "status": "proved",
   "theorems": [
    "C78_offset",
    "C78_path",
    "C78_handled"
   ],
   "note": "Proved over the reals for polygons of any shape and offsets to either side whose corners are clearly met or clearly rounded and whose raw offset path keeps the distance and clearly does not meet itself. With self-intersection handling the raw path to the other side must also clearly miss it. Examples: an L of six sides with one rounded corner; a square with self-intersection handling."
  },
  {
   "property": "C79",
   "status": "proved",
   "theorems": [
    "C79_loops",
    "C79_region"
   ],
   "note": "Proved over the reals for shapes with any number of polygons of any form whose raw offset paths keep the distance from all the polygons and clearly miss each other; the region theorem is for polygons side by side with holes side by side in them. Example: a square of side 12 with an L of six sides as its hole, offset outwards with rounded corners."
  },
  {
   "property": "C80",
   "status": "proved",
   "theorems": [
    "C80_open",
    "C80_raw"
   ],
   "note": "Open polylines of lines (two or more). The hypotheses name the raw path and ask that it clearly does not meet itself, the raw path on the other side or the polyline, that it keeps the distance, and that only its first and last segments touch the circles about the ends. Polylines whose raw offset has to be cut elsewhere are covered by C49 and C54."
  },
  {
   "property": "C81",
   "status": "proved",
   "theorems": [
    "C81_nothing",
    "C81_near",
    "C81_rectangle"
   ],
   "note": "C81_nothing for any numbers and any polyline: no piece is kept if every cut and end of the raw offset fails the distance test. C81_near with distances in the plane. C81_rectangle: rectangles offset inwards by more than half of their width or height; C81_example beside it."
  },
  {
   "property": "C82",
   "status": "proved",
   "theorems": [
    "C82_convex"
   ],
   "note": "C82_convex for convex polygons of either sense, both results and the offset by the sum; C82_example is a triangle."
  },
  {
   "property": "C83",
   "status": "proved",
   "theorems": [
    "C83_moved",
    "C83_winding",
    "C83_closest",
    "C83_extents",
    "C83_intersection",
    "C83_find_intersects",
    "C83_raw_offset",
    "C83_offset",
    "C83_offset_list",
    "C83_list_index"
   ],
   "note": "C83_winding, C83_closest, C83_extents, C83_intersection, C83_find_intersects, C83_raw_offset and C83_offset are equations for every polyline; C83_offset_list needs no hypothesis; C83_example is a triangle."
  },
  {
   "property": "C84",
   "status": "proved",
   "theorems": [
    "C84_measures",
    "C84_overlapping_slices",
    "C84_boolean",
    "C84_boolean_list"
   ],
   "note": "C84_measures, C84_overlapping_slices and C84_boolean are equations for every pair of polylines; C84_boolean_list needs no hypothesis; C84_example moves two crossing polygons."
  },
  {
   "property": "C85",
   "status": "proved",
   "theorems": [
    "C85_from_plines",
    "C85_offset",
    "C85_list"
   ],
   "note": "C85_from_plines and C85_offset hold for every list of polylines and every shape; C85_list needs no hypothesis; C85_example moves a square with a hole."
  },
  {
   "property": "C86",
   "status": "proved",
   "theorems": [
    "C86_remove_repeat",
    "C86_remove_redundant",
    "C86_rotate_start",
    "C86_arcs_to_approx_lines",
    "C86_invert_direction",
    "C86_find_point",
    "C86_self_intersects"
   ],
   "note": "Seven equations, each for every polyline; C86_example removes a repeated vertex and walks along a path with an arc."
  }
 ]
}