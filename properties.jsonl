{"id": "C01", "title": "Repeat-position removal is exact", "statement": "remove_repeat_pos(eps) returns nothing exactly when no vertex repeats the position of its predecessor (and, on a closed polyline, the last does not repeat the first); otherwise the returned polyline has the same closedness, its vertices are a subsequence of the input positions starting with the first vertex, each kept position carries the bulge of the last vertex of its run, and no two neighbouring result vertices (cyclically when closed) are within eps of each other.", "quantifier": "all vertex lists of any length, open and closed, all epsilons, any numeric type", "why_tests_cant": "closeness is not transitive, so whether the single end-of-list check suffices depends on chains of nearly equal points of unbounded length that a fixed set of tests does not contain", "anchors": [{"file": "cavalier_contours/src/polyline/traits.rs", "symbols": ["PlineSource::remove_repeat_pos"]}]}
{"id": "C02", "title": "Reversing direction reverses the path", "statement": "invert_direction_mut turns the list of segments into the reversed list of segments with swapped end points and negated bulges; applied twice it restores a closed polyline exactly and an open polyline up to the bulge stored on its last vertex (which starts no segment); vertex count, closedness and the set of positions do not change.", "quantifier": "all polylines of any length, open and closed, any numeric type with involutive negation", "why_tests_cant": "the in-place swap and shifted bulge loop is index arithmetic over arbitrary lengths; tests use a few small polylines", "anchors": [{"file": "cavalier_contours/src/polyline/traits.rs", "symbols": ["PlineSourceMut::invert_direction_mut"]}]}
{"id": "C03", "title": "Rotating the start of a closed polyline keeps the loop", "statement": "rotate_start(i, point, eps) returns nothing exactly when the polyline is open, has fewer than 2 vertices or i is out of range; otherwise, when the point is on vertex i or on the following vertex the result is the cyclic rotation of the vertices starting there, and otherwise it is the cyclic rotation starting at the point with segment i replaced by its two split halves; nothing else changes and no index is out of bounds.", "quantifier": "all closed polylines, all start indexes, all points and epsilons", "why_tests_cant": "wrap-around at every possible index and length; tests sample a handful of squares and circles", "anchors": [{"file": "cavalier_contours/src/polyline/traits.rs", "symbols": ["PlineSource::rotate_start"]}]}
{"id": "C04", "title": "Index navigation is modular arithmetic", "statement": "On a polyline of n vertices next_wrapping_index and prev_wrapping_index are inverse permutations of 0..n-1, fwd_wrapping_index(i,k) is (i+k) mod n, fwd_wrapping_dist(i,j) is the unique k<n with fwd_wrapping_index(i,k)=j, and none of them panics for in-range arguments.", "quantifier": "all lengths n>=1 and all in-range indexes", "why_tests_cant": "laws over all index pairs of all lengths", "anchors": [{"file": "cavalier_contours/src/polyline/traits.rs", "symbols": ["PlineSource::next_wrapping_index", "PlineSource::prev_wrapping_index", "PlineSource::fwd_wrapping_dist", "PlineSource::fwd_wrapping_index"]}]}
{"id": "C05", "title": "Iterators enumerate the segments and vertices exactly once", "statement": "iter_segments and iter_segment_indexes yield exactly segment_count items, the i-th being (vertex i, vertex i+1 mod n); their size hints equal the number of items still to come at every point; a vertex iterator consumed by any interleaving of front and back calls yields every vertex exactly once, in order from each end; after exhaustion they keep returning nothing.", "quantifier": "all polylines and all interleavings of next / next_back / size_hint calls", "why_tests_cant": "the interleavings of double-ended iteration grow exponentially and are not exercised by tests", "anchors": [{"file": "cavalier_contours/src/polyline/traits.rs", "symbols": ["VertexIter", "SegmentIter", "PlineSegIndexIterator", "PlineSource::segment_count"]}]}
{"id": "C06", "title": "Path length is the arc length of the drawn path", "statement": "For |bulge|<=1 and no zero-length arc segment, path_length equals the sum over segments of the length of the curve the segment denotes (chord length, or radius times swept angle), is non-negative, is unchanged by reversal, translation and start rotation, and is multiplied by |s| under scaling by s.", "quantifier": "all polylines over the reals", "why_tests_cant": "an identity between real-valued functions; floating-point tests check a few numbers to a tolerance", "anchors": [{"file": "cavalier_contours/src/polyline/traits.rs", "symbols": ["PlineSource::path_length"]}, {"file": "cavalier_contours/src/polyline/pline_seg.rs", "symbols": ["seg_length"]}]}
{"id": "C07", "title": "Signed area is the line integral of the drawn path", "statement": "area of a closed polyline equals one half of the integral of x dy - y dx along the drawn path (lines and arcs), is 0 for open polylines, is negated by reversal, is invariant under translation and start rotation, and is multiplied by s^2 under scaling by s.", "quantifier": "all polylines over the reals", "why_tests_cant": "an identity between a closed formula and an integral for all inputs", "anchors": [{"file": "cavalier_contours/src/polyline/traits.rs", "symbols": ["PlineSource::area", "PlineSource::orientation"]}]}
{"id": "C08", "title": "Orientation agrees with the sign of the area", "statement": "orientation is Open exactly for open polylines; for closed polylines it is Clockwise exactly when the signed area is negative, and reversing a closed polyline of non-zero area flips it.", "quantifier": "all polylines", "why_tests_cant": "the flip under reversal must hold for every loop, not samples", "anchors": [{"file": "cavalier_contours/src/polyline/traits.rs", "symbols": ["PlineSource::orientation"]}]}
{"id": "C09", "title": "Extents contain the drawn path and are tight", "statement": "extents is absent exactly when the polyline has no segment; otherwise every point of every line or arc segment (|bulge|<=1) lies in the box (within 2e-8 when an arc has end points that agree up to the tolerance 1e-8) and each of the four sides is attained by a point of the path, up to 1e-16 times the largest radius.", "quantifier": "all polylines and all points of the path over the reals", "why_tests_cant": "containment of a continuum of points; tests check a few boxes", "anchors": [{"file": "cavalier_contours/src/polyline/traits.rs", "symbols": ["PlineSource::extents"]}, {"file": "cavalier_contours/src/polyline/pline_seg.rs", "symbols": ["arc_seg_bounding_box"]}]}
{"id": "C10", "title": "Segment bounding boxes contain the segment", "statement": "seg_fast_approx_bounding_box and seg_bounding_box contain every point of the line or arc segment (|bulge|<=1; the exact box within 2e-8 for an arc whose end points agree up to 1e-8), each side of the exact box is attained by a point of the segment up to 1e-16 times the radius, and the fast box contains the exact box up to the same amount.", "quantifier": "all segments and all points on them over the reals", "why_tests_cant": "the spatial index is built from the fast box: one missed point means a silently missed intersection; containment of a continuum cannot be tested", "anchors": [{"file": "cavalier_contours/src/polyline/pline_seg.rs", "symbols": ["seg_fast_approx_bounding_box", "seg_bounding_box", "arc_seg_bounding_box"]}]}
{"id": "C11", "title": "Arc centre and radius from bulge", "statement": "For two distinct points and a non-zero bulge, seg_arc_radius_and_center returns the unique circle through both points such that sweeping from the first by 4*atan(bulge) reaches the second; radius is positive.", "quantifier": "all distinct end points and all non-zero bulges over the reals", "why_tests_cant": "an identity over all reals", "anchors": [{"file": "cavalier_contours/src/polyline/pline_seg.rs", "symbols": ["seg_arc_radius_and_center"]}]}
{"id": "C12", "title": "Splitting a segment preserves its shape", "statement": "seg_split_at_point at a point on a line or arc segment (|bulge|<=1) yields two sub-segments that end/start at that point, lie on the same line or circle, and whose swept angles add up to the original; at the ends it degenerates to a zero-length piece without changing the other one.", "quantifier": "all segments and all points on them over the reals", "why_tests_cant": "every point of the continuum; both orientations; degenerate ends", "anchors": [{"file": "cavalier_contours/src/polyline/pline_seg.rs", "symbols": ["seg_split_at_point"]}]}
{"id": "C13", "title": "Segment midpoint and tangent", "statement": "seg_midpoint is the point at half the chord or half the sweep of the segment; seg_tangent_vector at a point of the segment is perpendicular to the radius and points in the direction of travel.", "quantifier": "all segments over the reals", "why_tests_cant": "continuum of inputs", "anchors": [{"file": "cavalier_contours/src/polyline/pline_seg.rs", "symbols": ["seg_midpoint", "seg_tangent_vector"]}]}
{"id": "C14", "title": "Closest point minimises distance", "statement": "closest_point is absent exactly for an empty polyline; a single vertex is its own answer; otherwise the reported distance is that of the returned point, no point of the path is closer beyond the comparison tolerances, the returned point lies on the returned segment unless the query point is outside that arc's sector but within the tolerance of its boundary lines, and when no tolerance is hit the distance is the exact minimum and the returned index is the first segment attaining it.", "quantifier": "all polylines and query points over the reals", "why_tests_cant": "minimality over a continuum of path points", "anchors": [{"file": "cavalier_contours/src/polyline/traits.rs", "symbols": ["PlineSource::closest_point"]}, {"file": "cavalier_contours/src/polyline/pline_seg.rs", "symbols": ["seg_closest_point"]}, {"file": "cavalier_contours/src/core/math/base_math.rs", "symbols": ["line_seg_closest_point"]}]}
{"id": "C15", "title": "Winding number is the topological winding number", "statement": "winding_number is 0 for open polylines and for polylines with fewer than 2 vertices; for a closed polyline with |bulge|<=1 and a point not on its path, it equals the total angle swept around the point divided by 2*pi; reversal negates it; rotating the start, translating and scaling by a positive factor leave it unchanged.", "quantifier": "all closed polylines (self-intersecting included) and all points off the path", "why_tests_cant": "an integer-valued topological invariant computed by a 12-way case split; tests hit a few dozen points", "anchors": [{"file": "cavalier_contours/src/polyline/traits.rs", "symbols": ["PlineSource::winding_number"]}]}
{"id": "C16", "title": "Walking a given length along the path", "statement": "find_point_at_path_length(L) with 0<L<=total returns the first segment whose cumulative length reaches L and the point on it whose distance along the path is L; L>total returns the total length as error; L<=0 on a polyline with a vertex returns the first vertex (segments whose two end vertexes agree up to the tolerance 1e-8 count as having length zero); it never divides by a zero length and never panics on a polyline with a vertex.", "quantifier": "all polylines and lengths", "why_tests_cant": "cumulative sums over arbitrary polylines, including empty ones and zero-length segments", "anchors": [{"file": "cavalier_contours/src/polyline/traits.rs", "symbols": ["PlineSource::find_point_at_path_length"]}]}
{"id": "C17", "title": "Arc flattening stays within the error distance", "statement": "arcs_to_approx_lines(e) never panics and yields a polyline whose segments are all straight, that passes through all original vertices in order (a closed polyline with a single vertex loses it), keeps line segments unchanged, and where every arc is cut into the least number of equal parts whose points are all within |e| of the chords (1e-8 more is tolerated for a single chord), for every e different from 0 and not below minus the diameter of an arc; it reports failure only when a needed count is not representable.", "quantifier": "all polylines with |bulge|<=1 and all error distances over the reals", "why_tests_cant": "a distance bound over a continuum for all radii and error values", "anchors": [{"file": "cavalier_contours/src/polyline/traits.rs", "symbols": ["PlineSource::arcs_to_approx_lines"]}]}
{"id": "C18", "title": "Angle normalisation and differences", "statement": "normalize_radians returns an angle in [0, 2pi] congruent to its argument modulo 2pi; delta_angle returns the representative of the difference in (-pi, pi]; the signed variant has the requested sign and the same magnitude; angle_is_between holds exactly when sweeping counter-clockwise from start to end passes the test angle (within epsilon).", "quantifier": "all real angles", "why_tests_cant": "all reals, including multiples of 2pi where the two branches meet", "anchors": [{"file": "cavalier_contours/src/core/math/base_math.rs", "symbols": ["normalize_radians", "delta_angle", "delta_angle_signed", "angle_is_between_eps", "angle_is_within_sweep_eps"]}]}
{"id": "C19", "title": "Bulge and sweep angle are inverse", "statement": "angle_from_bulge(bulge_from_angle(t)) = t for |t|<2pi and bulge_from_angle(angle_from_bulge(b)) = b for all b.", "quantifier": "all reals in range", "why_tests_cant": "identities over all reals", "anchors": [{"file": "cavalier_contours/src/core/math/base_math.rs", "symbols": ["bulge_from_angle", "angle_from_bulge"]}]}
{"id": "C20", "title": "Line-line intersection is sound and complete", "statement": "A reported true or false intersection (non-parallel case) gives parameters at which the two lines meet at the same point; it is a true intersection exactly when both parameters are within [0,1] up to epsilon; lines crossing at an angle above the parallel threshold are never reported as parallel; an overlap is reported with ordered parameters in [0,1] on the second segment; for collinear segments the reported overlap is exactly the common part, no intersection is reported only if there is no common point, and a reported single point is an end of the first segment and within 3 epsilon of a point of the second segment extended by epsilon.", "quantifier": "all pairs of segments and epsilons over the reals", "why_tests_cant": "degenerate (point, collinear, touching) combinations are unbounded", "anchors": [{"file": "cavalier_contours/src/core/math/line_line_intersect.rs", "symbols": ["line_line_intr"]}]}
{"id": "C21", "title": "Line-circle intersection is sound and complete", "statement": "Two reported parameters are in increasing order and both give points at distance exactly r from the centre, and no other point of the line is at that distance, provided the line passes strictly closer than r+epsilon; a tangent parameter gives the point of the line closest to the centre, within epsilon of the circle; no intersection is reported only when the line is farther than r+epsilon from the centre.", "quantifier": "all circles, epsilons and lines over the reals (a line with horizontal extent below 1e-8 is handled as the vertical line through the middle of its points)", "why_tests_cant": "vertical, near-vertical and tangent configurations over a continuum", "anchors": [{"file": "cavalier_contours/src/core/math/line_circle_intersect.rs", "symbols": ["line_circle_intr"]}]}
{"id": "C22", "title": "Circle-circle intersection is sound and complete", "statement": "Two reported points lie exactly on both circles and are all common points; a tangent point either lies exactly on both circles, or there is no common point and it lies on the line of centres with distance error at most epsilon*max(1,(r1+r2)/d), d being the distance of the centres; overlap is reported exactly for circles equal up to epsilon; no intersection implies that no point lies on both circles.", "quantifier": "all pairs of circles and epsilons over the reals", "why_tests_cant": "continuum of configurations", "anchors": [{"file": "cavalier_contours/src/core/math/circle_circle_intersect.rs", "symbols": ["circle_circle_intr"]}]}
{"id": "C23", "title": "Segment intersection points lie on both segments", "statement": "Every point reported by pline_seg_intr for two polyline segments lies on both segments up to a stated multiple of the epsilon: for lines that are not parallel or exactly collinear, for a line and an arc whose radius and chord are not tiny, for arcs of circles with distinct centres, and for arcs of one circle (equal up to epsilon) unless they have opposite directions and end at one point. Lines report the exact common point or common part; a common point of a line and an arc, or of two arcs, is reported whenever the curves cross by more than the epsilon and no segment end is within epsilon of the other circle, and otherwise some point is. Two points of a line and an arc and overlaps of lines or of arcs of one circle come in the order of the second segment, overlaps cover every common point, and no intersection is reported for arcs of one circle only if they have no common point.", "quantifier": "all pairs of line/arc segments", "why_tests_cant": "sixteen result shapes times orientations; overlap of arcs with opposite direction is rarely tested", "anchors": [{"file": "cavalier_contours/src/polyline/pline_seg_intersect.rs", "symbols": ["pline_seg_intr"]}]}
{"id": "C24", "title": "Self-intersection visiting examines the right pairs once", "statement": "Local visiting examines exactly the pairs of consecutive segments, global visiting only pairs of segments that share no vertex and each unordered pair at most once whatever order the spatial index reports hits in; a visitor that asks to stop is never called again; include=All is local followed by global.", "quantifier": "all polylines, all index query orders, all visitors", "why_tests_cant": "the order of spatial-index hits and the stop point are arbitrary", "anchors": [{"file": "cavalier_contours/src/polyline/internal/pline_intersects.rs", "symbols": ["visit_local_self_intersects", "visit_global_self_intersects", "all_self_intersects_as_basic"]}, {"file": "cavalier_contours/src/polyline/traits.rs", "symbols": ["PlineSource::visit_self_intersects_opt"]}]}
{"id": "C25", "title": "Intersections between two polylines are well-formed and not duplicated", "statement": "find_intersects reports only valid segment start indexes, each reported point is a point reported for that pair of segments, end-of-segment hits are reported with the following segment's index except at the very end of an open polyline, and points at the end of an overlap are not reported again as basic intersects.", "quantifier": "all pairs of polylines, all index query orders", "why_tests_cant": "quantifies over all pairs of segments and hit orders", "anchors": [{"file": "cavalier_contours/src/polyline/internal/pline_intersects.rs", "symbols": ["find_intersects"]}]}
{"id": "C26", "title": "Views never index out of their source", "statement": "A view whose data satisfies its documented bounds returns a vertex for every index below its vertex count and none above; read forward it is: updated start, source vertices, last source vertex with updated bulge, end point; an inverted view is exactly the reverse path of the same non-inverted view.", "quantifier": "all sources, all view data, all indexes", "why_tests_cant": "wrap-around offsets and inversion interact at every index", "anchors": [{"file": "cavalier_contours/src/polyline/pline_view.rs", "symbols": ["PlineView", "PlineViewData"]}]}
{"id": "C27", "title": "Whole-polyline and new-start views", "statement": "A view over an entire polyline has exactly the segments of its source; a view from a new start point on a segment of a closed polyline traverses every segment once starting and ending at that point; on an open polyline it is the remainder from that point.", "quantifier": "all sources, indexes and points", "why_tests_cant": "all positions on all segments", "anchors": [{"file": "cavalier_contours/src/polyline/pline_view.rs", "symbols": ["PlineViewData::from_entire_pline", "PlineViewData::from_new_start"]}]}
{"id": "C28", "title": "Views between two points", "statement": "from_slice_points yields nothing when the second point is the first point given on the same segment before its end, or as the start of the next segment (on an open polyline also at the end of the same segment), otherwise a view that starts at the first point, ends at the second point, passes the source vertices between them in order, wraps around the end of a closed polyline when needed and never indexes out of bounds.", "quantifier": "all sources, all pairs of points with indexes", "why_tests_cant": "same-segment wrap-around and end-point coincidences at every index", "anchors": [{"file": "cavalier_contours/src/polyline/pline_view.rs", "symbols": ["PlineViewData::from_slice_points", "PlineViewData::create", "PlineViewData::create_on_single_segment"]}]}
{"id": "C29", "title": "Joining overlapping intersects", "statement": "sort_and_join_overlapping_intersects partitions the given overlaps, sorted along the second polyline, into maximal runs in which each overlap starts where the previous ends; every overlap is in exactly one run; a last run that ends where the first begins is merged with it; the slice of an unmerged run whose last overlap starts at a vertex (or lies on the segment of the first) follows the second polyline from the start of the first to the end of the last overlap.", "quantifier": "all lists of overlaps", "why_tests_cant": "run structure for arbitrary lists", "anchors": [{"file": "cavalier_contours/src/polyline/internal/pline_intersects.rs", "symbols": ["sort_and_join_overlapping_intersects", "OverlappingSlice::new"]}]}
{"id": "C30", "title": "Boolean operations reject invalid input and handle disjoint and nested input by table", "statement": "Fewer than 2 vertices or an open polyline gives InvalidInput with no output; when the two loops do not intersect the outputs are exactly the whole input loops prescribed for Or/And/Not/Xor by whether one contains the other; identical overlapping loops give Overlapping with the prescribed output.", "quantifier": "all pairs of polylines and operations", "why_tests_cant": "a decision table over all combinations", "anchors": [{"file": "cavalier_contours/src/polyline/internal/pline_boolean.rs", "symbols": ["polyline_boolean"]}]}
{"id": "C31", "title": "Boolean stitching uses each slice at most once and terminates", "statement": "Stitching slices into closed polylines consumes every slice at most once, never reaches its loop guard, produces only closed polylines with at least 2 vertices and no two neighbouring vertices at the same position (or nothing), and every result loop is a cyclic chain of slices each starting within twice epsilon, per coordinate, of where the previous one ends; at each joint the selector changes to the other polyline where such a slice is available.", "quantifier": "all slice lists, all spatial-index orders, both selectors", "why_tests_cant": "a loop over a mutable visited set with an unreachable! guard: termination for every input cannot be tested", "anchors": [{"file": "cavalier_contours/src/polyline/internal/pline_boolean.rs", "symbols": ["stitch_slices_into_closed_polylines", "OrAndStitchSelector", "NotXorStitchSelector"]}]}
{"id": "C32", "title": "Boolean pruning keeps exactly the slices required by the operation", "statement": "Each polyline is divided into slices at the intersection points and at the ends of overlaps; those are kept whose sample point, the middle of the first segment of the slice, is inside or outside the other polyline as prescribed by the operation; the kept slices of the first polyline, reversed if the directions demand it, those of the second and the overlaps are what is stitched to the loops of the result.", "quantifier": "all pairs of polylines and operations", "why_tests_cant": "for all intersection patterns", "anchors": [{"file": "cavalier_contours/src/polyline/internal/pline_boolean.rs", "symbols": ["prune_slices", "slice_at_intersects"]}]}
{"id": "C33", "title": "Raw offset segments are parallel at the offset distance", "statement": "Every raw offset segment of a line is the line translated by the offset along its left normal (right for negative offset); every raw offset of an arc is the concentric arc whose radius differs by the offset, with the same sweep, or is flagged collapsed exactly when that radius would be below 1e-8; there is one per input segment in order; the bulge computed for joining two ends at a corner is that of the arc about the original vertex when the corner turns the way stated.", "quantifier": "all polylines and offsets over the reals", "why_tests_cant": "identities over the reals", "anchors": [{"file": "cavalier_contours/src/polyline/internal/pline_offset.rs", "symbols": ["create_untrimmed_raw_offset_segs"]}]}
{"id": "C34", "title": "Points accepted by the offset distance test are far enough from the input", "statement": "If a point passes the offset validity test against a polyline (|bulge|<=1) with a spatial index of its segments, then every point of the polyline is farther than |offset|-tolerance from it (up to the closest-point tolerance), whatever order the index reports hits in; a point that fails is within that distance of some path point unless it grazes an arc sector; every slice kept while offsetting has its end points, vertices and the midpoints of its first and last segments at such a distance and no segment that is found to intersect the input, except that a raw offset without any intersection is kept whole when its first vertex passes.", "quantifier": "all polylines, points, offsets, query orders", "why_tests_cant": "a distance bound over all points of the path and all hit orders", "anchors": [{"file": "cavalier_contours/src/polyline/internal/pline_offset.rs", "symbols": ["point_valid_for_offset", "slices_from_raw_offset", "slices_from_dual_raw_offsets"]}]}
{"id": "C35", "title": "Offset stitching uses each slice at most once and terminates", "statement": "Stitching offset slices never reaches its loop guard, never indexes an empty polyline, consumes each slice exactly once, joins to the current end an unused slice that begins within twice the join epsilon of it in each coordinate, the one whose segment index is nearest ahead, ends a chain only where no such slice is left, and never underflows its index distance.", "quantifier": "all slice lists and query orders", "why_tests_cant": "termination and absence of underflow for every input", "anchors": [{"file": "cavalier_contours/src/polyline/internal/pline_offset.rs", "symbols": ["stitch_slices_together"]}]}
{"id": "C36", "title": "Offsetting input and output contract", "statement": "Fewer than 2 vertices or a fully collapsed raw offset gives no result; offsetting never panics; every result polyline has at least 2 vertices unless it is the only result, and neighbouring vertices in its list differ by more than the epsilon; an open input gives only open results. (A single result may have one vertex or none, the last vertex of a closed result may be within the epsilon of the first, and a closed input may give open results.)", "quantifier": "all polylines, offsets and options", "why_tests_cant": "for all inputs, including those collapsing", "anchors": [{"file": "cavalier_contours/src/polyline/internal/pline_offset.rs", "symbols": ["parallel_offset", "create_raw_offset_polyline", "stitch_slices_together"]}]}
{"id": "C37", "title": "Shapes partition loops by orientation", "statement": "Building a shape drops exactly the polylines with fewer than 2 vertices, stores every other polyline exactly once, counter-clockwise loops in one list and the rest in the other, in input order, with the index over their bounds in the order of the lists. Offsetting a shape offsets each polyline, drops those turned around, cuts the loops at all points where two of them meet, keeps whole a loop without cuts and keeps a slice if the middle of its first segment is far enough from all other inputs, and puts the slices together, each used exactly once, preferring a slice of the same loop, without reaching its guard; it panics if and only if an offset or a chain of slices has fewer than 2 vertices. (Shown to fail: that it never panics, that the result keeps the distance from all inputs, that the offset of an open polyline stays in its list.)", "quantifier": "all shapes, offsets, options and index orders, for every number type", "why_tests_cant": "for all lists of polylines and all orders of index answers; termination of the stitching loop; the distance is only lost when a slice begins with a short segment", "anchors": [{"file": "cavalier_contours/src/shape_algorithms/mod.rs", "symbols": ["Shape::from_plines", "Shape::parallel_offset"]}]}
{"id": "C38", "title": "Redundant-vertex removal keeps the path", "statement": "For an open polyline whose first two vertexes are at different places, and for a closed polyline that is left with its first and last vertex at different places, remove_redundant never panics, keeps the first position (and the last vertex of an open polyline), only drops vertexes that repeat the next position, or that the collinearity test or the same-circle test finds inside a straight run or an arc of at most half a turn, and returns nothing only when no vertex may be dropped. A drop whose test holds exactly leaves the drawn points the same. (Elsewhere it can lose the end point or a corner, or panic; a right angle between segments of a hundred epsilons can be dropped.)", "quantifier": "all polylines and epsilons", "why_tests_cant": "a stateful single pass with wrap-around handling; bugs sit at repeated starts and at wrap-around", "anchors": [{"file": "cavalier_contours/src/polyline/traits.rs", "symbols": ["PlineSource::remove_redundant"]}]}
{"id": "C39", "title": "Adding with repeat suppression never creates repeats", "statement": "A polyline built only by add_or_replace / extend_remove_repeat / create_from_remove_repeat has no two neighbouring vertices within epsilon, keeps the first position of each run with the bulge of its last, and create_from_remove_repeat of a closed source keeps at least one vertex of a non-empty source.", "quantifier": "all sequences of additions", "why_tests_cant": "invariant over all operation sequences", "anchors": [{"file": "cavalier_contours/src/polyline/traits.rs", "symbols": ["PlineSourceMut::add_or_replace_vertex", "PlineSourceMut::extend_remove_repeat", "PlineCreation::create_from_remove_repeat"]}]}
{"id": "C40", "title": "Scaling and translating act pointwise", "statement": "scale_mut(s) and translate_mut(x,y) change every vertex position by exactly that map, keep all bulges, vertex count and closedness; the drawn path of the result is the image of the drawn path.", "quantifier": "all polylines and parameters", "why_tests_cant": "all inputs; the image of a continuum", "anchors": [{"file": "cavalier_contours/src/polyline/traits.rs", "symbols": ["PlineSourceMut::scale_mut", "PlineSourceMut::translate_mut"]}]}
{"id": "C41", "title": "Reading accessors are total", "statement": "get and last return nothing instead of panicking when the index is out of range or the polyline is empty; find_point_at_path_length, closest_point, extents, area, winding_number and path_length do not panic on empty or single-vertex polylines.", "quantifier": "all polylines including the empty one", "why_tests_cant": "edge cases are absent from the tests", "anchors": [{"file": "cavalier_contours/src/polyline/traits.rs", "symbols": ["PlineSource::get", "PlineSource::last", "PlineSource::find_point_at_path_length"]}]}
{"id": "C42", "title": "C API error codes", "statement": "Every C function given a null handle returns its documented code without touching memory; for polylines with fewer than 2^32 vertexes in-range positions succeed and read back what was written and out-of-range positions return 2 and change nothing; unknown boolean operation codes return 2; any panic inside becomes -1; a call changes only objects it was given a mutable handle to. (At 2^32 vertexes the count wraps and valid positions are rejected.)", "quantifier": "all handle/position/operation values and all states", "why_tests_cant": "the cross product of handles, positions and states", "anchors": [{"file": "cavalier_contours_ffi/src/lib.rs", "symbols": ["cavc_pline_get_vertex", "cavc_pline_set_vertex", "cavc_pline_remove", "cavc_pline_boolean", "cavc_plinelist_get_pline", "cavc_plinelist_take"]}]}
{"id": "C43", "title": "C API list ownership", "statement": "Popping or taking a polyline transfers exactly that one to the caller; no sequence of documented calls frees an object twice or uses a freed one; a sequence that empties every list before freeing it and frees everything it owns leaves nothing allocated; otherwise exactly the polylines still in a list when it is freed stay allocated. (The documented clause that freeing a list frees the polylines in it does not hold: they leak.)", "quantifier": "all sequences of list operations", "why_tests_cant": "leaks are invisible to result-checking tests", "anchors": [{"file": "cavalier_contours_ffi/src/lib.rs", "symbols": ["cavc_plinelist_f", "cavc_plinelist_pop", "cavc_plinelist_take", "cavc_plinelist_get_pline"]}]}
{"id": "C44", "title": "Serialised values read back", "statement": "Reading what serialising wrote returns the original value and leaves the following data untouched: for vertexes and polylines in every format, for points and everything containing points in formats that store no element count for tuples. (Points announce three elements but write two, so formats that store the count do not read them back.) A point is read from exactly two numbers and a vertex from exactly three, held as the format holds that many; anything else is refused.", "quantifier": "all values, self-describing and fixed-length formats", "why_tests_cant": "self-describing formats hide a wrong announced length", "anchors": [{"file": "cavalier_contours/src/core/math/vector2.rs", "symbols": ["Vector2::serialize", "Vector2::deserialize"]}, {"file": "cavalier_contours/src/polyline/pline_vertex.rs", "symbols": ["PlineVertex::serialize", "PlineVertex::deserialize"]}]}
{"id": "C45", "title": "Boolean operations never panic", "statement": "For all polylines, valid or not, with an index over the segments of the first, every boolean operation returns a result, if no joined overlap is longer than the second polyline; that is so unless a run of several overlaps that ends where it begins is joined to another run. (For a second polyline that touches itself the operation can panic.)", "quantifier": "all pairs of polylines, operations and spatial-index orders, any numeric type", "why_tests_cant": "index arithmetic and unwraps on combinations of intersections that tests do not contain", "anchors": [{"file": "cavalier_contours/src/polyline/internal/pline_boolean.rs", "symbols": ["polyline_boolean", "slice_at_intersects", "prune_slices", "stitch_slices_into_closed_polylines"]}, {"file": "cavalier_contours/src/polyline/internal/pline_intersects.rs", "symbols": ["sort_and_join_overlapping_intersects"]}]}
{"id": "C46", "title": "Offset results keep the distance", "statement": "Every vertex of every result of parallel_offset is farther than |offset|-tolerance from every point of the input (|bulge|<=1), up to the closest-point tolerance, except that when the raw offset is kept whole, as the only result, this is known of the first vertex only. (Simple polygons with default options show that it can fail for the others, and between the vertexes.)", "quantifier": "all polylines, offsets, options and index orders over the reals", "why_tests_cant": "a distance bound over all points of the path, for the result of the whole pipeline", "anchors": [{"file": "cavalier_contours/src/polyline/internal/pline_offset.rs", "symbols": ["parallel_offset", "point_valid_for_offset", "stitch_slices_together"]}]}
{"id": "C47", "title": "Raw offset segments are joined where they meet", "statement": "When two consecutive offset segments meet at the crossing nearest to the original corner, the path leaves the first one for the second there, along parts of the two segments; an offset corner of lines turned away from the offset is rounded by an arc of radius |offset| about the corner (or mitred if that adds less than the tolerance), turned toward it is cut where the offset lines meet, or bridged by a line if they do not; a line that goes straight back gets half a circle; line and circle, or circles, that do not meet are connected by an arc about the corner; closing a polyline moves the first vertex along its segment. (Two lines so short that they are taken to be parallel get half a circle even at a right angle, and a result reaches 1.4 times the offset away.)", "quantifier": "all pairs of segments, offsets and tolerances over the reals", "why_tests_cant": "a geometric relation between input and output for every corner shape", "anchors": [{"file": "cavalier_contours/src/polyline/internal/pline_offset.rs", "symbols": ["line_line_join", "line_arc_join", "arc_line_join", "arc_arc_join", "connect_using_arc", "create_raw_offset_polyline"]}]}
{"id": "C48", "title": "Raw offsets of lines stay near the polyline", "statement": "For a polyline of lines none of which is shorter than the epsilon in both coordinates, and whose corners are clear (the cross product of the two segments is at least the epsilon, or the path goes exactly straight on or back there), every point of the raw offset, including the arcs drawn round corners, is at most |offset| plus six epsilons from the polyline; for an open polyline the raw offset starts at the start of the first segment moved by the offset and ends within 1.5 epsilons of the end of the last segment moved by the offset, unless nothing is left.", "quantifier": "all polylines of lines, offsets and epsilons, over the reals", "why_tests_cant": "every point of every curve of the result, for every number of vertexes, where small errors of the joins could add up along the path", "anchors": [{"file": "cavalier_contours/src/polyline/internal/pline_offset.rs", "symbols": ["create_raw_offset_polyline", "create_untrimmed_raw_offset_segs", "line_line_join"]}]}
{"id": "C49", "title": "The raw offset is cut into slices where it must be", "statement": "parallel_offset cuts the raw offset exactly at the single points where it meets itself and, for an open polyline or when self-intersections are handled, the raw offset to the other side (except at ends of overlaps) and, for an open polyline, the circles of radius |offset| about both ends; each stretch from one cut to the next along the path is kept if and only if its vertexes and the middles of its first and last segments are farther from the input than |offset|-tolerance and none of its segments meets the input; without cuts the whole is kept if and only if its first vertex is far enough; the kept slices are what is joined to the results. A segment is cut by a circle only at points near both, and at every point where it crosses the circle, except within the tolerance of the start of an arc or in the first tolerance-th part of a line. (That part grows with the length of the line: an offset by 1 of a line a million long passes an end of the input at half that distance.)", "quantifier": "all polylines, offsets, options and index orders, any numeric type; the circles over the reals", "why_tests_cant": "a relation between every slice and the input, over every combination of cuts", "anchors": [{"file": "cavalier_contours/src/polyline/internal/pline_offset.rs", "symbols": ["slices_from_raw_offset", "slices_from_dual_raw_offsets", "visit_circle_intersects", "point_valid_for_offset", "parallel_offset"]}]}
{"id": "C50", "title": "The winding number changes only across the path", "statement": "For a polyline with bulges as documented, winding_number returns the same number for two points whenever the line between them, or any continuous curve between them, does not meet the path; around a point not on the path it is the same for all points near it.", "quantifier": "all polylines and all pairs of points, lines and curves, over the reals", "why_tests_cant": "a statement about all curves in the plane", "anchors": [{"file": "cavalier_contours/src/polyline/traits.rs", "symbols": ["PlineSource::winding_number"]}]}
{"id": "C51", "title": "Boolean operations on crossing loops give the right region", "statement": "For two loops that each go around every point at most once, cross or touch at points but have no overlapping segments, where all common points are found and clearly apart from each other and from vertexes at other places, every boolean operation returns closed loops that run along the given ones, and the winding numbers of all returned loops around any point on neither given loop add up to 1 or -1 if the point is in the union, intersection, difference or symmetric difference of the two insides, and to 0 if not: for a union or intersection in the direction of the second loop, for a difference against it.", "quantifier": "all such pairs of loops, lines and arcs, all operations, points and spatial-index orders, over the reals", "why_tests_cant": "a statement about every point of the plane for the result of the whole pipeline: search, cutting, selection, stitching", "anchors": [{"file": "cavalier_contours/src/polyline/internal/pline_boolean.rs", "symbols": ["polyline_boolean", "slice_at_intersects", "prune_slices", "stitch_slices_into_closed_polylines"]}, {"file": "cavalier_contours/src/polyline/internal/pline_intersects.rs", "symbols": ["find_intersects"]}, {"file": "cavalier_contours/src/polyline/traits.rs", "symbols": ["PlineSource::winding_number"]}]}
{"id": "C52", "title": "C API functions wrap the library functions", "statement": "Every C function given live handles returns 0 and hands out exactly what the wrapped library function gives: creating stores the given vertexes, cloning copies, the measuring functions return the value of the library function (extents of an empty polyline: code 2), the editing functions replace the polyline behind the handle by the edited one and nothing else, offsetting and boolean operations (numbered 0 to 3, with the defaults 1e-5, 1e-4, 1e-4, no self-intersection handling when no options are given) return new lists holding exactly the result polylines in order, the index functions return the index of the segment boxes and the smallest box around them, the option initialisers write the documented defaults, and freeing removes exactly the one object; existing objects are otherwise untouched.", "quantifier": "all calls, memory states and polylines, any numeric type (index extents over the reals)", "why_tests_cant": "every function, memory state and option combination", "anchors": [{"file": "cavalier_contours_ffi/src/lib.rs", "symbols": ["cavc_pline_create", "cavc_pline_clone", "cavc_pline_eval_area", "cavc_pline_scale", "cavc_pline_parallel_offset", "cavc_pline_boolean", "cavc_pline_create_aabbindex", "cavc_aabbindex_get_extents", "cavc_pline_parallel_offset_o_init", "cavc_pline_boolean_o_init", "cavc_plinelist_f"]}]}
{"id": "C53", "title": "Fuzzy comparisons", "statement": "fuzzy_eq_eps holds exactly for numbers less than eps apart, fuzzy_gt_eps / fuzzy_lt_eps / fuzzy_in_range_eps allow exactly less than eps on the wrong side, the forms without eps use 1e-8; points are compared by both coordinates; two polylines are fuzzy equal exactly if both are closed or both open, they have as many vertexes, and all coordinates and bulges of vertexes at the same position are less than eps apart.", "quantifier": "all numbers, points and polylines, over the reals", "why_tests_cant": "comparisons at the boundary of the tolerance and all ways in which two polylines can differ", "anchors": [{"file": "cavalier_contours/src/polyline/traits.rs", "symbols": ["PlineSource::fuzzy_eq_eps"]}, {"file": "cavalier_contours/src/core/traits/fuzzy_eq.rs", "symbols": ["FuzzyEq"]}, {"file": "cavalier_contours/src/core/traits/fuzzy_ord.rs", "symbols": ["FuzzyOrd"]}]}
{"id": "C54", "title": "Offset results are made of pieces of the raw offset and stay near the input", "statement": "If the segments of the raw offset are longer than the position epsilon plus twice the join epsilon, and the cuts and open ends are at or at least that far from each vertex and from each other, then parallel_offset succeeds, every segment of every result is a piece of a segment of the raw offset up to moving its end by at most five join epsilons and two position epsilons, every point of every result is that near to the raw offset, and for a polyline of lines with clear corners no point of a result is farther from the input than |offset| plus eight position epsilons and five join epsilons.", "quantifier": "all polylines, offsets, options and spatial-index orders with a clean raw offset, over the reals", "why_tests_cant": "every point of every result curve, for every number of slices that are joined, where the errors of the joins could add up", "anchors": [{"file": "cavalier_contours/src/polyline/internal/pline_offset.rs", "symbols": ["parallel_offset", "create_raw_offset_polyline", "stitch_slices_together"]}]}
{"id": "C55", "title": "The offset of a single line is the parallel line", "statement": "For an open polyline of one line that is neither a point nor almost but not quite vertical, and an offset that is not zero or tiny, parallel_offset returns exactly one open polyline: the two ends moved by the offset at right angles to the line, to the left for positive offsets, in the same order and without bulge; the spatial index may be given or built.", "quantifier": "all lines, offsets and options of that kind, over the reals", "why_tests_cant": "all positions, directions and offsets", "anchors": [{"file": "cavalier_contours/src/polyline/internal/pline_offset.rs", "symbols": ["parallel_offset", "create_raw_offset_polyline", "slices_from_dual_raw_offsets"]}]}
{"id": "C56", "title": "Vectors, points, sides, sectors, quadratic equations and vertexes", "statement": "Vector products, lengths, perpendiculars, sums, negation, scaling and turning about a point are what they are called; distances, middles, angles, points of lines and circles too, and finding the parameter of a point of a line undoes finding the point of a parameter; is_left and its variants tell on which side a point lies, the tolerant ones up to eps divided by the length of the line; point_within_arc_sweep holds for a point clearly away from the sides of a sector of at most half a turn exactly if the turn to it is less than the sweep; quadratic_solutions returns exactly the solutions of a quadratic equation, unless both are zero (then the second one is not a number); a vertex is read from a slice exactly if it has three numbers; the forms without eps use 1e-8.", "quantifier": "all vectors, points, lines, sectors, equations and tolerances, over the reals; vertexes for any numeric type", "why_tests_cant": "all directions, quadrants and boundary values", "anchors": [{"file": "cavalier_contours/src/core/math/vector2.rs", "symbols": ["Vector2::dot", "Vector2::perp_dot", "Vector2::length", "Vector2::normalize", "Vector2::perp", "Vector2::unit_perp", "Vector2::rotate_about"]}, {"file": "cavalier_contours/src/core/math/base_math.rs", "symbols": ["min_max", "angle", "midpoint", "point_on_circle", "point_from_parametric", "parametric_from_point", "is_left", "is_left_or_coincident_eps", "is_right_or_coincident_eps", "point_within_arc_sweep", "quadratic_solutions"]}, {"file": "cavalier_contours/src/polyline/pline_vertex.rs", "symbols": ["PlineVertex::from_slice", "PlineVertex::with_bulge"]}]}
{"id": "C57", "title": "Views made by the library pass its own validation", "statement": "For a polyline whose segments are longer than the position epsilon, with an epsilon of at least 1e-5 and points that are at or at least the epsilon away from each vertex and from each other, the data made by from_slice_points, from_entire_pline and from_new_start is found valid by validate_for_source (so the debug assertions on it hold). Data found valid has its indexes within bounds, its ends within 1e-3 of their segments, its end not within 1e-5 of the start of its last segment, and equal bulges within one segment; a refusal names something that is wrong. (With a smaller epsilon a slice that ends just after a vertex is found invalid.)", "quantifier": "all polylines, points and epsilons, over the reals", "why_tests_cant": "all positions of the two points relative to the vertexes, wrapping or not, on open and closed polylines", "anchors": [{"file": "cavalier_contours/src/polyline/pline_view.rs", "symbols": ["PlineViewData::validate_for_source", "PlineViewData::from_slice_points", "PlineViewData::from_entire_pline", "PlineViewData::from_new_start"]}]}
{"id": "C58", "title": "Reading and editing vertexes", "statement": "Reading, setting, inserting, removing and appending vertexes affects exactly the vertex at the given index and leaves the other ones, their order and the closed flag alone; the operations on the last vertex act on the one added last; out of range get returns nothing and at, set, insert and remove panic.", "quantifier": "all polylines, indexes and vertexes, any numeric type", "why_tests_cant": "all lengths and indexes", "anchors": [{"file": "cavalier_contours/src/polyline/traits.rs", "symbols": ["PlineSource::get", "PlineSource::last", "PlineSourceMut::set_vertex", "PlineSourceMut::insert_vertex", "PlineSourceMut::remove", "PlineSourceMut::remove_last", "PlineSourceMut::extend_vertexes", "PlineSourceMut::clear"]}]}
{"id": "C59", "title": "The offset of a circle is the concentric circle or nothing", "statement": "For a closed polyline of two half circles (either sense, any centre and start direction) and no self-intersection handling, parallel_offset returns exactly one closed polyline of two half circles with the same centre, start direction and sense and the radius minus the offset (counterclockwise) or plus it (clockwise), provided that radius is clearly positive; if the offset exceeds the radius by more than the tolerances it returns nothing; the spatial index may be given or built.", "quantifier": "all centres, directions, radii, offsets and options of that kind, over the reals", "why_tests_cant": "all positions, sizes and senses", "anchors": [{"file": "cavalier_contours/src/polyline/internal/pline_offset.rs", "symbols": ["parallel_offset", "create_raw_offset_polyline", "slices_from_raw_offset"]}]}
{"id": "C60", "title": "A raw offset that does not meet itself is returned whole or not at all; the offset of polygons and rectangles", "statement": "If the raw offset of a closed polyline is nowhere cut, parallel_offset returns exactly it if its first vertex keeps its distance from the input, and nothing otherwise. For a closed polygon (no self-intersection handling) the offset lines of neighbouring sides of which meet in the corners of a polygon that clearly does not meet itself, the raw offset is that polygon, so the offset is it if every point of the input is farther from its first corner than |offset| less the distance epsilon, and nothing if some point is clearly nearer. A rectangle of either sense offset by e to its inner side gives the rectangle with the same directions and start corner, e inside on every side.", "quantifier": "all such polylines, polygons, rectangles, offsets and options, over the reals", "why_tests_cant": "all numbers of corners, positions, sizes and directions", "anchors": [{"file": "cavalier_contours/src/polyline/internal/pline_offset.rs", "symbols": ["parallel_offset", "create_raw_offset_polyline", "slices_from_raw_offset"]}]}
{"id": "C61", "title": "What the demo scenes compute", "statement": "The polyline offset scene shows the offsets of the input, then the offsets of those of them that turn like the input, and so on for the chosen number of rounds, each marked by whether it turns like the input, so every polyline shown is an offset of the input or of a shown polyline that turns like it (asked for no round it shows the first one all the same). The shape scene shows shapes each of which is the offset of the one before, none of them empty, at most as many as chosen and fewer only if the next one is empty. The boolean scene gives nothing for open polylines, less than two vertexes or no mode, and otherwise the operation of the mode.", "quantifier": "all polylines, offsets, counts and modes, any numeric type and spatial index", "why_tests_cant": "all numbers of rounds and all ways in which offsets split and turn around", "anchors": [{"file": "cavalier_contours_ui/src/scenes/pline_offset_scene.rs", "symbols": ["build_offset"]}, {"file": "cavalier_contours_ui/src/scenes/multi_pline_offset_scene.rs", "symbols": ["build_offsets"]}, {"file": "cavalier_contours_ui/src/scenes/pline_boolean_scene.rs", "symbols": ["build_boolean_result"]}]}
{"id": "C62", "title": "What the demo program draws and leaves out", "statement": "The commands for a polyline draw exactly the images of its segments under scaling, moving and turning over the second axis, point for point; exactly the polylines whose bounds meet the plot are drawn, and bounds hold their polylines, so one with a point in the plot is drawn as a whole; exactly the vertexes inside are drawn. Culling a path keeps exactly the lines and curves that do not have all their points beyond one side of the rectangle, in order and each beginning where the pen is, and no point of one left out lies in the rectangle. (A path that is closed by its end event can lose its closing line.)", "quantifier": "all polylines, plots, scales and paths, over the reals", "why_tests_cant": "all positions relative to the plot, all curves and all sequences of events", "anchors": [{"file": "cavalier_contours_ui/src/plotting/mod.rs", "symbols": ["cull_path", "plot_bounds_valid"]}, {"file": "cavalier_contours_ui/src/plotting/plines.rs", "symbols": ["PlinePlotData::new", "PlinesPlotItem::shapes"]}]}
{"id": "C63", "title": "Boolean operations on loops that do not meet and on polygons that clearly cross", "statement": "Two closed polylines (of lines and arcs) without a common point are one inside the other or apart, exactly as boolean reports from the winding numbers around their first vertexes, and if no intersect is found either, the loops to add less the loops to subtract are exactly the region of the operation. For polygons every pair of sides of which clearly crosses away from vertexes or lies clearly beside each other, find_intersects reports exactly the common points, each once per pair of sides it is on and no overlap; and if each polygon goes around a point at most once, boolean gives closed loops along the polygons that wind around a point on neither as the operation says, whether they cross or not.", "quantifier": "all such loops and polygons, operations, tolerances and spatial indexes, over the reals", "why_tests_cant": "all shapes, all numbers and places of crossings", "anchors": [{"file": "cavalier_contours/src/polyline/internal/pline_boolean.rs", "symbols": ["polyline_boolean", "process_for_boolean"]}, {"file": "cavalier_contours/src/polyline/internal/pline_intersects.rs", "symbols": ["find_intersects"]}]}
{"id": "C64", "title": "A loop that does not meet itself winds once around its inside", "statement": "For a closed polyline of lines and arcs that passes no point twice there is one value, 1 or -1, such that winding_number of every point not on it is 0 or that value; and as near as one likes to every point of the polyline there are points with winding number 0 and points with that value, so the polyline is exactly the border between them.", "quantifier": "all such polylines and points, over the reals", "why_tests_cant": "all shapes, all points of the plane", "anchors": [{"file": "cavalier_contours/src/polyline/traits.rs", "symbols": ["winding_number"]}]}
{"id": "C65", "title": "The sign of the area is the direction of the loop", "statement": "If winding_number of a closed polyline of lines and arcs is nowhere negative, area is not negative, and it is positive if some winding number is; likewise with the signs exchanged. For a closed polyline that passes no point twice area is not zero, orientation reports Clockwise or CounterClockwise by its sign, and the winding number of every point not on the polyline is zero or one in exactly that direction, and is not zero for some point. A polygon no corner of which is flat and every two sides of which without a common corner lie beside each other passes no point twice.", "quantifier": "all such polylines and points, over the reals", "why_tests_cant": "all shapes, all points of the plane", "anchors": [{"file": "cavalier_contours/src/polyline/traits.rs", "symbols": ["area", "orientation", "winding_number"]}]}
{"id": "C66", "title": "Boolean operations on loops that do not meet themselves", "statement": "For two closed polylines of lines and arcs each of which passes no point twice and which cross cleanly, boolean gives closed loops along them whose winding numbers around a point on neither add up to one fixed sign where the operation says and to zero elsewhere, with nothing assumed about winding numbers or orientations. For polygons whose sides clearly cross or lie clearly beside each other this holds too if they cross, and otherwise the loops to add less those to subtract are the region of the operation.", "quantifier": "all such loops and polygons, operations, tolerances and spatial indexes, over the reals", "why_tests_cant": "all shapes, all numbers and places of crossings", "anchors": [{"file": "cavalier_contours/src/polyline/internal/pline_boolean.rs", "symbols": ["polyline_boolean", "process_for_boolean"]}, {"file": "cavalier_contours/src/polyline/traits.rs", "symbols": ["orientation"]}]}
{"id": "C67", "title": "The inside and the outside of a loop are each in one piece", "statement": "For a closed polyline of lines and arcs that passes no point twice, two points not on it have the same winding_number exactly if one can go from one to the other along straight lines that do not meet the polyline: the points it goes around are all connected, and so are those it does not go around.", "quantifier": "all such polylines and pairs of points, over the reals", "why_tests_cant": "all shapes, all pairs of points of the plane", "anchors": [{"file": "cavalier_contours/src/polyline/traits.rs", "symbols": ["winding_number"]}]}
{"id": "C68", "title": "The positive loops less the negative loops are the region of a boolean operation", "statement": "For two closed polylines of lines and arcs each of which passes no point twice, which cross cleanly and whose insides overlap (some point is inside both, some inside each only), a point on neither is inside a positive loop and inside no negative loop of the result of boolean exactly if the operation (or, and, not, xor) says so of its being inside the two. For polygons whose sides clearly cross or lie clearly beside each other this holds with nothing assumed about crossings or overlap, whether or not they meet.", "quantifier": "all such loops and polygons, all four operations, tolerances, spatial indexes and points, over the reals", "why_tests_cant": "all shapes, all numbers and places of crossings, all nestings of holes in a union", "anchors": [{"file": "cavalier_contours/src/polyline/internal/pline_boolean.rs", "symbols": ["polyline_boolean", "process_for_boolean", "stitch_slices_into_closed_polylines"]}]}
{"id": "C69", "title": "The inward offset of a convex polygon encloses the points farther inside than the offset", "statement": "The points winding_number goes around for a convex polygon that passes no point twice are exactly those strictly on the inner side of all sides. If the sides of such a polygon, moved by e to the inner side, meet their neighbours in points at least e inside of all sides, which are corners of a polygon that clearly does not meet itself, then parallel_offset by e to that side (no self-intersection handling) returns exactly that one polygon, and a point on neither is inside it exactly if it is inside the given polygon and farther than e from every point of it.", "quantifier": "all such polygons of either sense, offsets, options, spatial indexes and points, over the reals", "why_tests_cant": "all numbers of corners and angles, all points of the plane", "anchors": [{"file": "cavalier_contours/src/polyline/traits.rs", "symbols": ["winding_number", "parallel_offset_opt"]}, {"file": "cavalier_contours/src/polyline/internal/pline_offset.rs", "symbols": ["parallel_offset", "create_raw_offset_polyline"]}]}
{"id": "C70", "title": "The outward offset of a convex polygon rounds its corners and encloses the points nearer than the offset", "statement": "The raw offset path of a polygon each corner of which is clearly one where the moved sides meet or clearly one to be rounded consists of those meeting points and of arcs about the rounded corners, in order. For a convex polygon whose corners are clearly off the lines of the other sides and whose sides have clearly different directions, parallel_offset by e to the outer side (no self-intersection handling) returns exactly one closed polyline: the moved sides joined by arcs of radius e about the corners. It passes no point twice, all its points are at distance exactly e from the polygon, and a point not on it is inside it exactly if it is inside the polygon or nearer to it than e.", "quantifier": "all such polygons of either sense, offsets, options, spatial indexes and points, over the reals", "why_tests_cant": "all numbers of corners and angles, all points of the plane", "anchors": [{"file": "cavalier_contours/src/polyline/traits.rs", "symbols": ["winding_number", "parallel_offset_opt"]}, {"file": "cavalier_contours/src/polyline/internal/pline_offset.rs", "symbols": ["parallel_offset", "create_raw_offset_polyline", "create_untrimmed_raw_offset_segs"]}]}
{"id": "C71", "title": "Boolean operations on loops of lines and arcs that clearly cross or clearly do not meet", "statement": "For two segments (lines or arcs) that clearly miss each other or clearly cross, pline_seg_intr reports exactly the common points, each once and never an overlap. For two closed polylines every pair of segments of which is of that kind, with common points away from vertexes and from each other, find_intersects reports exactly the common points; and if each passes no point twice, a point on neither is inside a positive loop and inside no negative loop of the result of boolean exactly if the operation (or, and, not, xor) says so of its being inside the two. In particular boolean on two circles, of either direction, that clearly cross or clearly do not meet gives exactly the operation on the two discs.", "quantifier": "all such loops of lines and arcs and all such circles, all four operations, tolerances, spatial indexes and points, over the reals", "why_tests_cant": "all shapes with arcs, all numbers and places of crossings, all points of the plane", "anchors": [{"file": "cavalier_contours/src/polyline/internal/pline_boolean.rs", "symbols": ["polyline_boolean", "process_for_boolean", "stitch_slices_into_closed_polylines"]}, {"file": "cavalier_contours/src/polyline/internal/pline_intersects.rs", "symbols": ["find_intersects"]}, {"file": "cavalier_contours/src/polyline/pline_seg_intersect.rs", "symbols": ["pline_seg_intr"]}]}
{"id": "C72", "title": "Winding numbers determine areas, and the areas of boolean results add up", "statement": "If closed polylines of lines and arcs, counted with whole weights, wind together around no point off them more often than other such polylines, then the equally weighed sum of their areas is no larger; so a loop inside another has no larger area. For two loops each of which passes no point twice and whose segments clearly cross or clearly miss each other, every loop in a result of boolean winds at most once around any point, in the direction of its orientation; every point on neither is covered by exactly one more positive than negative loops if the operation says so, else by as many; and with the area of a result taken as the areas of the positive loops less those of the negative loops (without sign): or + and = the areas of the two loops, not + and = the area of the first, xor + and = or, and the area of and is between 0 and the smaller of the two. A circle of radius r has area pi r^2, with the sign of its direction.", "quantifier": "all such lists of loops, all such pairs of loops and circles, tolerances and spatial indexes, over the reals", "why_tests_cant": "all shapes with arcs, all numbers and places of crossings, equations between real numbers that tests only check up to rounding", "anchors": [{"file": "cavalier_contours/src/polyline/internal/pline_boolean.rs", "symbols": ["polyline_boolean", "stitch_slices_into_closed_polylines"]}, {"file": "cavalier_contours/src/polyline/traits.rs", "symbols": ["area", "winding_number", "orientation"]}]}
{"id": "C73", "title": "The offset of a shape whose offset loops do not meet, and of discs with holes", "statement": "If the offsets of the loops of a shape are not found to intersect each other, Shape::parallel_offset returns whole offsets, in order: those the middle of whose first segment passes the test of distance to every other input loop. A shape of circles whose offset circles clearly miss each other becomes the shape of the concentric circles moved by the offset (counterclockwise ones smaller, clockwise ones larger for a positive offset), without those that vanish and without those too near to another circle. For discs with holes, a point is inside the result (inside a counterclockwise loop and no clockwise one) exactly if it is in the plate and farther than the offset from all its circles (inwards), or in the plate or nearer than the offset to one of them (outwards).", "quantifier": "all such shapes with any number of loops, offsets, options, spatial indexes and points; circles over the reals", "why_tests_cant": "all numbers and places of circles, all points of the plane", "anchors": [{"file": "cavalier_contours/src/shape_algorithms/mod.rs", "symbols": ["Shape::from_plines", "Shape::parallel_offset"]}]}
{"id": "C74", "title": "The areas and lengths of the offsets of convex polygons", "statement": "For a convex polygon whose corners are clearly off the lines of the other sides and whose sides have clearly different directions, with area A and path length L, parallel_offset by e to the outer side (no self-intersection handling) returns one closed polyline with path length L + 2 pi e whose area is larger by e L + pi e^2 (in the sign of the polygon's direction): its arcs turn once round. If the moved sides of such a polygon meet their neighbours in points at least e inside of all sides that are corners of a polygon that clearly does not meet itself, the offset by e to the inner side is a polygon with some path length L' whose area is smaller by e (L + L') / 2. No side may be shorter than the tolerance below which path_length ignores it.", "quantifier": "all such polygons of either sense, offsets, options and spatial indexes, over the reals", "why_tests_cant": "all numbers of corners and angles; equations between real numbers that tests only check up to rounding", "anchors": [{"file": "cavalier_contours/src/polyline/traits.rs", "symbols": ["area", "path_length", "parallel_offset_opt"]}, {"file": "cavalier_contours/src/polyline/internal/pline_offset.rs", "symbols": ["parallel_offset", "create_raw_offset_polyline"]}]}
{"id": "C75", "title": "Boolean operations on two loops along the same segments", "statement": "pline_seg_intr reports a line or arc, not as short as the tolerance, and the same segment forwards or backwards as overlapping over the whole of it; segments that clearly have no part in common (lines clearly not parallel or beside each other, a line and an arc, arcs of clearly different circles, arcs of one circle that follow each other or are clearly apart) are never reported as overlapping. If every segment of a closed polyline is a segment of another one, forwards or backwards, whose segments clearly have no part in common, boolean of the two reports them as overlapping and returns the second as the result of or and of and, and nothing for not and xor. Two loops that pass no point twice but the same points go around the same points, so for two such loops each along the segments of the other this is exactly the region of the operation. In particular for a polygon that clearly does not meet itself and a circle, against themselves from any start in either direction.", "quantifier": "all such loops of lines and arcs, starts and directions, all four operations, tolerances and spatial indexes, over the reals", "why_tests_cant": "all shapes with arcs and all starting points; exact ties in every comparison, which tests with chosen coordinates rarely hit", "anchors": [{"file": "cavalier_contours/src/polyline/internal/pline_boolean.rs", "symbols": ["polyline_boolean", "process_for_boolean"]}, {"file": "cavalier_contours/src/polyline/internal/pline_intersects.rs", "symbols": ["find_intersects", "sort_and_join_overlapping_intersects"]}, {"file": "cavalier_contours/src/polyline/pline_seg_intersect.rs", "symbols": ["pline_seg_intr"]}]}
{"id": "C76", "title": "The inward offset of a convex polygon some sides of which vanish", "statement": "For a convex polygon, when the moved sides of neighbouring sides meet and the polygon with these points as corners clearly crosses itself (as when sides are too short to survive the offset), away from its corners and with crossings clearly apart, and the parts of its sides after each crossing are clearly kept or clearly too near to the polygon: parallel_offset by e to the inner side (no self-intersection handling) returns closed polygons along that crossing polygon which together wind, in the sense of the given polygon, once round every point inside of it farther than e from it, and around no point outside of it or nearer to it than e; so the inverted loops are cut off and thrown away, and nothing else is.", "quantifier": "all such polygons of either sense, offsets, options, spatial indexes and points, over the reals", "why_tests_cant": "all numbers of corners, angles and vanishing sides, all points of the plane", "anchors": [{"file": "cavalier_contours/src/polyline/internal/pline_offset.rs", "symbols": ["parallel_offset", "create_raw_offset_polyline", "slices_from_raw_offset", "stitch_slices_together", "point_valid_for_offset"]}, {"file": "cavalier_contours/src/polyline/traits.rs", "symbols": ["winding_number"]}]}
{"id": "C77", "title": "The loops of a boolean result pass no point twice and share no points", "statement": "For two closed polylines of lines and arcs each of which passes no point twice and whose segments clearly cross or clearly miss each other, every loop in the result of boolean (or, and, not, xor), to add or to subtract, passes no point twice itself and lies along the two, and no two loops of the result have a point in common, but for xor where they may touch in points where the two polylines cross. In particular for two circles that clearly cross or clearly do not meet.", "quantifier": "all such loops of lines and arcs and all such circles, all four operations, tolerances and spatial indexes, over the reals", "why_tests_cant": "all shapes with arcs, all numbers and places of crossings, all pairs of points of the results", "anchors": [{"file": "cavalier_contours/src/polyline/internal/pline_boolean.rs", "symbols": ["polyline_boolean", "prune_slices", "stitch_slices_into_closed_polylines"]}]}
{"id": "C78", "title": "The offset of a polygon of any shape whose raw offset keeps the distance", "statement": "For a polygon, convex or not, that passes no point twice, each corner of which is clearly one where the moved sides meet or clearly one to be rounded, offset by d to either side: if the path of these meeting points and arcs clearly does not meet itself and stays at |d| or more from the polygon, parallel_offset (without self-intersection handling) returns just this path, and it passes no point twice. To the inner side (d has the sign of the area) winding_number goes around exactly the points inside the polygon and farther than |d| from it; to the outer side exactly around those on the polygon, inside it or within |d| of it (points on the path itself apart). The points of the path are exactly those on its side of the polygon whose distance from it is |d|; the path goes round the same way as the polygon (orientation, sign of area), and its area is no larger to the inner and no smaller to the outer side. With self-intersection handling the result is the same if the raw offset to the other side clearly misses the path.", "quantifier": "all such polygons of either sense, offsets to either side, options, spatial indexes and points, over the reals", "why_tests_cant": "all shapes of polygons, all numbers of corners and angles, all points of the plane", "anchors": [{"file": "cavalier_contours/src/polyline/internal/pline_offset.rs", "symbols": ["parallel_offset", "create_raw_offset_polyline"]}, {"file": "cavalier_contours/src/polyline/traits.rs", "symbols": ["winding_number", "area"]}]}
{"id": "C79", "title": "The offset of a shape of polygons of any form with holes", "statement": "Take counterclockwise and clockwise polygons of any form as in the property about the offset of one polygon, for each of which the path of its moved sides and rounded corners clearly does not meet itself, clearly misses those of the others and stays at |d| or more from all the polygons. Shape::from_plines and Shape::parallel_offset by d return a shape whose counterclockwise loops are exactly these paths of the counterclockwise polygons, in order, and whose clockwise loops are those of the clockwise ones. If the counterclockwise ones are side by side and the clockwise ones holes in them, side by side, a point not on the result is inside it (inside a counterclockwise loop and no clockwise one) exactly if it is inside the shape and farther than d from all its loops for d > 0, or inside the shape or within -d of one of its loops for d < 0.", "quantifier": "all such shapes with any number of polygons and holes, offsets to either side, options, spatial indexes and points, over the reals", "why_tests_cant": "all numbers and forms of polygons, all points of the plane", "anchors": [{"file": "cavalier_contours/src/shape_algorithms/mod.rs", "symbols": ["Shape::from_plines", "Shape::parallel_offset"]}, {"file": "cavalier_contours/src/polyline/internal/pline_offset.rs", "symbols": ["parallel_offset", "create_raw_offset_polyline"]}]}
{"id": "C80", "title": "The offset of an open polyline of lines whose raw offset keeps the distance", "statement": "For an open polyline of two or more lines each corner of which is clearly one where the moved lines meet or clearly one to be rounded, the raw offset by d is the path from the start moved to its left by d, along these meeting points and arcs, to the end moved to its left, and every point of it is at |d| from a point of the polyline. If this path clearly does not meet itself, the path on the other side or the polyline, stays at |d| or more from the polyline, and clearly stays off the circles with radius |d| about the two ends apart from where it begins and ends, parallel_offset returns just this path, one open polyline whose points are at the distance |d| exactly.", "quantifier": "all such polylines with any number of lines, offsets to either side, options and spatial indexes, over the reals", "why_tests_cant": "all numbers of corners and angles, all points of the path; the exact touching of the circles about the ends", "anchors": [{"file": "cavalier_contours/src/polyline/internal/pline_offset.rs", "symbols": ["parallel_offset", "create_raw_offset_polyline", "slices_from_dual_raw_offsets", "visit_circle_intersects"]}]}
{"id": "C81", "title": "An offset whose cuts are all too near to the polyline is empty", "statement": "If the first vertex of the raw offset, its last vertex when the polyline is open, and every place where the raw offset is cut (where it meets itself, the raw offset to the other side, or the circles about the ends of an open polyline) fail the distance test of the offset, parallel_offset returns no polyline, for polylines of lines and arcs, with and without self-intersection handling. The test fails for every point whose distance from the polyline is clearly less than the offset minus its tolerance. In particular a rectangle offset to its inner side by clearly more than half of its width or height (and by no more than either) gives no result.", "quantifier": "all polylines, offsets, options and spatial indexes for the first part, over any numbers; all rectangles in any position over the reals", "why_tests_cant": "all shapes and crossings of raw offsets; that nothing at all is returned", "anchors": [{"file": "cavalier_contours/src/polyline/internal/pline_offset.rs", "symbols": ["parallel_offset", "slices_from_raw_offset", "slices_from_dual_raw_offsets", "point_valid_for_offset"]}]}
{"id": "C82", "title": "Inward offsets of a convex polygon add up", "statement": "For a convex polygon, when the moved sides of neighbouring sides meet in the corners of a polygon at least e1 inside of all sides that clearly does not meet itself, and the same holds for that polygon and e2: parallel_offset by e1 to the inner side (no self-intersection handling) followed by parallel_offset of its result by e2 gives exactly the polyline, vertex by vertex, that parallel_offset by e1 + e2 gives.", "quantifier": "all such convex polygons of either sense, offsets, options and spatial indexes, over the reals", "why_tests_cant": "all numbers of corners and angles and all pairs of offsets; an equation between results that tests only check up to rounding", "anchors": [{"file": "cavalier_contours/src/polyline/internal/pline_offset.rs", "symbols": ["parallel_offset", "create_raw_offset_polyline"]}]}
{"id": "C83", "title": "Moving the input moves the offset, the intersections and the measures", "statement": "Let a polyline be translated by any vector (translate_mut moves every vertex by it). winding_number about the moved point is unchanged, also for points on the polyline; closest_point finds the same segment and distance and the moved point; extents is the moved box; the intersection of two moved segments (lines or arcs) is the same case with moved points; find_intersects of two moved polylines is the same list with moved points; and parallel_offset, with and without self-intersection handling, for every polyline with any arcs, crossings and degenerate segments, returns the same polylines in the same order with every vertex moved and every bulge unchanged, or panics exactly when it does without the move. The spatial index has to answer moved questions about moved boxes as before.", "quantifier": "all polylines, translation vectors, points, offsets and options, over the reals; all index constructors that respect the move", "why_tests_cant": "all inputs of the whole offset algorithm, also those whose result is not described by another property; floating point tests only see this up to rounding", "anchors": [{"file": "cavalier_contours/src/polyline/internal/pline_offset.rs", "symbols": ["parallel_offset", "create_raw_offset_polyline", "slices_from_raw_offset", "slices_from_dual_raw_offsets", "stitch_slices_together"]}, {"file": "cavalier_contours/src/polyline/traits.rs", "symbols": ["winding_number", "closest_point", "extents", "translate_mut"]}, {"file": "cavalier_contours/src/polyline/internal/pline_intersects.rs", "symbols": ["find_intersects"]}]}
{"id": "C84", "title": "Moving both polylines moves the result of a boolean operation", "statement": "Let two polylines be translated by the same vector. area, orientation and path_length of each are unchanged; the joined overlapping slices (sort_and_join_overlapping_intersects) are the moved ones; and polyline_boolean, for each of the four operations and every two polylines with any arcs, crossings, overlaps and degenerate segments, gives the same result info and the same positive and negative loops in the same order, every vertex moved and every bulge unchanged, made of the same slices moved, or panics exactly when it does without the move. The spatial index has to answer moved questions about moved boxes as before.", "quantifier": "all pairs of polylines, translation vectors, operations and tolerances, over the reals; all index constructors that respect the move", "why_tests_cant": "all inputs of the whole boolean algorithm, also those whose result is not described by another property; floating point tests only see this up to rounding", "anchors": [{"file": "cavalier_contours/src/polyline/internal/pline_boolean.rs", "symbols": ["polyline_boolean", "process_for_boolean", "slice_at_intersects", "prune_slices", "stitch_slices_into_closed_polylines"]}, {"file": "cavalier_contours/src/polyline/traits.rs", "symbols": ["area", "orientation", "path_length"]}, {"file": "cavalier_contours/src/polyline/internal/pline_intersects.rs", "symbols": ["sort_and_join_overlapping_intersects"]}]}
{"id": "C85", "title": "Moving the polylines of a shape moves its offset", "statement": "Let all polylines of a shape be translated by the same vector. Shape::from_plines gives the same counterclockwise and clockwise loops in the same order, moved, and Shape::parallel_offset of a moved shape, for every offset, options and every polylines with any arcs, crossings and overlaps, gives the same counterclockwise and clockwise loops in the same order, with every vertex moved and every bulge unchanged and spatial indexes over the moved boxes, or panics exactly when it does without the move. The spatial index has to answer moved questions about moved boxes as before.", "quantifier": "all shapes of any polylines, translation vectors, offsets and options, over the reals; all index constructors that respect the move", "why_tests_cant": "all inputs of the whole shape offset algorithm, also those whose result is not described by another property", "anchors": [{"file": "cavalier_contours/src/shape_algorithms/mod.rs", "symbols": ["Shape::from_plines", "Shape::parallel_offset"]}]}
{"id": "C86", "title": "Moving the polyline moves the results of the editing functions", "statement": "Let a polyline be translated by any vector. remove_repeat_pos, create_from_remove_repeat, remove_redundant, arcs_to_approx_lines and invert_direction_mut of the moved polyline give the moved result of the polyline, and none exactly when they give none without the move; so does rotate_start with the moved point; find_point_at_path_length gives the same segment and the moved point, or the same path length if the path is too short; and all_self_intersects_as_basic gives the same pairs of segments with moved points, for a spatial index that answers moved questions about moved boxes as before. All panic exactly when they do without the move.", "quantifier": "all polylines, translation vectors, points, tolerances and lengths, over the reals", "why_tests_cant": "all polylines with any arcs and degenerate segments; an equation between results that floating point tests only see up to rounding", "anchors": [{"file": "cavalier_contours/src/polyline/traits.rs", "symbols": ["remove_repeat_pos", "remove_redundant", "rotate_start", "arcs_to_approx_lines", "invert_direction_mut", "find_point_at_path_length", "create_from_remove_repeat"]}, {"file": "cavalier_contours/src/polyline/internal/pline_intersects.rs", "symbols": ["all_self_intersects_as_basic"]}]}
