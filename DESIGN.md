# Design: a machine-checked model of cavalier_contours

Source: `/repo` (Rust). Prover: Rocq / Coq 8.16.1. Everything is in `rocq/theories`.

## 1. What is modelled, and how

### Numbers
The Rust code is generic over `T: Real`. The model is generic over a record of numeric
operations `Num T` (`Num.v`), one field per method of `Real` the code calls.

* **Structural** theorems are proved for *every* `Num T`, so they hold for f64 and f32 with all
  rounding, NaN and infinities. If such a theorem needs a law (e.g. `- - x = x`) it is a hypothesis.
* **Geometric** theorems are proved for the instance over Coq's real numbers `R` (`RNum.v`). They say
  that the *formulas* are right; rounding is not covered. This is stated in every such property.
* An instance over binary64 (`FNum.v`, Coq's primitive floats: bit exact for `+ - * / sqrt`, `<`, `<=`;
  trigonometric functions are approximations) runs the model on cases of the repo's own test-suite
  (`Test*.v`) to check that the model does what the code does. Counterexamples are computed with it when they
  involve no trigonometry; otherwise over `R`.

### Panics, loops, mutation
* Panics are data: `res A := Ret a | Panic kind` (index out of bounds, unsigned underflow, `unwrap`/`expect` on
  None, `unreachable!`, out of fuel). Total functions of the code that cannot panic are plain functions.
* `usize` arithmetic is `nat`; `a - b` with `a < b` is `Panic Underflow` (debug profile; in release it wraps).
  Overflow beyond 2^64 is not modelled.
* `debug_assert!` is not executed by the model (release profile). Where the asserted condition matters, the theorem has it
  as hypothesis.
* `for` loops are folds; `while`/`loop` use fuel with an explicit `OutOfFuel` panic, and theorems either exclude it or prove it
  impossible.
* `&mut self` methods return the new value.

### Polylines, views, spatial index
* A `PlineSource` is a record (vertex list, closed flag). Trait methods with default bodies are modelled from these
  bodies. `PlineView` is modelled by its own `get_vertex` and turned into a vertex list by reading indexes
  `0..vertex_count`.
* `StaticAABB2DIndex` (external crate) is modelled as a list of boxes together with a query function that is *any*
  function returning exactly the overlapping positions, each once, in any order. Theorems quantify over that function.
* `HashSet`, `BTreeMap` are modelled by lists / association lists with the same observable membership.

### Independent specification
`Spec*.v` files define what a segment *is* without model helpers: a line is `{p1 + t(p2-p1)}`; an arc with bulge `b` is
`{c + r(cos(a+t*4*atan b), sin(a+t*4*atan b))}`, for the centre/radius/angle fitting both end points; plus lists
rotated, winding by continuous lifts, integrals, ownership histories. Property theorems are stated with those.

### File layout
| file | content |
|---|---|
| `Num.v`, `Res.v` | numeric interface, panics |
| `Model*.v` | the model, function by function, with file/line citations; no proofs |
| `RNum.v`, `FNum.v` | instances |
| `Spec*.v` | independent specifications |
| `Proof*.v` | lemmas |
| `Prop_*.v` | property theorems only (`exact lemma`), with `Print Assumptions` |
| `TestUtil.v`, `TestOffset.v`, `TestShape.v`, `TestBoolean.v` | fidelity checks: the repo's own offset, shape and boolean test cases run on the model |
| `TestIntr.v`, `TestBasics.v`, `TestView.v`, `TestIntersects.v` | the same for the repo's tests of line/circle/segment intersections, winding numbers, polyline basics, views, and the unit tests of pline_intersects.rs |

## 2. Per property

Structural = for every `Num T`; Real = over `R`.

| id | what is modelled | how it is proved |
|---|---|---|
| C01 | `remove_repeat_pos` loop | structural; induction over the list with the last-kept vertex as invariant; non-transitive end case expected to be refuted |
| C02 | `invert_direction_mut` | structural; segments of result = map swap (rev segments) |
| C03 | `rotate_start` | structural, with `seg_split_at_point` opaque; list rotation |
| C04 | index helpers | `lia` with modulo |
| C05 | the three iterators as state machines | structural; induction over arbitrary call sequences |
| C06 | `seg_length`, `path_length` | real; arc length of parametrisation; sums over segment lists |
| C07 | `area` | real; antiderivative of x dy - y dx on lines and arcs |
| C08 | `orientation` | from C07 |
| C09 | `extents` | real; monotonicity of sin/cos; SpecBox: every point inside and every side reached |
| C10 | both boxes | real; same as C09; fast box by half-plane argument for |b|<=1 |
| C11 | `seg_arc_radius_and_center` | real; field identities plus half-angle formulas |
| C12 | `seg_split_at_point` | real; tan(a/4) addition |
| C13 | `seg_midpoint`, `seg_tangent_vector` | real |
| C14 | `closest_point` and helpers | real; SpecClosest names the tolerance cases (grazing, near centre, foot at an end); the unscaled sector test gives a refuted clause |
| C15 | `winding_number` | real; SpecWinding: a continuous angle followed along each segment; telescoping of a branch angle |
| C16 | `find_point_at_path_length` | real; SpecWalk: where a walk of a given length along the segments ends |
| C17 | `arcs_to_approx_lines` | real; SpecFlat: equal parts, distance of every arc point to its chord, least count; float witnesses for unusable error distances |
| C18 | angle helpers | real; floor/up arithmetic |
| C19 | bulge/angle | real; atan/tan |
| C20 | `line_line_intr` | real; Cramer |
| C21 | `line_circle_intr` | real; quadratic |
| C22 | `circle_circle_intr` | real |
| C23 | `pline_seg_intr` | real; one theorem per pair of shapes (lines, collinear lines, line and arc, arcs, arcs of one circle, concentric arcs); nearness measured by `near_seg`; seven refutations (steep overlap, order of two arc points, small arcs, shallow and tangent crossings, opposite and large arcs) |
| C24 | self-intersect visitors | structural, SpecIntersects; any index order (SpecIndex) and visitor; real for meeting segments |
| C25 | `find_intersects` | structural, SpecIntersects; any index order; real for meeting segments |
| C26 | `PlineViewData::get_vertex` | structural |
| C27 | `from_entire_pline`, `from_new_start` | entire: structural; new start: real (pieces of segments) |
| C28 | `from_slice_points`, `create*` | real: the view is the list of pieces of the source between the two points |
| C29 | `sort_and_join_overlapping_intersects` | structural, SpecJoin; order and path real; two clauses refuted with floats |
| C30 | `polyline_boolean` (no-intersect part) | structural, any number type; case table `whole_loops`, and the region it denotes |
| C31 | boolean stitching | structural, any number type, any index order and selector; inductive description of the chains |
| C32 | `prune_slices`, `slice_at_intersects`, `polyline_boolean` | structural, any number type: candidates, what is kept, what is stitched; over R: candidates run between consecutive cut points; refutation by area |
| C33 | `create_untrimmed_raw_offset_segs`, `bulge_for_connection` | real; SpecOffset: left normal, concentric arc, distance of corresponding points |
| C34 | `point_valid_for_offset`, slice validity | real; SpecIndex (any query order), SpecOffset2; uses C10, C13, C14 |
| C35 | offset stitching (`C35_stitching`, `C35_near`; spec SpecChain) | structural; chains of slices as an inductive relation, every slice used once |
| C36 | `parallel_offset` contract, never panics (`C36_contract`); one-vertex, empty, wrap-around and open results refuted in floats | structural |
| C37 | `Shape`: partition, and the offset as a relation between its stages (`SpecShape.offset_of_shape`: outlines, meeting points, slices that pass, chains, joined loops); the point tested is far enough over R; absence of panics, distance of the result and the place of open polylines refuted in floats | structural, R |
| C38 | `remove_redundant`: the result is the input with vertexes dropped one at a time (`SpecRedundant.dropped`); single drops that are exact keep the drawn points (over R); lost end point, lost corner, panic and dropped right angle refuted in floats | structural, R |
| C39 | additions | structural; induction |
| C40 | scale/translate | structural, and real for the drawn path (SpecWalk.path_image) |
| C41 | accessors | structural; `last` on empty expected to be refuted |
| C42 | C API | ModelFfi: memory = list of live/freed objects, handles = addresses, every cavc_* function; SpecFfi lists handles, codes, mutable handles |
| C43 | C API lists | SpecFfi.accounts: memory agrees with who owns what; histories of allowed calls; leak of list members refuted clause |
| C44 | serde impls | ModelSerde: token streams in delimited, count-prefixed and bare formats |
| C45 | `polyline_boolean` | structural, any number type: no panic if the joined overlaps fit; when they fit; refutation for a polyline that touches itself |
| C46 | `parallel_offset` distance of result vertexes (`C46_far`), refuted for the raw offset kept whole and between the vertexes | reals; float runs |
| C47 | `line_line_join`, `line_arc_join`, `arc_line_join`, `arc_arc_join`, `connect_using_arc`, the first vertex of `create_raw_offset_polyline` | reals, per pair of raw segments: meeting, touching, missing and not reaching each other; float refutation for short lines |
| C48 | `create_raw_offset_polyline` of polylines of lines | reals: every point of the raw path, all vertex counts, closed and open; float run |
| C49 | `slices_from_raw_offset`, `slices_from_dual_raw_offsets`, `visit_circle_intersects` as a relation between raw offset, cuts and kept slices (SpecCuts) | any `Num`: cuts, order, stretches, validity of each slice, whole `parallel_offset`; reals: circle cuts sound and complete; float run and witnesses of the long-line failure |
| C50 | `winding_number` as a function of the point | reals: constant along lines, curves and near a point off the path |
| C51 | `polyline_boolean` of crossing loops, from `find_intersects` to the stitched loops (SpecRegion) | reals: sum of winding numbers of the result at every point off both loops, all operations, lines and arcs; no overlaps; example of two triangles evaluated over the reals |
| C52 | every function of the C API on live handles (`holds`, `kept`, `changed_to`, `only_freed` in SpecFfi) | any numeric type; extents of an index over the reals |
| C53 | `fuzzy_eq_eps`, `fuzzy_gt_eps`, `fuzzy_lt_eps`, `fuzzy_in_range_eps`, points and polylines | reals |
| C54 | `parallel_offset` from the raw offset to the joined results (SpecOffNear: `clean_offset`, `from_raw`) | reals: every segment and point of every result, lines and arcs, open and closed; near the input for polylines of lines |
| C55 | `parallel_offset` of a polyline of one line | reals: the exact result |
| C56 | `vector2.rs`, `base_math.rs`, `pline_vertex.rs` | vectors by length and direction, points by parameter; reals |
| C57 | `validate_for_source` on the data made by the three constructors | `SpecValid`: near its segment, bounds; reals, epsilon at least 1e-5 |
| C58 | `PlineSource` / `PlineSourceMut` on `Polyline` | lists split at the index; any numeric type |
| C59 | `parallel_offset` on circles | two half circles about a centre; results compared exactly, over the reals; only without self-intersection handling |
| C60 | `parallel_offset` on closed polylines whose raw offset does not meet itself | "does not meet itself" for a polygon: corners not flat, and of any two sides without a common corner one clearly on one side of the other's line; over the reals; only without self-intersection handling for the polygon forms |
| C61 | `build_offset`, `build_offsets`, `build_boolean_result` of the demo scenes | inductive generations; any numeric type; results of the offset and boolean functions themselves are those of the library model |
| C62 | `cull_path`, the paths built for `PlinesPlotItem`, plot bounds | the plot transform scales both axes alike and turns the second over; reals instead of f32; Bernstein forms for the curves |
| C63 | `find_intersects` and `polyline_boolean` on loops without common points and on polygons | reals; `clear_pair` in SpecPolyBool.v asks only for coordinates: sides beside each other or crossing away from vertexes; that each polygon winds at most once is assumed |
| C64 | `winding_number` of loops that pass no point twice (`passes_once` in SpecJordan.v, stated with `point_at`) | reals; lines and arcs up to half circles; the argument follows the two values beside a segment past every vertex |
| C65 | `area`, `orientation` against `winding_number`; `passes_once`, `lone_polygon` | reals; lines and arcs up to half circles; the path integral is compared level by level with the winding numbers along each level (ProofArea*.v) |
| C66 | `polyline_boolean` as in C51 and C63, with `passes_once` in place of assumptions on winding numbers | as C51 and C63 |
| C67 | `winding_number` of loops that pass no point twice against ways along straight lines off the loop (`joined` in SpecJordan.v) | reals; lines and arcs up to half circles; whatever is locally constant off the loop has one value inside and one outside (`same_linked`, also used for C68) |
| C68 | `polyline_boolean` with the region its doc comment describes (`region` in SpecBoolean.v: inside a positive and in no negative loop), for loops as in C66 whose insides overlap (`overlap` in SpecRegion.v; proved of crossing polygons) | as C66; crossings found are those of `find_intersects`, without overlaps |
| C69 | `parallel_offset` of convex polygons as in C60, with the region it encloses (`inside` by `winding_number`) against distances from the input; `convex`, `within_by` in SpecConvex.v | reals; no side vanishes (the offset has as many corners as the input), no self-intersection handling |
| C70 | `create_raw_offset_polyline` of polygons with met and rounded corners; `parallel_offset` of convex polygons to the outer side with the region it encloses; `made_corners`, `rounded_corners`, `roomy`, `coarse` in SpecRound.v | reals; every corner clearly rounded (room m compared with the tolerance), no self-intersection handling |
| C71 | `pline_seg_intr`, `find_intersects` and `polyline_boolean` on loops of lines and arcs, and on circles drawn as two half circles; `clear_loops`, `clear_circles` in SpecCurve.v | reals; every pair of segments clearly crosses away from vertexes or clearly misses (a line must miss the whole circle of an arc, and two arcs each other's circles, unless they cross with all points decided); radii at most 25000000 times the tolerance, so that no part of an arc between two crossings counts as straight |
| C72 | `area` and `winding_number` of weighed lists of loops; `polyline_boolean` on the loops and circles of C71; `covers`, `net_area` in SpecTotal.v | reals; areas of the results without sign, positive loops less negative loops; loops as in C71 |
| C73 | `shape_from_plines`, `shape_parallel_offset`; first part for any numbers, circles and plates over the reals; `fated` in SpecRing.v says which circles vanish, are hidden or stay | offset circles miss each other by the tolerance, and each is far enough from the other inputs, too near to one all along, or gone; inside the shape means inside a counterclockwise loop and no clockwise one |
| C74 | `parallel_offset`, `area`, `path_length` over the reals, for the polygons of C70 (outward) and C69 (inward) | no side below the tolerance under which `path_length` skips a segment (`no_tiny`); same clear positions as C69 and C70 |
| C75 | `pline_seg_intr`, `find_intersects`, `sort_and_join_overlapping_intersects`, `polyline_boolean` over the reals, for loops each segment of which is a segment of the other loop | exact coincidence only (partly shared outlines are in C29, C39); no segment as short as the tolerance; arcs of one circle touch at ends or leave a clear gap |
| C76 | `parallel_offset` (raw offset, self intersections, slices, distance test, stitching) and `winding_number` over the reals, for convex polygons whose raw offset crosses itself | straight sides; no corner may be rounded (moved neighbours meet) and no side too short for that; crossings clearly apart from each other and from corners; the slices between crossings clearly kept or clearly thrown away; without self-intersection handling |
| C77 | `polyline_boolean` (slices, pruning, stitching) on the loops and circles of C71; `passes_once` in SpecJordan.v | reals; loops as in C71 |
| C78 | `parallel_offset` with the raw offset of C70 for polygons of any shape; `lone_path` (SpecSimple.v) says that the raw path clearly does not meet itself, `clearly_miss` that the raw paths to the two sides clearly miss each other (a line may touch the circle of an arc away from both) | reals; the raw path keeps the distance; `C78_handled` is with self-intersection handling, the others without |
| C79 | `shape_from_plines`, `shape_parallel_offset` with the offset of C78 for every loop; `fits`, `keep_clear`, `with_holes`, `on_shape` (SpecPieces.v) | reals; the raw paths keep the distance from all loops and clearly miss each other |
| C80 | `create_raw_offset_polyline`, `parallel_offset` for open polylines of lines with two or more lines (one line is C55); `path_beside` (SpecOpen.v) says what the raw path is, `lone_open` that it clearly does not meet itself, `off_ends` that only its first and last segment meet the circles about the ends | reals; the raw path keeps the distance; the path may be cut at its very end, where it touches the circle about the end, and the rest of no length is dropped |
| C81 | `parallel_offset` with both ways of cutting; where the raw offset is cut is `offset_cuts` (SpecOffNear.v), the distance test `clear_point` (SpecCuts.v), `too_near` (SpecNothing.v) says when it surely fails; rectangles are those of C60 | any `Num` for the first theorem, reals for the others; rectangles by no more than their width and height, where the raw offset has no arcs |
| C82 | `parallel_offset` of convex polygons to the inner side, twice; the corners of the results are given as in C69 (`inner_corners`, `lone_polygon`, `within_by`) | reals; no side vanishes; no self-intersection handling |
| C83 | translation of the input of `winding_number`, `closest_point`, `extents`, `pline_seg_intr`, `find_intersects`, `create_raw_offset_polyline`, `parallel_offset`; `moved*` in SpecTranslate.v only add the vector to coordinates | reals (exact arithmetic: in floating point rounding depends on the position); the spatial index answers moved questions as before (`moved_index`, true of `list_index`) |
| C84 | translation of the input of `area`, `orientation`, `path_length`, `sort_and_join_overlapping_intersects`, `polyline_boolean`; `moved_result` (SpecTranslateBool.v) adds the vector to every vertex and slice of a result | as C83: reals, `moved_index` |
| C85 | translation of the input of `shape_from_plines`, `shape_parallel_offset`; `moved_shape` (SpecTranslateShape.v) relates a shape to the one with moved loops and moved index boxes | as C83: reals, `moved_index` |
| C86 | translation of the input of `remove_repeat_pos`, `create_from_remove_repeat`, `remove_redundant`, `rotate_start`, `arcs_to_approx_lines`, `invert_direction_mut`, `find_point_at_path_length`, `all_self_intersects_as_basic` | as C83: reals; `moved_index` for the self-intersections |

A property is `partial` in `MANIFEST.json` until all of its clauses are covered; theorems covering a part end in
`_partial`, refutations in `_refuted`.

## 3. Trusted base
* The Coq kernel, and `coqc`'s reduction (`vm_compute`) for concrete examples.
* Assumptions per theorem: printed below every property theorem by `Print Assumptions`. Expected: none for structural
  theorems; the classical real axioms of the standard library (`ClassicalDedekindReals.sig_forall_dec`,
  `ClassicalDedekindReals.sig_not_dec`, `FunctionalExtensionality.functional_extensionality_dep`,
  possibly `Classical_Prop.classic`) for real-number theorems; primitive floats/ints for computed float witnesses.
  No axioms of our own.
* That the model says what the Rust code says: read by hand, cited line by line, and checked by running repo test cases.
* Not modelled: rounding in the geometric theorems, `debug_assert!`, 64-bit overflow, memory allocation, the internals of
  `static_aabb2d_index`, logging, widgets, colours, filling and tessellation of the demo program, serde formats themselves.

## 4. Assumption on code under model
Trusted as specified: `Vec`, slice, iterator adaptors, `sort_by`/`sort_unstable_by` (some sorted permutation),
`HashSet`, `BTreeMap` of Rust's standard library. In the demo program: egui's `Rect::intersects`, egui_plot's transform,
lyon's path builder and events.
