(** Property C76: the inner offset of a convex polygon when some of its sides vanish. *)
From Coq Require Import Reals ZArith List.
From Verif Require Import Num RNum Res ModelMath ModelSeg ModelPline ModelIndex ModelOffset.
From Verif Require Import Spec SpecGeom SpecIntr SpecBox SpecBoolean SpecView SpecPrune SpecIndex SpecCuts SpecOffset SpecOffNear SpecPolyOff SpecOffsetJoin SpecJordan SpecRegion SpecConvex SpecVanish.
From Verif Require Import ProofPolyOff3 ProofVanish3 ProofVanishEx.
Import ListNotations.
Local Open Scope R_scope.

(** A convex polygon by [e] to its inner side, when the moved sides of neighbouring sides meet, and the polygon with these
    points as its corners clearly crosses itself (which it does when sides are too short to survive): the results are
    closed polygons along that polygon, and together they wind, in the sense of the given polygon, once round exactly the
    points inside of it that are farther than [e] from it. *)
Theorem C76_offset mk s e ps qs o idx : makes_index mk -> s = 1 \/ s = -1 ->
  0 < oo_pos_equal_eps o -> 0 < oo_slice_join_eps o -> 0 < oo_offset_dist_eps o < e -> oo_handle_self_intersects o = false ->
  oo_pos_equal_eps o <= e -> (forall a b, In (a, b) (spec_segs ps true) -> oo_pos_equal_eps o <= e * dist a b) ->
  convex s ps -> passes_once (polygon ps) -> pline_index (polygon ps) idx ->
  inner_corners (polygon ps) (s * e) (oo_pos_equal_eps o) qs ->
  crossing_polygon (oo_pos_equal_eps o) (oo_slice_join_eps o) qs ->
  clearly_kept s e (oo_pos_equal_eps o) (oo_offset_dist_eps o) ps qs ->
  exists rs, parallel_offset mk (polygon ps) idx (s * e) o = Ret rs
  /\ Forall (fun r => is_polygon r /\ (2 <= vertex_count r)%nat /\ forall q, on_path r q -> on_path (polygon qs) q) rs
  /\ forall x, (forall r, In r rs -> ~ on_path r x) ->
     (inside (polygon ps) x = true -> (forall q, on_path (polygon ps) q -> e < dist x q) -> forall w, IZR w = s -> wind_together rs x w)
     /\ (inside (polygon ps) x = false /\ ~ on_path (polygon ps) x \/ (exists q, on_path (polygon ps) q /\ dist x q < e) -> wind_together rs x 0).
Proof. exact (vanish_region mk s e ps qs o idx). Qed.
Print Assumptions C76_offset.

(** A right-angled triangle with its right angle cut off, by 8: the side that was cut vanishes.  The second of the points
    is enclosed by the loop in which the moved sides cross. *)
Example C76_example : exists rs,
  parallel_offset_constructed (@list_index R _) (polygon [V2 3 0; V2 64 0; V2 0 48; V2 0 4]) 8 (OO (1 / 100000) (1 / 10000) (1 / 10000) false) = Ret rs
  /\ wind_together rs (V2 20 16) 1 /\ wind_together rs (V2 (15/2) (31/4)) 0 /\ wind_together rs (V2 100 100) 0.
Proof. exact cut_offset. Qed.
Print Assumptions C76_example.
