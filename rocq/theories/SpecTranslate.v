(** Moving points, vertexes, polylines and boxes by a vector, written without the library's own
    operations. *)
From Coq Require Import Reals List.
From Verif Require Import Num Res ModelMath ModelSeg ModelPline ModelSegIntr ModelIndex.
Import ListNotations.
Local Open Scope R_scope.

Definition moved_point (x y : R) (q : vec2 R) : vec2 R := V2 (vx q + x) (vy q + y).
Definition moved_vertex (x y : R) (v : vertex R) : vertex R := Vtx (px v + x) (py v + y) (pbulge v).
Definition moved (x y : R) (p : pline R) : pline R := PL (map (moved_vertex x y) (vtx p)) (is_closed p).
Definition moved_box (x y : R) (b : aabb R) : aabb R :=
  AABB (bmin_x b + x) (bmin_y b + y) (bmax_x b + x) (bmax_y b + y).
Definition moved_intr (x y : R) (i : seg_intr R) : seg_intr R :=
  match i with
  | SINoIntersect => SINoIntersect
  | SITangent a => SITangent (moved_point x y a)
  | SIOne a => SIOne (moved_point x y a)
  | SITwo a b => SITwo (moved_point x y a) (moved_point x y b)
  | SIOverlapLines a b => SIOverlapLines (moved_point x y a) (moved_point x y b)
  | SIOverlapArcs a b => SIOverlapArcs (moved_point x y a) (moved_point x y b)
  end.
Definition moved_split (x y : R) (s : split_result R) : split_result R :=
  SplitResult (moved_vertex x y (updated_start s)) (moved_vertex x y (split_vertex s)).
Definition moved_closest (x y : R) (c : closest_point_result R) : closest_point_result R :=
  CPR (cp_seg_start_index c) (moved_point x y (cp_seg_point c)) (cp_distance c).
(** an index over moved boxes that answers moved questions as before *)
Definition moved_index (x y : R) (idx idx' : sindex R) : Prop :=
  ix_boxes idx' = map (moved_box x y) (ix_boxes idx) /\ ix_order idx' = ix_order idx /\
  forall b, ix_query idx' (moved_box x y b) = ix_query idx b.
