(** Shapes of polygons, and what their offset encloses (C79).

    Raw offset paths of polygons are those of C70, paths that clearly do not meet those of C78, points in and off a shape
    those of C73. *)
From Coq Require Import Reals List Arith.
From Verif Require Import Num RNum Res ModelMath ModelSeg ModelPline ModelShape.
From Verif Require Import Spec SpecGeom SpecBoolean SpecBox SpecPolyOff SpecPrune SpecJordan SpecConvex SpecRound SpecSimple.
Import ListNotations.
Local Open Scope R_scope.

(** A polygon and what is made of its corners. *)
Record piece := Piece { pc_polygon : list (vec2 R); pc_corners : list (list (vertex R)) }.
Definition edge (a : piece) : pline R := polygon (pc_polygon a).
Definition moved_edge (a : piece) : pline R := PL (going_round (pc_corners a)) true.

(** The polygon passes no point twice, its area has the sign of [s], and its raw path by [d] clearly does not meet
    itself. *)
Definition fits (eps d s : R) (a : piece) : Prop :=
  passes_once (edge a) /\ (exists A, area (edge a) = Ret A /\ 0 < s * A) /\ made_corners (edge a) d eps (pc_corners a) /\ lone_path eps (moved_edge a).

(** The raw paths stay at [|d|] or more from all the polygons, and clearly miss each other. *)
Definition keep_clear (eps d : R) (l : list piece) : Prop :=
  (forall a b q y, In a l -> In b l -> on_path (moved_edge a) q -> on_path (edge b) y -> Rabs d <= dist q y)
  /\ forall i j a b, nth_error l i = Some a -> nth_error l j = Some b -> i <> j -> clearly_miss eps (moved_edge a) (moved_edge b).

(** No point of the edge of [b] is inside [a]. *)
Definition not_within (a b : piece) : Prop := forall y, on_path (edge b) y -> inside (edge a) y = false.
Definition side_by_side (l : list piece) : Prop := forall i j a b, nth_error l i = Some a -> nth_error l j = Some b -> i <> j -> not_within a b.

(** Pieces side by side with holes side by side, each inside a piece. *)
Definition with_holes (l holes : list piece) : Prop :=
  side_by_side l /\ side_by_side holes
  /\ (forall a h, In a l -> In h holes -> not_within h a)
  /\ forall h, In h holes -> exists a, In a l /\ forall y, on_path (edge h) y -> inside (edge a) y = true.

(** [y] is on a loop of the shape. *)
Definition on_shape (s : shape R) (y : vec2 R) : Prop := exists ip, In ip (sh_ccw s ++ sh_cw s) /\ on_path (ip_pline ip) y.
