(** C79: offsets of shapes of polygons of any form with holes. *)
From Coq Require Import Reals List.
From Verif Require Import Num RNum Res ModelMath ModelSeg ModelPline ModelIndex ModelOffset ModelShape.
From Verif Require Import Spec SpecGeom SpecIndex SpecBox SpecPolyOff SpecOffset SpecShape SpecRing SpecPieces.
From Verif Require Import ProofPieces2 ProofPiecesEx2.
Import ListNotations.
Local Open Scope R_scope.

(** The polygons [l1] go round counterclockwise, [l2] clockwise. If the raw path of each clearly does not meet itself or
    another and stays at [|d|] or more from all the polygons, the result consists of these paths, in order. *)
Theorem C79_loops mk d o l1 l2 : makes_index mk -> 0 < so_pos_equal_eps o -> 0 < so_slice_join_eps o -> 0 < so_offset_dist_eps o < 2 * Rabs d ->
  Forall (fits (so_pos_equal_eps o) d 1) l1 -> Forall (fits (so_pos_equal_eps o) d (-1)) l2 -> keep_clear (so_pos_equal_eps o) d (l1 ++ l2) ->
  exists s r, shape_from_plines mk (map edge (l1 ++ l2)) = Ret s /\ shape_parallel_offset mk s d o = Ret r /\ shape_ok r
  /\ map ip_pline (sh_ccw r) = map moved_edge l1 /\ map ip_pline (sh_cw r) = map moved_edge l2.
Proof. exact (pieces_loops mk d o l1 l2). Qed.
Print Assumptions C79_loops.

(** If the polygons [l1] are side by side and [l2] are holes in them, side by side, a positive offset leaves exactly the
    points of the shape farther than [d] from all its loops, and a negative one adds exactly those within [- d] of one. *)
Theorem C79_region mk d o l1 l2 : makes_index mk -> 0 < so_pos_equal_eps o -> 0 < so_slice_join_eps o -> 0 < so_offset_dist_eps o < 2 * Rabs d ->
  Forall (fits (so_pos_equal_eps o) d 1) l1 -> Forall (fits (so_pos_equal_eps o) d (-1)) l2 -> keep_clear (so_pos_equal_eps o) d (l1 ++ l2) -> with_holes l1 l2 ->
  exists s r, shape_from_plines mk (map edge (l1 ++ l2)) = Ret s /\ shape_parallel_offset mk s d o = Ret r
  /\ forall x, off_shape r x ->
     (0 < d -> (in_shape r x <-> in_shape s x /\ forall y, on_shape s y -> d < dist x y))
     /\ (d < 0 -> (in_shape r x <-> in_shape s x \/ exists y, on_shape s y /\ dist x y <= - d)).
Proof. exact (pieces_region mk d o l1 l2). Qed.
Print Assumptions C79_region.

(** A square of side 12 with an L as its hole, by 1/2 outwards: the corners of the square and the inner corner of the L
    are rounded. *)
Example C79_example : let b := tan (PI / 8) in exists s r,
  shape_from_plines (@list_index R _) [polygon [V2 (-4) (-4); V2 8 (-4); V2 8 8; V2 (-4) 8]; polygon [V2 0 0; V2 0 4; V2 2 4; V2 2 2; V2 4 2; V2 4 0]] = Ret s
  /\ shape_parallel_offset (@list_index R _) s (-1 / 2) (SO (1 / 100000) (1 / 10000) (1 / 10000)) = Ret r
  /\ map ip_pline (sh_ccw r) = [PL [Vtx (-4) (-9 / 2) 0; Vtx 8 (-9 / 2) b; Vtx (17 / 2) (-4) 0; Vtx (17 / 2) 8 b; Vtx 8 (17 / 2) 0; Vtx (-4) (17 / 2) b;
                                    Vtx (-9 / 2) 8 0; Vtx (-9 / 2) (-4) b] true]
  /\ map ip_pline (sh_cw r) = [PL [Vtx (1 / 2) (1 / 2) 0; Vtx (1 / 2) (7 / 2) 0; Vtx (3 / 2) (7 / 2) 0; Vtx (3 / 2) 2 b; Vtx 2 (3 / 2) 0; Vtx (7 / 2) (3 / 2) 0;
                                   Vtx (7 / 2) (1 / 2) 0] true]
  /\ forall x, off_shape r x -> (in_shape r x <-> in_shape s x \/ exists y, on_shape s y /\ dist x y <= 1 / 2).
Proof. exact slate_example. Qed.
Print Assumptions C79_example.
