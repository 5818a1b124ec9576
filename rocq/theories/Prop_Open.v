(** C80: the offset of an open polyline of lines whose raw offset keeps the distance. *)
From Coq Require Import Reals List.
From Verif Require Import Num RNum Res ModelMath ModelSeg ModelPline ModelIndex ModelOffset.
From Verif Require Import Spec SpecGeom SpecIndex SpecBox SpecView SpecSimple SpecOpen.
From Verif Require Import ProofOpen2 ProofOpenEx.
Import ListNotations.
Local Open Scope R_scope.

(** [raw] is the path beside [p]: its start and end moved, and what its corners become. If it clearly does not meet
    itself, the path on the other side or [p], keeps the distance, and apart from where it begins and ends clearly stays
    off the circles about the ends of [p], it is the result. *)
Theorem C80_open mk p idx d o raw dual : makes_index mk -> pline_index p idx ->
  0 < oo_pos_equal_eps o -> 0 < oo_offset_dist_eps o < 2 * Rabs d -> open_lines p -> (3 <= length (vtx p))%nat ->
  path_beside p d (oo_pos_equal_eps o) raw -> path_beside p (- d) (oo_pos_equal_eps o) dual ->
  lone_open (oo_pos_equal_eps o) raw -> clear_pline (oo_pos_equal_eps o) dual ->
  clearly_miss (oo_pos_equal_eps o) raw dual -> clearly_miss (oo_pos_equal_eps o) raw p ->
  (forall q y, on_path raw q -> on_path p y -> Rabs d <= dist q y) -> off_ends (oo_pos_equal_eps o) d p raw ->
  parallel_offset mk p idx d o = Ret [raw]
  /\ forall q, on_path raw q -> (forall y, on_path p y -> Rabs d <= dist q y) /\ exists y, on_path p y /\ dist q y = Rabs d.
Proof. exact (open_whole mk p idx d o raw dual). Qed.
Print Assumptions C80_open.

(** The raw offset of any open polyline of lines whose corners are clearly of one kind or the other; every point of it is
    at [|d|] from a point of the polyline. *)
Theorem C80_raw p d eps raw : 0 < eps -> open_lines p -> path_beside p d eps raw ->
  create_raw_offset_polyline p d eps = Ret raw /\ forall q, on_path raw q -> exists y, on_path p y /\ dist q y = Rabs d.
Proof. exact (open_raw p d eps raw). Qed.
Print Assumptions C80_raw.

(** Two sides of a square, by 1/2 to the outer side: the corner is rounded. *)
Example C80_example : parallel_offset_constructed (@list_index R _) (PL [Vtx 0 0 0; Vtx 4 0 0; Vtx 4 4 0] false) (- (1 / 2)) (OO (1 / 100000) (1 / 10000) (1 / 10000) false)
  = Ret [PL [Vtx 0 (-1 / 2) 0; Vtx 4 (-1 / 2) (tan (PI / 8)); Vtx (9 / 2) 0 0; Vtx (9 / 2) 4 0] false].
Proof. exact ell_offset. Qed.
Print Assumptions C80_example.
