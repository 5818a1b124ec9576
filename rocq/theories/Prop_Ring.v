(** C73: shapes whose offset loops do not meet; shapes of circles. *)
From Coq Require Import Reals List Bool Arith.
From Verif Require Import Num RNum Res ModelMath ModelSeg ModelPline ModelView ModelIndex ModelOffset ModelShape.
From Verif Require Import Spec SpecGeom SpecIndex SpecOffset SpecOffsetJoin SpecCircle SpecShape SpecRing.
From Verif Require Import ProofRing ProofRing3 ProofRing4 ProofRing5.
Import ListNotations.

(** If nothing is found where the offsets of the inputs meet, the result consists of whole offsets, in order: those
    the middle of whose first segment is far enough from every other input. *)
Theorem C73_apart {T} {N : Num T} mk (s : shape T) offset o rss : makes_index mk -> shape_ok s ->
  Forall2 (fun ip rs => parallel_offset mk (ip_pline ip) (ip_index ip) offset
      (OO (so_pos_equal_eps o) (so_slice_join_eps o) (so_offset_dist_eps o) false) = Ret rs) (sh_ccw s ++ sh_cw s) rss ->
  let outs := outlines (length (sh_ccw s)) offset rss in
  Forall (fun x => 2 <= vertex_count (snd x)) outs -> never_meet (so_pos_equal_eps o) (map snd outs) ->
  exists fs r, Forall2 (fun x f => f = true <-> clear_start (sh_ccw s ++ sh_cw s) offset o x) outs fs
  /\ shape_parallel_offset mk s offset o = Ret r /\ shape_ok r
  /\ map ip_pline (sh_ccw r) = filter (fun p => negb (negative p)) (marked (map snd outs) fs)
  /\ map ip_pline (sh_cw r) = filter negative (marked (map snd outs) fs).
Proof. exact (shape_apart mk s offset o rss). Qed.
Print Assumptions C73_apart.

Local Open Scope R_scope.

(** A shape of circles becomes the shape of the concentric circles moved by the offset, without those that vanish and
    without those too near to another input. *)
Theorem C73_circles mk (s : shape R) offset o ds1 ds2 fs1 fs2 : makes_index mk -> shape_ok s ->
  Forall (of_sense 1) ds1 -> Forall (of_sense (-1)) ds2 ->
  map ip_pline (sh_ccw s) = map outline ds1 -> map ip_pline (sh_cw s) = map outline ds2 -> sane o offset ->
  length fs1 = length ds1 -> length fs2 = length ds2 -> fated o offset (ds1 ++ ds2) (fs1 ++ fs2) ->
  exists r, shape_parallel_offset mk s offset o = Ret r /\ shape_ok r
  /\ map ip_pline (sh_ccw r) = map outline (survivors offset ds1 fs1)
  /\ map ip_pline (sh_cw r) = map outline (survivors offset ds2 fs2).
Proof. exact (rings_offset mk s offset o ds1 ds2 fs1 fs2). Qed.
Print Assumptions C73_circles.

(** Discs with holes: inwards the result encloses the points of the plate farther than the offset from all its
    circles, outwards the points in the plate or nearer than the offset to one of them. *)
Theorem C73_plate mk offset o ds1 ds2 fs1 fs2 : makes_index mk -> Forall (of_sense 1) ds1 -> Forall (of_sense (-1)) ds2 -> sane o offset ->
  length fs1 = length ds1 -> length fs2 = length ds2 -> fated o offset (ds1 ++ ds2) (fs1 ++ fs2) -> is_plate ds1 ds2 ->
  exists s r, shape_from_plines mk (map outline (ds1 ++ ds2)) = Ret s /\ shape_parallel_offset mk s offset o = Ret r
  /\ forall x, off_shape r x ->
     (0 < offset -> (in_shape r x <-> in_plate ds1 ds2 x /\ forall d, In d (ds1 ++ ds2) -> offset < from_circle x d))
     /\ (offset < 0 -> (in_shape r x <-> in_plate ds1 ds2 x \/ exists d, In d (ds1 ++ ds2) /\ from_circle x d < - offset)).
Proof. exact (plate_offset mk offset o ds1 ds2 fs1 fs2). Qed.
Print Assumptions C73_plate.

(** A disc with two holes by 1 inwards and by 1.5 outwards, when a hole vanishes; and a ring of width 3 by 2, when
    nothing is left. *)
Example C73_example :
  (exists s r, shape_from_plines (@list_index R _) (map outline (ex_disc :: ex_holes)) = Ret s
     /\ shape_parallel_offset (@list_index R _) s 1 ex_ring_opts = Ret r
     /\ map ip_pline (sh_ccw r) = [circle (V2 0 0) (V2 1 0) 9 1]
     /\ map ip_pline (sh_cw r) = [circle (V2 (-4) 0) (V2 (3/5) (4/5)) 3 (-1); circle (V2 5 0) (V2 0 1) 2 (-1)])
  /\ (exists s r, shape_from_plines (@list_index R _) (map outline (ex_disc :: ex_holes)) = Ret s
     /\ shape_parallel_offset (@list_index R _) s (-3/2) ex_ring_opts = Ret r
     /\ map ip_pline (sh_ccw r) = [circle (V2 0 0) (V2 1 0) (23/2) 1]
     /\ map ip_pline (sh_cw r) = [circle (V2 (-4) 0) (V2 (3/5) (4/5)) (1/2) (-1)])
  /\ (exists s r, shape_from_plines (@list_index R _) (map outline [ex_disc; ex_hole]) = Ret s
     /\ shape_parallel_offset (@list_index R _) s 2 ex_ring_opts = Ret r /\ map ip_pline (sh_ccw r) = [] /\ map ip_pline (sh_cw r) = []).
Proof. exact ex_plates. Qed.
(** The conditions of the theorems hold for these. *)
Example C73_conditions : fated ex_ring_opts 1 ([ex_disc] ++ ex_holes) [Kept; Kept; Kept] /\ fated ex_ring_opts (-3/2) ([ex_disc] ++ ex_holes) [Kept; Kept; Gone]
  /\ fated ex_ring_opts 2 ([ex_disc] ++ [ex_hole]) [Hidden; Hidden] /\ is_plate [ex_disc] ex_holes.
Proof. exact (conj ex_fated_in (conj ex_fated_out (conj ex_fated_hidden (proj1 ex_is_plate)))). Qed.
