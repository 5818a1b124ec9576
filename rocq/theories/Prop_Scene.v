(** C61 (what the demo scenes compute). *)
From Coq Require Import ZArith List Bool Arith PrimFloat.
From Verif Require Import Num FNum Res ModelMath ModelSeg ModelPline ModelIndex ModelOffset ModelBoolean ModelShape ModelUi.
From Verif Require Import SpecUi ProofUi ProofShapeF ProofUiF.
Import ListNotations.

(** The polyline scene shows the offsets of the input, then the offsets of those of them that turn like the input, and
    so on, [n] times in all, each polyline marked by whether it turns like the input. *)
Theorem C61_repeated {T} {N : Num T} mk (p : pline T) offset h n rs :
  build_offset mk p offset h n = Ret rs
  <-> exists first, parallel_offset_constructed mk p offset (OO (nlit 1 5) (nlit 1 4) (nlit 1 4) h) = Ret first
        /\ generations mk offset (OO (nlit 1 5) (nlit 1 4) (nlit 1 4) h) p (n - 1) first rs.
Proof. exact (build_offset_generations mk p offset h n rs). Qed.
Print Assumptions C61_repeated.

(** Every polyline shown is an offset of the input or of a polyline shown that turns like the input. *)
Theorem C61_origin {T} {N : Num T} mk (p : pline T) offset h n rs q b :
  build_offset mk p offset h n = Ret rs -> In (q, b) rs ->
  marked p (q, b)
  /\ exists src l, (src = p \/ In (src, true) rs)
       /\ parallel_offset_constructed mk src offset (OO (nlit 1 5) (nlit 1 4) (nlit 1 4) h) = Ret l /\ In q l.
Proof. exact (build_offset_origin mk p offset h n rs q b). Qed.
Print Assumptions C61_origin.

(** The shape scene: every shape is the offset of the one before, none is empty, there are at most [n] and fewer only
    if the next one is empty. *)
Theorem C61_shapes {T} {N : Num T} mk (plines : list (pline T)) offset n s l :
  build_offsets mk plines offset n = Ret (s, l)
  <-> shape_from_plines mk plines = Ret s /\ offset_shapes mk offset (SO (nlit 1 5) (nlit 1 4) (nlit 1 4)) n s l.
Proof. exact (build_offsets_shapes mk plines offset n s l). Qed.
Print Assumptions C61_shapes.

(** The boolean scene: nothing for open polylines, polylines of less than two vertexes or without a mode; otherwise the
    operation of the mode. *)
Theorem C61_boolean {T} {N : Num T} mk (p1 p2 : pline T) mode :
  build_boolean_result mk p1 p2 mode
  = match mode with
    | ModeNone => Ret None
    | _ =>
      if Nat.ltb (length (vtx p1)) 2 || Nat.ltb (length (vtx p2)) 2 || negb (is_closed p1 && is_closed p2) then Ret None
      else let! r := boolean_constructed mk p1 p2 (match mode with ModeOr => BOr | ModeAnd => BAnd | ModeNot => BNot | _ => BXor end) (nlit 1 5) in Ret (Some r)
    end.
Proof. exact (boolean_scene mk p1 p2 mode). Qed.
Print Assumptions C61_boolean.

(** Asked for no offset, the polyline scene shows one all the same; the shape scene shows none. *)
Theorem C61_none_asked_refuted : exists p, exists r s, build_offset shape_index p 2%float true 0 = Ret r /\ r <> []
  /\ build_offsets shape_index [p] 2%float 0 = Ret (s, []).
Proof. exact (ex_intro _ demo_square square_none). Qed.
Print Assumptions C61_none_asked_refuted.

(** A square twice, then nothing is left; a figure eight has an offset turning the other way, which is not offset
    again. *)
Example C61_example :
  (let! r := build_offset shape_index demo_square 2%float true 4 in Ret (map (fun q => (map (fun v => (px v, py v)) (vtx (fst q)), snd q)) r))
  = Ret [([(2, 2); (8, 2); (8, 8); (2, 8)], true); ([(4, 4); (6, 4); (6, 6); (4, 6)], true)]%float
  /\ (let! r := build_offset shape_index demo_eight 1%float true 2 in Ret (map (fun q => (vertex_count (fst q), snd q)) r)) = Ret [(3, true); (6, false); (3, true)]
  /\ (let! r := build_offsets shape_index [demo_square] 2%float 4 in
      Ret (map (fun s => map (fun ip => map (fun v => (px v, py v)) (vtx (ip_pline ip))) (sh_ccw s)) (snd r)))
     = Ret [[[(2, 2); (8, 2); (8, 8); (2, 8)]]; [[(4, 4); (6, 4); (6, 6); (4, 6)]]]%float
  /\ (let! r := build_boolean_result shape_index demo_square demo_square ModeXor in Ret (option_map (fun b => length (br_pos b)) r)) = Ret (Some 0)
  /\ build_boolean_result shape_index demo_square (PL (vtx demo_square) false) ModeXor = Ret None.
Proof. exact demo_runs. Qed.
