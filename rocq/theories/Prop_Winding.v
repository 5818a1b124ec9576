(** C15: the winding number. *)
From Coq Require Import Reals ZArith List.
From Verif Require Import Num RNum Res ModelMath ModelSeg ModelPline Spec SpecGeom SpecIntr SpecBox SpecWinding.
From Verif Require Import ProofMeasure ProofWinding ProofWinding3 ProofWinding4 ProofWinding5.
Import ListNotations.
Local Open Scope R_scope.

(** Open polylines and polylines without a loop have winding number 0. *)
Theorem C15_no_loop (T : Type) (N : Num T) (p : pline T) pt :
  is_closed p = false \/ (vertex_count p < 2)%nat -> winding_number p pt = Ret 0%Z.
Proof. exact (winding_trivial p pt). Qed.
Print Assumptions C15_no_loop.

(** For a closed polyline and a point off its path, the direction seen from the point turns by the
    winding number times a full turn, and by no other amount. *)
Theorem C15_turns p pt : pline_ok p -> is_closed p = true -> (2 <= vertex_count p)%nat -> ~ on_path p pt ->
  exists w, winding_number p pt = Ret w
    /\ path_turns_by p pt (IZR w * (2 * PI))
    /\ forall total, path_turns_by p pt total -> total = IZR w * (2 * PI).
Proof. exact (winding_closed p pt). Qed.
Print Assumptions C15_turns.

(** The turn around a point is determined by the segment. *)
Theorem C15_turn_unique v1 v2 pt d d' : turns_by v1 v2 pt d -> turns_by v1 v2 pt d' -> d = d'.
Proof. exact (turns_unique v1 v2 pt d d'). Qed.
Print Assumptions C15_turn_unique.

Theorem C15_reversal p p' pt w : pline_ok p -> ~ on_path p pt ->
  invert_direction_mut p = Ret p' -> winding_number p pt = Ret w -> winding_number p' pt = Ret (- w)%Z.
Proof. exact (winding_reverse p p' pt w). Qed.
Print Assumptions C15_reversal.

(** Moving the start to a point of the path; an arc to be split must not itself be a point for the
    tolerance. *)
Theorem C15_start (p p' : pline R) i q eps pt a b : pline_ok p -> pline_ok p' -> ~ on_path p pt -> 0 < eps ->
  nth_error (spec_segs (vtx p) (is_closed p)) i = Some (a, b) -> on_seg a b q ->
  (pbulge a <> 0 -> ~ is_point (pos a) (pos b) eps) ->
  rotate_start p i q eps = Ret (Some p') ->
  winding_number p' pt = winding_number p pt.
Proof. exact (winding_start p p' i q eps pt a b). Qed.
Print Assumptions C15_start.

Theorem C15_translate p p' x y pt : pline_ok p -> ~ on_path p pt -> translate_mut p x y = Ret p' ->
  winding_number p' (V2 (vx pt + x) (vy pt + y)) = winding_number p pt.
Proof. exact (winding_translate p p' x y pt). Qed.
Print Assumptions C15_translate.

Theorem C15_scale p p' k pt : pline_ok p -> ~ on_path p pt -> 0 < k -> scale_mut p k = Ret p' ->
  winding_number p' (V2 (k * vx pt) (k * vy pt)) = winding_number p pt.
Proof. exact (winding_scale p p' k pt). Qed.
Print Assumptions C15_scale.

(** Around the centre of the counter-clockwise unit circle. *)
Example C15_example : winding_number ex_circle (V2 0 0) = Ret 1%Z /\ ~ on_path ex_circle (V2 0 0).
Proof. exact (conj ex_circle_winding ex_circle_off). Qed.
