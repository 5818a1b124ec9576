(** C62 (what the demo program draws). *)
From Coq Require Import Reals List Bool.
From Verif Require Import Num RNum Res ModelMath ModelSeg ModelPline ModelIndex ModelShape ModelUi.
From Verif Require Import Spec SpecGeom SpecBox SpecShape SpecUi ProofUi2 ProofUi3 ProofUi4.
Import ListNotations.
Local Open Scope R_scope.

(** Of the pieces of a path exactly those are kept, in their order, whose points are not all beyond one side of the
    rectangle. *)
Theorem C62_kept b path : exists out f, cull_path path b = Ret out
  /\ filter is_piece out = filter f (filter is_piece path)
  /\ (forall e : path_event R, is_piece e = true -> f e = true <-> ~ apart b (piece_points e)).
Proof. exact (kept b path). Qed.
Print Assumptions C62_kept.

(** Nothing of a piece left out lies in the rectangle. *)
Theorem C62_unseen b e t q : 0 <= t <= 1 -> apart b (piece_points e) -> event_at e t = Some q -> ~ inside b 0 q.
Proof. exact (unseen b e t q). Qed.
Print Assumptions C62_unseen.

(** Every piece kept still begins where the pen is. *)
Theorem C62_ordered {T} {N : Num T} b (path : list (path_event T)) : ordered false None path ->
  exists out, cull_path path b = Ret out /\ ordered false None out.
Proof. exact (cull_ordered b path). Qed.
Print Assumptions C62_ordered.

(** An end that closes a path can belong to a part that did not begin where the path did: the closing line is not
    drawn, though it can be seen. *)
Theorem C62_closing_refuted : exists path b out, ordered true None path /\ cull_path path b = Ret out /\ ~ ordered true None out
  /\ exists t, 0 <= t <= 1 /\ inside b 0 (line_pt (V2 10 10) (V2 0 0) t).
Proof. exact (ex_intro _ tri_path (ex_intro _ corner_box closing_lost)). Qed.
Print Assumptions C62_closing_refuted.

(** The commands of a polyline draw the images of its segments, at every parameter the image of the point of the
    segment. *)
Theorem C62_commands p o k : pline_ok p -> 0 < k ->
  (spec_segs (vtx p) (is_closed p) = [] /\ pline_cmds (plot_transform o k) k p = Ret [])
  \/ exists v l cs, vtx p = v :: l /\ pline_cmds (plot_transform o k) k p = Ret (PCMove (plot_transform o k (pos v)) :: cs)
       /\ Forall2 (fun s c => forall t q, draws_at (plot_transform o k (pos (fst s))) c t (plot_transform o k q) <-> seg_at (fst s) (snd s) t q)
            (spec_segs (vtx p) (is_closed p)) cs.
Proof. exact (cmds_spec p o k). Qed.
Print Assumptions C62_commands.

(** Which polylines are drawn: those whose bounds meet the plot, unless the plot is too small or does not meet the
    bounds of all. *)
Theorem C62_path tr k plot data total :
  (forall p b, In (p, Some b) data -> proper_box b) -> (forall b, total = Some b -> proper_box b) ->
  exists ls, build_path tr k plot data total = Ret (concat ls)
    /\ ((bmax_x plot - bmin_x plot < 1 / 100000 \/ bmax_y plot - bmin_y plot < 1 / 100000 \/ ~ boxes_meet plot total) /\ ls = []
        \/ (1 / 100000 <= bmax_x plot - bmin_x plot /\ 1 / 100000 <= bmax_y plot - bmin_y plot /\ boxes_meet plot total)
           /\ Forall2 (fun pb l => (boxes_meet plot (snd pb) /\ pline_cmds tr k (fst pb) = Ret l) \/ (~ boxes_meet plot (snd pb) /\ l = [])) data ls).
Proof. exact (build_path_spec tr k plot data total). Qed.
Print Assumptions C62_path.

(** A polyline with a point in the plot is drawn as a whole. *)
Theorem C62_drawn tr k plot data total p b q :
  1 / 100000 <= bmax_x plot - bmin_x plot -> 1 / 100000 <= bmax_y plot - bmin_y plot ->
  In (p, b) data -> bounded_by p b -> bounded_by p total -> on_path p q -> inside plot 0 q ->
  exists before cmds after, build_path tr k plot data total = Ret (before ++ cmds ++ after) /\ pline_cmds tr k p = Ret cmds.
Proof. exact (drawn_whole tr k plot data total p b q). Qed.
Print Assumptions C62_drawn.

(** The bounds kept with a polyline hold it; there are none exactly if it has no vertex. *)
Theorem C62_bounds p : pline_ok p -> (forall v1 v2, In (v1, v2) (spec_segs (vtx p) (is_closed p)) -> ~ short_arc v1 v2) ->
  exists b, plot_data_bounds p = Ret b /\ bounded_by p b
    /\ (b = None <-> vtx p = []) /\ (forall v, In v (vtx p) -> exists b', b = Some b' /\ inside b' 0 (pos v)).
Proof. exact (data_bounds p). Qed.
Print Assumptions C62_bounds.

(** So do those of the loops of a shape and those of the shape. *)
Theorem C62_shape_bounds s p b : shape_ok s -> In (p, b) (shape_plines s) -> pline_ok p ->
  bounded_by p b /\ bounded_by p (shape_bounds s).
Proof. exact (shape_data_bounds s p b). Qed.
Print Assumptions C62_shape_bounds.

(** Exactly the vertexes inside the plot are drawn, in their order. *)
Theorem C62_vertexes plot (ps : list (pline R)) : exists f, drawn_vertexes plot ps = filter f (flat_map vtx ps)
  /\ forall v, f v = true <-> inside plot 0 (pos v).
Proof. exact (drawn_vertexes_spec plot ps). Qed.
Print Assumptions C62_vertexes.

(** A triangle cut at one corner; a half circle in a plot that holds only its top; vertexes. *)
Example C62_example :
  cull_path tri_path corner_box
  = Ret [PEBegin (V2 0 0); PELine (V2 0 0) (V2 10 0); PEEnd (V2 10 0) (V2 10 0) false; PEBegin (V2 10 10); PEEnd (V2 10 10) (V2 0 0) true]
  /\ pline_ok half /\ pline_cmds (plot_transform (V2 5 5) 2) 2 half = Ret [PCMove (V2 7 5); PCArc (V2 5 5) 2 (- PI)]
  /\ (exists b before cmds after, plot_data_bounds half = Ret b
      /\ build_path (plot_transform (V2 5 5) 2) 2 (AABB (-1/10) (9/10) (1/10) 2) [(half, b)] b = Ret (before ++ cmds ++ after)
      /\ pline_cmds (plot_transform (V2 5 5) 2) 2 half = Ret cmds)
  /\ drawn_vertexes (AABB 0 (-1) 2 2) [half; half] = [Vtx 1 0 1; Vtx 1 0 1].
Proof. exact (conj tri_cut (conj (proj1 half_ok) (conj half_cmds (conj half_drawn half_vertexes)))). Qed.
