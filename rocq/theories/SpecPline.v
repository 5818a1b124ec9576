(** Small specifications on vertexes, independent of the modelled functions. *)
From Coq Require Import List Bool.
From Verif Require Import Num ModelMath ModelSeg.
Import ListNotations.

Section SpecPline.
Context {T : Type} {N : Num T}.

(** [b] is at the place of [a]: both coordinates differ by less than [eps]. *)
Definition same_place (eps : T) (a b : vertex T) : bool :=
  nltb (nabs (nsub (px b) (px a))) eps && nltb (nabs (nsub (py b) (py a))) eps.

(** What is kept of a run of vertexes: the first position with the bulge of the last vertex. *)
Definition run_rep (r : list (vertex T)) : list (vertex T) :=
  match r with
  | [] => []
  | h :: t => [Vtx (px h) (py h) (pbulge (last t h))]
  end.

(** A drawn segment: start, end and bulge; and the same segment travelled backwards. *)
Definition seg_data (s : vertex T * vertex T) : (T * T) * (T * T) * T :=
  ((px (fst s), py (fst s)), (px (snd s), py (snd s)), pbulge (fst s)).
Definition seg_reverse (d : (T * T) * (T * T) * T) : (T * T) * (T * T) * T :=
  let '(a, b, c) := d in (b, a, nneg c).

(** Position of a vertex. *)
Definition position (v : vertex T) : T * T := (px v, py v).

End SpecPline.
