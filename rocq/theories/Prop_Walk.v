(** C16 (point at a path length) and C40 (the drawn path under scaling and translation). *)
From Coq Require Import Reals List.
From Verif Require Import Num RNum Res ModelMath ModelSeg ModelPline Spec SpecGeom SpecWalk.
From Verif Require Import ProofMeasure ProofWalk ProofWalkEx.
Import ListNotations.
Local Open Scope R_scope.

(** For a positive distance the answer is where the walk ends, or the whole length if the path is
    shorter than the distance. *)
Theorem C16_find_point p target : pline_ok p -> no_tiny p -> 0 < target ->
  exists x, find_point_at_path_length p target = Ret x
    /\ match x with
       | inl (i, q) => walk p target i q
       | inr L => path_has_length p L /\ L < target
       end.
Proof. exact (find_point_exact p target). Qed.
Print Assumptions C16_find_point.

(** The two outcomes exclude each other and each is determined by the path. *)
Theorem C16_walk_unique p d i q j q' :
  pline_ok p -> walk p d i q -> walk p d j q' -> i = j /\ q = q'.
Proof. exact (walk_unique p d i q j q'). Qed.
Print Assumptions C16_walk_unique.

Theorem C16_walk_not_past_end p d i q L :
  pline_ok p -> walk p d i q -> path_has_length p L -> d <= L.
Proof. exact (walk_not_long p d i q L). Qed.
Print Assumptions C16_walk_not_past_end.

(** A distance that is not positive gives the first vertex. *)
Theorem C16_not_positive p target v : nth_error (vtx p) 0 = Some v -> target <= 0 ->
  find_point_at_path_length p target = Ret (inl (0%nat, pos v)).
Proof. exact (find_point_nonpos p target v). Qed.
Print Assumptions C16_not_positive.

(** With segments below the tolerance the walk is off by at most 1e-7 for each segment passed. *)
Theorem C16_find_point_tolerance p target : pline_ok p -> 0 < target ->
  (exists i q d, find_point_at_path_length p target = Ret (inl (i, q)) /\ walk p d i q
     /\ target <= d <= target + INR i * (1 / 10000000) /\ (no_tiny p -> d = target))
  \/ (exists L L', find_point_at_path_length p target = Ret (inr L) /\ L < target /\ path_has_length p L'
     /\ L' - INR (segment_count p) * (1 / 10000000) <= L <= L' /\ (no_tiny p -> L = L')).
Proof. exact (find_point_spec p target). Qed.
Print Assumptions C16_find_point_tolerance.

Example C16_example :
  pline_ok ex_path /\ no_tiny ex_path
  /\ walk ex_path (5 + PI / 2) 1 (V2 4 5)
  /\ find_point_at_path_length ex_path (5 + PI / 2) = Ret (inl (1%nat, V2 4 5))
  /\ find_point_at_path_length ex_path 10 = Ret (inr (5 + PI)).
Proof.
  exact (conj (proj1 ex_path_ok) (conj (proj2 ex_path_ok) (conj ex_walk (conj ex_find ex_find_past)))).
Qed.

(** Scaling (by any factor, also negative or zero) and translating map the drawn path, point by
    point. *)
Theorem C40_path_image p s x y :
  (exists p', scale_mut p s = Ret p' /\ path_image (fun q => V2 (s * vx q) (s * vy q)) p p')
  /\ (exists p', translate_mut p x y = Ret p' /\ path_image (fun q => V2 (vx q + x) (vy q + y)) p p').
Proof. exact (path_images p s x y). Qed.
Print Assumptions C40_path_image.

Example C40_path_example :
  scale_mut ex_path (-2) = Ret (PL [Vtx 0 0 0; Vtx (-6) (-8) 1; Vtx (-6) (-12) 0] false)
  /\ translate_mut ex_path 1 (-1) = Ret (PL [Vtx 1 (-1) 0; Vtx 4 3 1; Vtx 4 5 0] false).
Proof. exact ex_image. Qed.
