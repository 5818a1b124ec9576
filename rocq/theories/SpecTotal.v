(** Areas of several loops and of the results of boolean operations (C72). *)
From Coq Require Import Reals ZArith List.
From Verif Require Import Num RNum Res ModelMath ModelSeg ModelPline ModelBoolean SpecPrune.
Import ListNotations.
Local Open Scope R_scope.

(** Loops counted with whole weights: the sum [w] of their winding numbers around [x], and the sum [a] of their areas. *)
Definition weighed_winding (F : list (Z * pline R)) (x : vec2 R) (w : Z) : Prop :=
  exists ws, Forall2 (fun e k => winding_number (snd e) x = Ret k) F ws
  /\ w = fold_right Z.add 0%Z (map (fun ek => fst (fst ek) * snd ek)%Z (combine F ws)).
Definition weighed_area (F : list (Z * pline R)) (a : R) : Prop :=
  exists ms, Forall2 (fun e m => area (snd e) = Ret m) F ms
  /\ a = fold_right Rplus 0 (map (fun em => IZR (fst (fst em)) * snd em) (combine F ms)).

(** How many loops to add go around [x] less how many to subtract do. *)
Definition around (x : vec2 R) (l : boolean_result_pline R) : Z := if inside (brp_pline l) x then 1%Z else 0%Z.
Definition covers (r : boolean_result R) (x : vec2 R) : Z :=
  (fold_right Z.add 0 (map (around x) (br_pos r)) - fold_right Z.add 0 (map (around x) (br_neg r)))%Z.

(** The areas, without sign, of the loops to add less those of the loops to subtract. *)
Definition net_area (r : boolean_result R) (m : R) : Prop :=
  exists ps ns, Forall2 (fun l a => area (brp_pline l) = Ret a) (br_pos r) ps /\ Forall2 (fun l a => area (brp_pline l) = Ret a) (br_neg r) ns
  /\ m = fold_right Rplus 0 (map Rabs ps) - fold_right Rplus 0 (map Rabs ns).
