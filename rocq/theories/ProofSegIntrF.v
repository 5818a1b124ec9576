(** Segment intersections computed with floating-point numbers. *)
From Coq Require Import Floats Bool.
From Verif Require Import Num FNum ModelMath ModelSeg ModelSegIntr.
Local Open Scope float_scope.

Definition bq : float := sqrt 2 - 1.

(** A vertical line below the upper half of a circle of radius [0x1p-10]. *)
Lemma small_arc_f :
  exists v1 v2 q, pline_seg_intr v1 v2 (Vtx 0x1p-10 0 1) (Vtx (-0x1p-10) 0 0) 0x1p-17 = SIOne q
    /\ (vy q <=? -0x1p-10) = true.
Proof. exists (Vtx 0 (-0x1p-9) 0), (Vtx 0 (-0x1p-11) 0), (V2 0 (-0x1p-10)). vm_compute. auto. Qed.

(** A line that ends just inside the upper half of the unit circle. *)
Lemma shallow_f :
  exists x y q w, pline_seg_intr (Vtx x y 0) (Vtx (-1) y 0) (Vtx 1 0 1) (Vtx (-1) 0 0) 0x1p-17 = SIOne q
    /\ vy w = y /\ (-1 <? vx w) && (vx w <? x) && (abs (vx w * vx w + y * y - 1) <? 0x1p-50) = true
    /\ (100 * 0x1p-17 <? vx q - vx w) = true.
Proof.
  exists (-0.00405), (1 - 0x1p-16), (V2 (-0.00405) (1 - 0x1p-16)), (V2 (- sqrt (1 - (1 - 0x1p-16) * (1 - 0x1p-16))) (1 - 0x1p-16)).
  vm_compute. auto.
Qed.

(** A line that crosses the unit circle nearly along its tangent. *)
Lemma tangent_f :
  exists y u2 w, pline_seg_intr (Vtx (-1) y 0) (Vtx 1 y 0) (Vtx 1 0 0.41362) u2 0x1p-17 = SINoIntersect
    /\ vy w = y /\ (px u2 + 100 * 0x1p-17 <? vx w) && (vx w <? 1) && (abs (vx w * vx w + y * y - 1) <? 0x1p-50) = true.
Proof.
  exists (1 - 0x1p-18), (Vtx 0.001 (sqrt (1 - 0.001 * 0.001)) 0), (V2 (sqrt (1 - (1 - 0x1p-18) * (1 - 0x1p-18))) (1 - 0x1p-18)).
  vm_compute. auto.
Qed.

(** Quarters of the unit circle in opposite directions that end at the same point. *)
Lemma opposite_f :
  pline_seg_intr (Vtx 1 0 bq) (Vtx 0 1 0) (Vtx (-1) 0 (- bq)) (Vtx 0 1 0) 0x1p-17 = SIOne (V2 (-1) 0).
Proof. vm_compute. reflexivity. Qed.

Lemma opposite_ex :
  exists v1 v2 u1 u2 eps q, pline_seg_intr v1 v2 u1 u2 eps = SIOne q
    /\ v1 = Vtx 1 0 bq /\ v2 = Vtx 0 1 0 /\ u1 = Vtx (-1) 0 (- bq) /\ u2 = Vtx 0 1 0 /\ eps = 0x1p-17
    /\ q = V2 (-1) 0.
Proof. do 6 eexists. split; [exact opposite_f|]. repeat split. Qed.

(** Quarters of a circle of radius 1048576 with a gap between them. *)
Lemma large_f :
  exists v1 v2 u1 u2 p q, pline_seg_intr v1 v2 u1 u2 0x1p-17 = SIOverlapArcs p q
    /\ v1 = Vtx 1048576 0 bq /\ v2 = Vtx 0 1048576 0 /\ u1 = Vtx (-0x1p-8) 1048576 bq /\ u2 = Vtx (-1048576) (-0x1p-8) 0
    /\ (vx p <? - (100 * 0x1p-17)) = true.
Proof. do 4 eexists. exists (V2 (-0x1p-8) 1048576), (V2 0 1048576). repeat split; vm_compute; reflexivity. Qed.

(** Concrete cases of the tests of the crate. *)
Lemma overlap_examples_f :
  pline_seg_intr (Vtx 1 0 1) (Vtx (-1) 0 0) (Vtx 0 1 1) (Vtx 0 (-1) 0) 0x1p-17 = SIOverlapArcs (V2 0 1) (V2 (-1) 0)
  /\ pline_seg_intr (Vtx 1 0 1) (Vtx (-1) 0 0) (Vtx 1 0 (-1)) (Vtx (-1) 0 0) 0x1p-17 = SITwo (V2 1 0) (V2 (-1) 0)
  /\ pline_seg_intr (Vtx 1 0 bq) (Vtx 0 1 0) (Vtx (-1) 0 bq) (Vtx 0 (-1) 0) 0x1p-17 = SINoIntersect.
Proof. vm_compute. repeat split; reflexivity. Qed.
