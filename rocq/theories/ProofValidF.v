(** Evaluated cases of view validation (C57). *)
From Coq Require Import List Arith Floats.
From Verif Require Import Num FNum Res ModelMath ModelIntr ModelSeg ModelPline ModelView.
Import ListNotations.

Lemma small_eps_invalid : exists (p : pline float) sp ep d,
  view_from_slice_points p sp 0 ep 1 1e-8%float = Ret (Some d)
  /\ validate_for_source d p = Ret (VVEndPointOnFinalOffsetVertex ep (Vtx 10 0 0)%float).
Proof.
  exists (PL [Vtx 0 0 0; Vtx 10 0 0; Vtx 10 10 0] false)%float, (V2 1 0)%float, (V2 10 5e-6)%float.
  eexists. split; vm_compute; reflexivity.
Qed.

Lemma valid_cases :
  let v x y b := Vtx x y b : vertex float in
  let p := (PL [v 0 0 0; v 4 0 1; v 4 4 0; v 0 4 0] true)%float in
  let slice sp i ep j := (let! o := view_from_slice_points p sp i ep j 1e-5%float in let! d := unwrap o in validate_for_source d p) in
  (slice (V2 1 0) 0%nat (V2 6 2) 1%nat = Ret VVIsValid
   /\ slice (V2 6 2) 1%nat (V2 1 0) 0%nat = Ret VVIsValid
   /\ (let! o := view_from_new_start p (V2 6 2) 1 1e-5 in let! d := unwrap o in validate_for_source d p) = Ret VVIsValid
   /\ (let! d := view_from_entire_pline p in validate_for_source d p) = Ret VVIsValid
   /\ validate_for_source (VD 0%nat 1%nat (v 1 0 0) 0 (V2 5 2) false) p = Ret (VVEndPointNotOnSegment (V2 5 2))
   /\ validate_for_source (VD 0%nat 1%nat (v 1 1 0) 0 (V2 6 2) false) p = Ret (VVUpdatedStartNotOnSegment (V2 1 1))
   /\ validate_for_source (VD 0%nat 5%nat (v 1 0 0) 0 (V2 6 2) false) p = Ret (VVOffsetOutOfRange 5 4)
   /\ validate_for_source (VD 0%nat 0%nat (v 1 0 0) 1 (V2 2 0) false) p = Ret (VVUpdatedBulgeDoesNotMatch 1 0)
   /\ validate_for_source (VD 0%nat 1%nat (v 1 0 0) 0 (V2 4 0) false) p = Ret (VVEndPointOnFinalOffsetVertex (V2 4 0) (v 4 0 1))
   /\ validate_for_source (VD 0%nat 1%nat (v 1 0 0) 0 (V2 4 0) false) (PL [v 1 1 1] true) = Ret VVSourceHasNoSegments)%float.
Proof. repeat split; vm_compute; reflexivity. Qed.
