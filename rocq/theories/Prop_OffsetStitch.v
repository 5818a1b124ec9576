(** C35: stitching the slices of an offset. *)
From Coq Require Import Reals List Permutation PrimFloat.
From Verif Require Import Num RNum FNum Res ModelMath ModelSeg ModelPline ModelView ModelIndex ModelOffset.
From Verif Require Import SpecIndex SpecChain ProofChain ProofOffset3F ProofChain2.
Import ListNotations.

(** Stitching never panics and uses every slice exactly once. Each result is the path of a chain of slices, with
    repeated positions left out; in a chain every slice is followed by an unused slice that begins near its end, the
    first one ahead; a chain ends only where no unused slice begins. The result is closed exactly if the input was
    and the ends meet. *)
Theorem C35_stitching {T} {N : Num T} mk (raw : pline T) slices closed last o : makes_index mk ->
  Forall (view_fits raw) slices -> Forall (fun s => vd_start_index s <= last) slices ->
  exists chains Ks,
    stitch_slices_together mk raw slices closed last o
      = Ret (offset_results slices closed (oo_pos_equal_eps o) (oo_slice_join_eps o) Ks)
    /\ all_chained (path_at raw slices) (next_at slices (oo_slice_join_eps o))
                   (nearest_ahead slices last (oo_pos_equal_eps o)) true (oo_pos_equal_eps o) chains Ks
    /\ Permutation (concat chains) (seq 0 (length slices)).
Proof. exact (stitch_offset_spec mk raw slices closed last o). Qed.
Print Assumptions C35_stitching.

(** Slices are joined if the ends differ by at most twice the tolerance in either coordinate. *)
Theorem C35_near (eps : R) (q r : vec2 R) : reaches eps q r = true <->
  (Rabs (vx q - vx r) <= 2 * eps /\ Rabs (vy q - vy r) <= 2 * eps)%R.
Proof. exact (reaches_dist eps q r). Qed.
Print Assumptions C35_near.

(** Two slices joined to a closed path, and one left alone; an offset that falls into two rooms. *)
Example C35_example :
  (stitch_slices_together (@list_index float _) chain_raw chain_slices true 4 chain_opts
   = Ret [PL [Vtx 0 0 0; Vtx 4 0 0; Vtx 4 2 0; Vtx 4 4 0; Vtx 0 4 0] true; PL [Vtx 3 4 0; Vtx 1 4 0] false])%float
  /\ (let! rs := parallel_offset (@list_index float _) dumbbell dumbbell_index 1.5%float dumbbell_opts in
      Ret (map (fun r => (vertex_count r, is_closed r)) rs)) = Ret [(7, true); (7, true)].
Proof. exact (conj chain_run dumbbell_rooms). Qed.
