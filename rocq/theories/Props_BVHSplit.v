(** Property theorem C170 (how a BVH divides primitives between the children of a node) *)
From Coq Require Import Reals Lra Lia List Bool ZArith Arith Permutation.
From Verif Require Import Base M_Geometry M_BVH S_BVH P_BVH P_BVHWit P_BVHSplit.
Import ListNotations.
Open Scope R_scope.

(** ** C170.  Expected: along the split axis of a node, the centres of the primitives below the first child do not lie
    behind the centres of those below the second.  It holds but for one primitive of the second child... *)
Theorem C170_all_but_one_partial (method : split_method) (mp : nat) (bounds : list (vec * vec)) t ordered n b ax c0 c1 :
  bvh_build method mp bounds = Ok (t, ordered, n) -> subtree (Node b ax c0 c1) t ->
  exists stray rest, Permutation (stored ordered c1) (stray :: rest) /\
    forall i j, In i (stored ordered c0) -> In j rest -> centre bounds i ax <= centre bounds j ax.
Proof. intros B S. apply (bvh_split method mp bounds t ordered n b ax c0 c1 B S). Qed.
(** ... and holds at nodes of at most four primitives with the surface area method *)
Theorem C170_small_partial (mp : nat) (bounds : list (vec * vec)) t ordered n b ax c0 c1 :
  bvh_build SAH mp bounds = Ok (t, ordered, n) -> subtree (Node b ax c0 c1) t ->
  (length (stored ordered c0) + length (stored ordered c1) <= 4)%nat ->
  forall i j, In i (stored ordered c0) -> In j (stored ordered c1) -> centre bounds i ax <= centre bounds j ax.
Proof. intros B S L. apply (bvh_split SAH mp bounds t ordered n b ax c0 c1 B S); auto. Qed.
(** in general it fails: points at 1/2, 2 and 0, method 'middle' (one primitive is never compared with the split position) *)
Theorem C170_stray_refuted : exists bounds t ordered n b ax c0 c1, bvh_build MIDDLE 1 bounds = Ok (t, ordered, n) /\
  subtree (Node b ax c0 c1) t /\ exists i j, In i (stored ordered c0) /\ In j (stored ordered c1) /\ centre bounds j ax < centre bounds i ax.
Proof.
  exists [(mkV (1/2) 0 0, mkV (1/2) 0 0); (mkV 2 0 0, mkV 2 0 0); (mkV 0 0 0, mkV 0 0 0)].
  do 7 eexists. split.
  { unfold bvh_build. cbn. unfold seg_centroids, bp_centroid, union_pt, maximum_extent, emin, emax; cbn. rdec. unfold eeqb. rdec.
    do 4 (unfold Nat.ltb; cbn; unfold seg_centroids, bp_centroid, union_pt, maximum_extent, emin, emax, eeqb; cbn; rdec). reflexivity. }
  split; [apply sub_refl|]. exists 0%nat, 2%nat. cbn. split; [auto|]. split; [auto|]. unfold centre; cbn. lra.
Qed.
(** the surface area method on two points in the wrong order: sorted *)
Example C170_two : exists t ordered n, bvh_build SAH 1 [(mkV 1 0 0, mkV 1 0 0); (mkV 0 0 0, mkV 0 0 0)] = Ok (t, ordered, n) /\ ordered = [1; 0]%nat.
Proof.
  do 3 eexists. split.
  { unfold bvh_build. cbn. unfold seg_centroids, bp_centroid, union_pt, maximum_extent, emin, emax; cbn. rdec. unfold eeqb. rdec. reflexivity. }
  reflexivity.
Qed.

Print Assumptions C170_all_but_one_partial.
Print Assumptions C170_small_partial.
Print Assumptions C170_stray_refuted.
