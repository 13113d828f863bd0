(** Specification vocabulary for the aggregate properties. *)
From Coq Require Import Reals List ZArith.
From Verif Require Import Base M_Geometry S_Geometry M_BVH S_BVH M_Aggregate.
Import ListNotations.
Open Scope R_scope.

(** Primitive [i] meets the closed parameter range of the ray. *)
Definition meets (surf : nat -> R -> Prop) (r : ray) (i : nat) : Prop :=
  exists t, surf i t /\ ele (rmint r) (Fin t) /\ ele (Fin t) (rmaxt r).
(** [t] is the smallest parameter in the ray's range of any of the first [n] primitives. *)
Definition nearest_param (surf : nat -> R -> Prop) (n : nat) (r : ray) (t : R) : Prop :=
  (exists i, (i < n)%nat /\ surf i t) /\ ele (rmint r) (Fin t) /\ ele (Fin t) (rmaxt r) /\
  forall j t', (j < n)%nat -> surf j t' -> ele (rmint r) (Fin t') -> t <= t'.

(** The leaves of a shape hierarchy, left to right. *)
Fixpoint leaves (s : shp) : list nat :=
  match s with
  | SLeaf a => [a]
  | SComp _ l => concat (map leaves l)
  end.
Fixpoint shp_nodes (s : shp) : nat :=
  match s with SLeaf _ => 1 | SComp _ l => S (list_sum (map shp_nodes l)) end.
Definition leaf_name (s : shp) : nat := match s with SLeaf a => a | SComp a _ => a end.

(** One axis of a uniform grid of [n] cells of width [w] from [lo]: [p] lies in cell [x], cells
    being half-open except the last. *)
Definition in_cell (lo w : R) (n x : Z) (p : R) : Prop :=
  lo + IZR x * w <= p /\ (p < lo + IZR (x + 1) * w \/ (x = n - 1)%Z /\ p <= lo + IZR (x + 1) * w).
Definition in_voxel (g : grid) (x y z : Z) (p : vec) : Prop :=
  in_cell (vx (g_lo g)) (vx (g_w g)) (vx (g_nv g)) x (vx p) /\
  in_cell (vy (g_lo g)) (vy (g_w g)) (vy (g_nv g)) y (vy p) /\
  in_cell (vz (g_lo g)) (vz (g_w g)) (vz (g_nv g)) z (vz p).
(** the list of primitives stored for a voxel *)
Definition voxel_prims (g : grid) (x y z : Z) : list nat :=
  nth (Z.to_nat (z * vx (g_nv g) * vy (g_nv g) + y * vx (g_nv g) + x)%Z) (g_vox g) [].
Definition valid_voxel (g : grid) (x y z : Z) : Prop :=
  (0 <= x < vx (g_nv g) /\ 0 <= y < vy (g_nv g) /\ 0 <= z < vz (g_nv g))%Z.

(** every component of the direction is 1, or +0 with a negative coordinate of the origin *)
Definition unit_steps (r : ray) : Prop := forall k, (k < 3)%nat ->
  vnth (rd r) k = 1 \/ (vnth (rd r) k = 0 /\ vnth (rdz r) k = false /\ vnth (ro r) k < 0).
(** no hit lies on the far side of the grid in one axis while the ray also moves along another *)
Definition off_far_edges (bounds : list (vec * vec)) (r : ray) (t : R) : Prop := forall k j, (k < 3)%nat -> (j < 3)%nat -> k <> j ->
  vnth (rd r) k = 1 -> vnth (rd r) j = 1 -> vnth (ray_at r t) k < vnth (agg_hi bounds) k.
