(** Specification vocabulary for the geometry properties (no model helper is used beyond the data
    types [vec], [box], [ray] and the IEEE order on extended numbers). *)
From Coq Require Import Reals List.
From Verif Require Import Base M_Geometry.
Open Scope R_scope.

(** The set of points denoted by a box. *)
Definition in_box (b : box) (p : vec) : Prop :=
  ele (vx (bmin b)) (Fin (vx p)) /\ ele (Fin (vx p)) (vx (bmax b)) /\
  ele (vy (bmin b)) (Fin (vy p)) /\ ele (Fin (vy p)) (vy (bmax b)) /\
  ele (vz (bmin b)) (Fin (vz p)) /\ ele (Fin (vz p)) (vz (bmax b)).

(** No NaN coordinate (the Point constructor of the code rejects NaN). *)
Definition nonan3 (v : V3 E) : Prop := notnan (vx v) /\ notnan (vy v) /\ notnan (vz v).
Definition box_ok (b : box) : Prop := nonan3 (bmin b) /\ nonan3 (bmax b).

Definition le3 (u v : V3 E) : Prop :=
  ele (vx u) (vx v) /\ ele (vy u) (vy v) /\ ele (vz u) (vz v).
(** [b] is enclosed by [c], corner-wise; for non-empty boxes this is set inclusion. *)
Definition box_le (b c : box) : Prop := le3 (bmin c) (bmin b) /\ le3 (bmax b) (bmax c).

(** Things one can put in a box. *)
Inductive geom := GP (p : V3 E) | GB (b : box).
Definition geom_ok (g : geom) : Prop :=
  match g with GP p => nonan3 p | GB b => box_ok b end.
Definition covers (b : box) (g : geom) : Prop :=
  match g with GP p => le3 (bmin b) p /\ le3 p (bmax b) | GB c => box_le c b end.

(** The API calls under test: a box accumulated with [union]. *)
Definition add_geom (b : box) (g : geom) : box :=
  match g with GP p => union_pt b p | GB c => union_bb b c end.
Definition accumulate (b : box) (l : list geom) : box := fold_left add_geom l b.

Definition vle (u v : vec) : Prop := vx u <= vx v /\ vy u <= vy v /\ vz u <= vz v.
(** plain real box *)
Definition between (lo p hi : vec) : Prop := vle lo p /\ vle p hi.

Definition unit (v : vec) : Prop := vx v * vx v + vy v * vy v + vz v * vz v = 1.
Definition orth (u v : vec) : Prop := vx u * vx v + vy u * vy v + vz u * vz v = 0.
(** three mutually orthogonal unit vectors *)
Definition frame (x y z : vec) : Prop := unit x /\ unit y /\ unit z /\ orth x y /\ orth x z /\ orth y z.

(** Per axis: the direction component is not IEEE negative zero while the origin lies exactly on
    one of the two face planes. *)
Definition slab_ok (lo hi o d : R) (nz : bool) : Prop :=
  d = 0 -> nz = true -> o <> lo /\ o <> hi.

Definition ray_face_ok (lo hi : vec) (r : ray) : Prop :=
  slab_ok (vx lo) (vx hi) (vx (ro r)) (vx (rd r)) (vx (rdz r)) /\
  slab_ok (vy lo) (vy hi) (vy (ro r)) (vy (rd r)) (vy (rdz r)) /\
  slab_ok (vz lo) (vz hi) (vz (ro r)) (vz (rd r)) (vz (rdz r)).

