(** Specification vocabulary for the shape properties. *)
From Coq Require Import Reals List ZArith.
From Verif Require Import Base M_Geometry S_Geometry M_Transform S_Transform M_Shapes.
Import ListNotations.
Open Scope R_scope.

(** The parameter lies in the ray's range. *)
Definition in_range (r : ray) (t : R) : Prop := ele (rmint r) (Fin t) /\ ele (Fin t) (rmaxt r).
(** The (x, y) part of the point is at an angle between 0 and [pm] (any angle does on the axis). *)
Definition angle_within (pm : R) (p : vec) : Prop :=
  exists phi, 0 <= phi <= pm /\
    vx p = sqrt (vx p * vx p + vy p * vy p) * cos phi /\ vy p = sqrt (vx p * vx p + vy p * vy p) * sin phi.
(** The partial sphere, cylinder and disk in object space. *)
Definition on_sphere (rad zmin zmax pm : R) (p : vec) : Prop :=
  vx p * vx p + vy p * vy p + vz p * vz p = rad * rad /\ zmin <= vz p <= zmax /\ angle_within pm p.
Definition on_cylinder (rad zmin zmax pm : R) (p : vec) : Prop :=
  vx p * vx p + vy p * vy p = rad * rad /\ zmin <= vz p <= zmax /\ angle_within pm p.
Definition on_disk (h rad ri pm : R) (p : vec) : Prop :=
  vz p = h /\ ri * ri <= vx p * vx p + vy p * vy p <= rad * rad /\ angle_within pm p.
(** Convex combinations of three points. *)
Definition in_triangle (a b c p : vec) : Prop :=
  exists x y z, 0 <= x /\ 0 <= y /\ 0 <= z /\ x + y + z = 1 /\
    p = vadd (vadd (vscale x a) (vscale y b)) (vscale z c).
(** Four times the squared-length-weighted discriminant of the ray against the sphere of radius [rad]
    around the origin: positive iff the line properly crosses it. *)
Definition discriminant (o d : vec) (rad : R) : R :=
  4 * (vdot d o * vdot d o) - 4 * vdot d d * (vdot o o - rad * rad).
(** A shape's two transforms are mutually inverse and obtained through the API. *)
Definition base_ok (b : base) : Prop := built (b_o2w b) /\ b_w2o b = t_inverse (b_o2w b).
(** Mesh [m] is well indexed: every face corner refers to an existing vertex. *)
Definition faces_ok (vi : list Z) (n : nat) : Prop := Forall (fun i => (0 <= i < Z.of_nat n)%Z) vi.
(** Corner [k] (0..2) of triangle [f]: the world position of the vertex the index list names. *)
Definition corner (o2w : transform) (vi : list Z) (P : list vec) (f k : nat) : vec :=
  t_point o2w (nth (Z.to_nat (nth (3 * f + k) vi 0%Z)) P vzero).
(** Tangents spanning the triangle's plane. *)
Definition tri_normal (a b c : vec) : vec := vcross (vsub b a) (vsub c a).
(** The (u, v) pair stored for vertex [j] in the flat attribute list. *)
Definition uv_of (l : list R) (j : nat) : R * R := (nth (2 * j) l 0, nth (2 * j + 1) l 0).
(** A shape placed without any transform. *)
Definition id_base (ro : bool) : base := mkBase t_identity t_identity ro.
(** The point lies between two corners. *)
Definition in_corners (c : vec * vec) (p : vec) : Prop :=
  vx (fst c) <= vx p <= vx (snd c) /\ vy (fst c) <= vy p <= vy (snd c) /\ vz (fst c) <= vz p <= vz (snd c).
(** The identifiers of [k] objects created one after the other, each creation taking the class-wide counter and
    returning the new identifier and the new counter. *)
Fixpoint make_ids (create : Z -> Z * Z) (k : nat) (c : Z) : list Z :=
  match k with O => [] | S k => let '(i, c') := create c in i :: make_ids create k c' end.
