(** Specification vocabulary: the area of a parametrised surface patch. *)
From Coq Require Import Reals.
From Coquelicot Require Import Coquelicot.
From Verif Require Import Base M_Geometry.
Open Scope R_scope.

(** [d] is the derivative of the curve [p] at [x]. *)
Definition vderive (p : R -> vec) (x : R) (d : vec) : Prop :=
  is_derive (fun t => vx (p t)) x (vx d) /\ is_derive (fun t => vy (p t)) x (vy d) /\ is_derive (fun t => vz (p t)) x (vz d).
(** [A] is the integral over [a,b] x [c,d] of the length of the cross product of the partial derivatives of [p]. *)
Definition patch_area (p : R -> R -> vec) (a b c d A : R) : Prop :=
  exists (pu pv : R -> R -> vec) (inner : R -> R),
    (forall u v, vderive (fun t => p t v) u (pu u v)) /\ (forall u v, vderive (fun t => p u t) v (pv u v)) /\
    (forall u, is_RInt (fun v => vlength (vcross (pu u v) (pv u v))) c d (inner u)) /\
    is_RInt inner a b A.
(** The patch is exactly the set of points [S]. *)
Definition patch_covers (p : R -> R -> vec) (a b c d : R) (S : vec -> Prop) : Prop :=
  forall q, S q <-> exists u v, a <= u <= b /\ c <= v <= d /\ q = p u v.
(** Spherical, cylindrical and polar coordinates: azimuth [phi], then polar angle, height or radius. *)
Definition sph (r : R) (phi theta : R) : vec := mkV (r * sin theta * cos phi) (r * sin theta * sin phi) (r * cos theta).
Definition cyl (r : R) (phi z : R) : vec := mkV (r * cos phi) (r * sin phi) z.
Definition dsk (h : R) (phi rho : R) : vec := mkV (rho * cos phi) (rho * sin phi) h.
(** The triangle swept from corner [a]: [s] times the way to the point [t] of the opposite edge. *)
Definition trp (a b c : vec) (s t : R) : vec := vadd a (vscale s (vadd (vscale (1 - t) (vsub b a)) (vscale t (vsub c a)))).
