(** Specification vocabulary for the volume properties: integration over the sphere of directions,
    finite sums, and ray segments. *)
From Coq Require Import Reals List.
From Coquelicot Require Import Coquelicot.
From Verif Require Import Base M_Geometry S_Geometry.
Open Scope R_scope.

(** The direction at polar angle [th] from [z] and azimuth [ph], in the frame (x, y, z). *)
Definition direction (x y z : vec) (th ph : R) : vec :=
  vadd (vadd (vscale (sin th * cos ph) x) (vscale (sin th * sin ph) y)) (vscale (cos th) z).

(** [f] integrates to [v] over the unit sphere (solid angle measure sin(th) dth dph), written in
    the spherical coordinates of the orthonormal frame (x, y, z). *)
Definition sphere_integral (f : vec -> R) (x y z : vec) (v : R) : Prop :=
  exists inner : R -> R,
    (forall th, is_RInt (fun ph => f (direction x y z th ph)) 0 (2 * PI) (inner th)) /\
    is_RInt (fun th => sin th * inner th) 0 PI v.

(** Sum of the first [n] terms. *)
Fixpoint sumn (f : nat -> R) (n : nat) : R :=
  match n with O => 0 | S k => sumn f k + f k end.

(** The same ray restricted to another parameter range. *)
Definition with_range (r : ray) (a b : E) : ray :=
  mkRay (ro r) (rd r) (rdz r) a b (rdepth r) (rtime r).

(** Extended ray parameters [t] lies between [a] and [b]. *)
Definition in_range (a b : E) (t : R) : Prop := ele a (Fin t) /\ ele (Fin t) b.

(** All three components are non-negative. *)
Definition nonneg3 (v : vec) : Prop := 0 <= vx v /\ 0 <= vy v /\ 0 <= vz v.

(** The point at distance [t] from the origin of the ray. *)
Definition along (r : ray) (t : R) : vec := vadd (ro r) (vscale (t / vlength (rd r)) (rd r)).

(** One of the three colour channels. *)
Definition channel (c : vec -> R) : Prop := c = vx \/ c = vy \/ c = vz.
