(** Specification for bounds on radiance. *)
From Coq Require Import Reals ZArith.
From Verif Require Import Base M_Geometry.
Open Scope R_scope.

(** Every channel between 0 and m. *)
Definition channels_within (m : R) (s : vec) : Prop := 0 <= vx s <= m /\ 0 <= vy s <= m /\ 0 <= vz s <= m.
(** 1 + rho + ... + rho^(n-1) *)
Fixpoint geometric (rho : R) (n : nat) : R := match n with O => 0 | S n => 1 + rho * geometric rho n end.
(** How many surfaces a light path can have that starts with a ray of depth [d]: at least one. *)
Definition surfaces_left (max_depth d : Z) : nat := S (Z.to_nat (max_depth - 1 - d)).
