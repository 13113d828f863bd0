(** Specification for C295: what a flat mirror shows. *)
From Coq Require Import Reals ZArith.
From Verif Require Import Base M_Geometry M_Integrator.
Open Scope R_scope.

(** [r'] is the ray [r] thrown back at the point [p] of a surface with unit normal [n]: from [p] (leaving out the first [eps] of the way) to
    infinity, the angle with the normal equal to that of [r], one level deeper *)
Definition thrown_back (r : ray) (p n : vec) (eps : R) (r' : ray) : Prop :=
  ro r' = p /\ rd r' = vsub (rd r) (vscale (2 * vdot (rd r) n) n) /\ rmint r' = Fin eps /\ rmaxt r' = PInf /\
  rtime r' = rtime r /\ rdepth r' = (rdepth r + 1)%Z.
(** light of colour [L] coloured by [c] *)
Definition tinted (c L : vec) : vec := mkV (vx c * vx L) (vy c * vy L) (vz c * vz L).
