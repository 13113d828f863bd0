(** Float64 arithmetic, continued (see M_Float, M_Float2): points along rays. *)
From Coq Require Import Reals.
From Verif Require Import Base M_Geometry M_Float M_Float2.
Open Scope R_scope.

(** geometry/__init__.py:320-324 (Ray.__call__): o + d * t, coordinate by coordinate *)
Definition f_ray_at (o d : vec) (t : R) : vec :=
  mkV (fadd (vx o) (fmul (vx d) t)) (fadd (vy o) (fmul (vy d) t)) (fadd (vz o) (fmul (vz d) t)).
