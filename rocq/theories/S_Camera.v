(** Vocabulary for cameras *)
From Coq Require Import Reals Lra List Bool ZArith.
From Verif Require Import Base M_Geometry M_Transform M_Sampler M_Camera S_Geometry.
Open Scope R_scope.
(** where raster position X (or Y) of an image with [res] pixels lies in the screen window: X = 0 at the left edge x0 and
    X = res at the right edge x1; Y = 0 at the top edge y1 and Y = res at the bottom edge y0 *)
Definition screen_x (res x0 x1 X : R) : R := x0 + X / res * (x1 - x0).
Definition screen_y (res y0 y1 Y : R) : R := y1 - Y / res * (y1 - y0).
(** the half-angle tangent of a field of view in degrees *)
Definition half_tan (fov : R) : R := tan (fov / 2 * (PI / 180)).
(** a sample moved by (dx, dy) pixels *)
Definition shifted (dx dy : R) (s : sample) : sample :=
  mkS (imageX s + dx) (imageY s + dy) (lens_u s) (lens_v s) (stime s) (n1D s) (n2D s) (oneD s) (twoD s).
(** a camera that does not move, placed by [t] *)
Definition static (a : animated) (t : transform) : Prop := a_animated a = false /\ a_t1 a = t.
(** the ray leaving o (camera space) in direction d at the given time, unrestricted *)
Definition camera_space_ray (o d : vec) (time : R) : ray := mkRay o d (mkV false false false) (Fin 0) PInf 0 time.
Definition shutter_time (s : sample) (opn close : R) : R := opn + stime s * (close - opn).
