(** Float64 arithmetic, continued (see M_Float): vectors, transforms, sums of samples, sampling of triangles and cones.
    numpy's dot product is modelled as the sum from left to right (a library compiled with fused multiply-add may round
    less often). *)
From Coq Require Import Reals List Bool ZArith.
From Verif Require Import Base M_Geometry M_Transform M_Float.
Import ListNotations.
Open Scope R_scope.

(** a vector of float64 numbers *)
Definition F64v (v : vec) : Prop := F64 (vx v) /\ F64 (vy v) /\ F64 (vz v).
(** numpy.sqrt: correctly rounded *)
Definition fsqrt (x : R) : R := fl (sqrt x).
(** geometry/__init__.py:76-77, numpy.dot *)
Definition f_dot (a b : vec) : R := fadd (fadd (fmul (vx a) (vx b)) (fmul (vy a) (vy b))) (fmul (vz a) (vz b)).
(** geometry/__init__.py:79-82, 262-265 (cross) *)
Definition f_cross (a b : vec) : vec :=
  mkV (fsub (fmul (vy a) (vz b)) (fmul (vz a) (vy b))) (fsub (fmul (vz a) (vx b)) (fmul (vx a) (vz b)))
      (fsub (fmul (vx a) (vy b)) (fmul (vy a) (vx b))).
(** geometry/__init__.py:84-88 (sq_length, length) *)
Definition f_sqlen (v : vec) : R := fadd (fadd (fmul (vx v) (vx v)) (fmul (vy v) (vy v))) (fmul (vz v) (vz v)).
Definition f_len (v : vec) : R := fsqrt (f_sqlen v).
(** geometry/__init__.py:90-95, geometry/utility.py:55-74 (normalize) *)
Definition f_normalize (v : vec) : vec :=
  let l := f_len v in if Reqb l 0 then v else mkV (fdiv (vx v) l) (fdiv (vy v) l) (fdiv (vz v) l).

(** transform/__init__.py:56, 63: one row of m[0:4, 0:3].dot(arg) *)
Definition f_row (r : V4) (p : vec) : R := fadd (fadd (fmul (q0 r) (vx p)) (fmul (q1 r) (vy p))) (fmul (q2 r) (vz p)).
(** transform/__init__.py:55-60 (points) *)
Definition f_point (m : M4) (p : vec) : vec :=
  let x := fadd (f_row (row0 m) p) (q3 (row0 m)) in let y := fadd (f_row (row1 m) p) (q3 (row1 m)) in
  let z := fadd (f_row (row2 m) p) (q3 (row2 m)) in let w := fadd (f_row (row3 m) p) (q3 (row3 m)) in
  if ne_unity w then mkV (fdiv x w) (fdiv y w) (fdiv z w) else mkV x y z.
(** transform/__init__.py:62-64 (vectors) *)
Definition f_vector (m : M4) (v : vec) : vec := mkV (f_row (row0 m) v) (f_row (row1 m) v) (f_row (row2 m) v).

(** film/film.py:187-198: one channel of a pixel, or its weight, after the contributions [l] have been added in turn *)
Definition f_total (l : list R) : R := fold_left fadd l 0.

(** montecarlo/utility.py:197-206 (uniform_sample_triangle) and shape/triangle.py:148-152: the three weights *)
Definition f_bary (u1 u2 : R) : R * R * R :=
  let b0 := fsub 1 (fsqrt u1) in let b1 := fmul u2 (fsqrt u1) in (b0, b1, fsub (fsub 1 b0) b1).
(** montecarlo/utility.py:217-225 (uniform_sample_cone): cosine of the polar angle, with and without a frame, and what the
    square root of the sine is taken of (219, 224) *)
Definition f_cone_cos (framed : bool) (u1 ct_max : R) : R :=
  if framed then f_lerp u1 ct_max 1 else fadd (fsub 1 u1) (fmul u1 ct_max).
Definition f_cone_root (framed : bool) (u1 ct_max : R) : R :=
  let ct := f_cone_cos framed u1 ct_max in fsub 1 (fmul ct ct).
