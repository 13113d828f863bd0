(** Float64 arithmetic, continued (see M_Float, M_Float2): the tests which decide whether a line meets a sphere or a cylinder. *)
From Coq Require Import Reals List Bool ZArith.
From Verif Require Import Base M_Geometry M_Float M_Float2.
Open Scope R_scope.

(** pytracer/__init__.py:23: the float64 number written 1e-5 *)
Definition f_eps : R := fl (/ 100000).
(** shape/sphere.py:137-141, 231-235: A, B, C and D = B*B - 4*A*C for the ray in object space; numpy's dot as in M_Float2 *)
Definition f_disc (o d : vec) (r : R) : R :=
  let A := f_sqlen d in let B := fmul 2 (f_dot d o) in let C := fsub (f_sqlen o) (fmul r r) in
  fsub (fmul B B) (fmul (fmul 4 A) C).
(** sphere.py:142, 236: the ray goes on to the next test *)
Definition f_sphere_line (o d : vec) (r : R) : bool := Rltb f_eps (f_disc o d r).
(** shape/cylinder.py:64-68, 147-151: the same in the plane *)
Definition f_disc2 (o d : vec) (r : R) : R :=
  let A := fadd (fmul (vx d) (vx d)) (fmul (vy d) (vy d)) in
  let B := fmul 2 (fadd (fmul (vx d) (vx o)) (fmul (vy d) (vy o))) in
  let C := fsub (fadd (fmul (vx o) (vx o)) (fmul (vy o) (vy o))) (fmul r r) in
  fsub (fmul B B) (fmul (fmul 4 A) C).
(** cylinder.py:69, 152 *)
Definition f_cylinder_line (o d : vec) (r : R) : bool := Rltb 0 (f_disc2 o d r).
(** geometry/__init__.py:166-168: the difference of two points *)
Definition f_vsub (a b : vec) : vec := mkV (fsub (vx a) (vx b)) (fsub (vy a) (vy b)) (fsub (vz a) (vz b)).
(** shape/triangle.py:179-205, 251-277 (intersect and intersect_p up to the parameter range): t, b1, b2 *)
Definition f_triangle (o d p1 p2 p3 : vec) : option (R * R * R) :=
  let e1 := f_vsub p2 p1 in let e2 := f_vsub p3 p1 in
  let s1 := f_cross d e2 in let div := f_dot s1 e1 in
  if Reqb div 0 then None else
  let div_inv := fdiv 1 div in
  let s := f_vsub o p1 in let b1 := fmul (f_dot s s1) div_inv in
  if Rltb b1 0 || Rltb 1 b1 then None else
  let s2 := f_cross s e1 in let b2 := fmul (f_dot d s2) div_inv in
  if Rltb b2 0 || Rltb 1 (fadd b1 b2) then None else
  Some (fmul (f_dot e2 s2) div_inv, b1, b2).
(** triangle.py:206, 278: with the ray's range of parameters (finite bounds) *)
Definition f_triangle_hit (o d p1 p2 p3 : vec) (mint maxt : R) : bool :=
  match f_triangle o d p1 p2 p3 with
  | Some (t, _, _) => negb (Rltb t mint || Rltb maxt t) | None => false end.
