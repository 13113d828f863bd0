(** Model of pytracer/transform/__init__.py and pytracer/transform/quat.py.
    Matrices are over the reals (no rounding). *)
From Coq Require Import Reals Lra List Bool ZArith.
From Verif Require Import Base M_Geometry.
Import ListNotations.
Open Scope R_scope.

(** ** 4x4 arrays *)
Record V4 := mkV4 { q0 : R; q1 : R; q2 : R; q3 : R }.
Record M4 := mkM { row0 : V4; row1 : V4; row2 : V4; row3 : V4 }.
Definition col0 (m : M4) : V4 := mkV4 (q0 (row0 m)) (q0 (row1 m)) (q0 (row2 m)) (q0 (row3 m)).
Definition col1 (m : M4) : V4 := mkV4 (q1 (row0 m)) (q1 (row1 m)) (q1 (row2 m)) (q1 (row3 m)).
Definition col2 (m : M4) : V4 := mkV4 (q2 (row0 m)) (q2 (row1 m)) (q2 (row2 m)) (q2 (row3 m)).
Definition col3 (m : M4) : V4 := mkV4 (q3 (row0 m)) (q3 (row1 m)) (q3 (row2 m)) (q3 (row3 m)).
Definition dot4 (u v : V4) : R := q0 u * q0 v + q1 u * q1 v + q2 u * q2 v + q3 u * q3 v.
(** numpy a.dot(b) *)
Definition mmul (a b : M4) : M4 := mkM
   (mkV4 (dot4 (row0 a) (col0 b)) (dot4 (row0 a) (col1 b)) (dot4 (row0 a) (col2 b)) (dot4 (row0 a) (col3 b)))
   (mkV4 (dot4 (row1 a) (col0 b)) (dot4 (row1 a) (col1 b)) (dot4 (row1 a) (col2 b)) (dot4 (row1 a) (col3 b)))
   (mkV4 (dot4 (row2 a) (col0 b)) (dot4 (row2 a) (col1 b)) (dot4 (row2 a) (col2 b)) (dot4 (row2 a) (col3 b)))
   (mkV4 (dot4 (row3 a) (col0 b)) (dot4 (row3 a) (col1 b)) (dot4 (row3 a) (col2 b)) (dot4 (row3 a) (col3 b))).
(** numpy m.T *)
Definition mT (m : M4) : M4 := mkM (col0 m) (col1 m) (col2 m) (col3 m).
(** numpy.eye(4) *)
Definition I4 : M4 := mkM (mkV4 1 0 0 0) (mkV4 0 1 0 0) (mkV4 0 0 1 0) (mkV4 0 0 0 1).
Definition mzip (f : R -> R -> R) (a b : M4) : M4 :=
  let z := fun u v => mkV4 (f (q0 u) (q0 v)) (f (q1 u) (q1 v)) (f (q2 u) (q2 v)) (f (q3 u) (q3 v)) in
  mkM (z (row0 a) (row0 b)) (z (row1 a) (row1 b)) (z (row2 a) (row2 b)) (z (row3 a) (row3 b)).
(** numpy.linalg.det(m) of a 4x4 array *)
Definition det4 (m : M4) : R :=
  let '(mkV4 a00 a01 a02 a03) := row0 m in
  let '(mkV4 a10 a11 a12 a13) := row1 m in
  let '(mkV4 a20 a21 a22 a23) := row2 m in
  let '(mkV4 a30 a31 a32 a33) := row3 m in
  a00 * ((a11 * (a22 * a33 - a23 * a32) - a12 * (a21 * a33 - a23 * a31) + a13 * (a21 * a32 - a22 * a31))) + a01 * (- (a10 * (a22 * a33 - a23 * a32) - a12 * (a20 * a33 - a23 * a30) + a13 * (a20 * a32 - a22 * a30))) + a02 * ((a10 * (a21 * a33 - a23 * a31) - a11 * (a20 * a33 - a23 * a30) + a13 * (a20 * a31 - a21 * a30))) + a03 * (- (a10 * (a21 * a32 - a22 * a31) - a11 * (a20 * a32 - a22 * a30) + a12 * (a20 * a31 - a21 * a30))).
(** numpy.linalg.inv(m) by cofactors; a singular argument raises LinAlgError (a ValueError). *)
Definition cofinv (m : M4) : M4 :=
  let '(mkV4 a00 a01 a02 a03) := row0 m in
  let '(mkV4 a10 a11 a12 a13) := row1 m in
  let '(mkV4 a20 a21 a22 a23) := row2 m in
  let '(mkV4 a30 a31 a32 a33) := row3 m in
  let d := det4 m in
  mkM
   (mkV4 (((a11 * (a22 * a33 - a23 * a32) - a12 * (a21 * a33 - a23 * a31) + a13 * (a21 * a32 - a22 * a31))) / d) ((- (a01 * (a22 * a33 - a23 * a32) - a02 * (a21 * a33 - a23 * a31) + a03 * (a21 * a32 - a22 * a31))) / d) (((a01 * (a12 * a33 - a13 * a32) - a02 * (a11 * a33 - a13 * a31) + a03 * (a11 * a32 - a12 * a31))) / d) ((- (a01 * (a12 * a23 - a13 * a22) - a02 * (a11 * a23 - a13 * a21) + a03 * (a11 * a22 - a12 * a21))) / d))
   (mkV4 ((- (a10 * (a22 * a33 - a23 * a32) - a12 * (a20 * a33 - a23 * a30) + a13 * (a20 * a32 - a22 * a30))) / d) (((a00 * (a22 * a33 - a23 * a32) - a02 * (a20 * a33 - a23 * a30) + a03 * (a20 * a32 - a22 * a30))) / d) ((- (a00 * (a12 * a33 - a13 * a32) - a02 * (a10 * a33 - a13 * a30) + a03 * (a10 * a32 - a12 * a30))) / d) (((a00 * (a12 * a23 - a13 * a22) - a02 * (a10 * a23 - a13 * a20) + a03 * (a10 * a22 - a12 * a20))) / d))
   (mkV4 (((a10 * (a21 * a33 - a23 * a31) - a11 * (a20 * a33 - a23 * a30) + a13 * (a20 * a31 - a21 * a30))) / d) ((- (a00 * (a21 * a33 - a23 * a31) - a01 * (a20 * a33 - a23 * a30) + a03 * (a20 * a31 - a21 * a30))) / d) (((a00 * (a11 * a33 - a13 * a31) - a01 * (a10 * a33 - a13 * a30) + a03 * (a10 * a31 - a11 * a30))) / d) ((- (a00 * (a11 * a23 - a13 * a21) - a01 * (a10 * a23 - a13 * a20) + a03 * (a10 * a21 - a11 * a20))) / d))
   (mkV4 ((- (a10 * (a21 * a32 - a22 * a31) - a11 * (a20 * a32 - a22 * a30) + a12 * (a20 * a31 - a21 * a30))) / d) (((a00 * (a21 * a32 - a22 * a31) - a01 * (a20 * a32 - a22 * a30) + a02 * (a20 * a31 - a21 * a30))) / d) ((- (a00 * (a11 * a32 - a12 * a31) - a01 * (a10 * a32 - a12 * a30) + a02 * (a10 * a31 - a11 * a30))) / d) (((a00 * (a11 * a22 - a12 * a21) - a01 * (a10 * a22 - a12 * a20) + a02 * (a10 * a21 - a11 * a20))) / d)).
Definition minv (m : M4) : res M4 := if Reqb (det4 m) 0 then Err ValueError else Ok (cofinv m).
(** numpy.linalg.det(m[0:3, 0:3]) *)
Definition det3 (m : M4) : R :=
  let '(mkV4 a00 a01 a02 a03) := row0 m in
  let '(mkV4 a10 a11 a12 a13) := row1 m in
  let '(mkV4 a20 a21 a22 a23) := row2 m in
  let '(mkV4 a30 a31 a32 a33) := row3 m in
  (a00 * (a11 * a22 - a12 * a21) - a01 * (a10 * a22 - a12 * a20) + a02 * (a10 * a21 - a11 * a20)).

(** utility/utility.py:59-61 (ne_unity) *)
Definition ne_unity (x : R) : bool := Rltb x (1 - EPS) || Rltb (1 + EPS) x.
(** numpy.deg2rad *)
Definition deg2rad (a : R) : R := a * (PI / 180).

(** ** Transform *)
(** transform/__init__.py:13-39: the pair of arrays, read-only after construction. *)
Record transform := mkT { tm : M4; tinv : M4 }.
(** transform/__init__.py:18-20 *)
Definition t_identity : transform := mkT I4 I4.
(** transform/__init__.py:25-29: only the matrix is given *)
Definition t_of_matrix (m : M4) : res transform := do i <- minv m; Ok (mkT m i).

(** transform/__init__.py:55-60: points.  Division by w = 0 is outside the model's domain. *)
Definition t_point (t : transform) (p : vec) : vec :=
  let h := mkV4 (vx p) (vy p) (vz p) 1 in
  let x := dot4 (row0 (tm t)) h in let y := dot4 (row1 (tm t)) h in
  let z := dot4 (row2 (tm t)) h in let w := dot4 (row3 (tm t)) h in
  if ne_unity w then mkV (x / w) (y / w) (z / w) else mkV x y z.
(** transform/__init__.py:62-64: vectors *)
Definition t_vector (t : transform) (v : vec) : vec :=
  let h := mkV4 (vx v) (vy v) (vz v) 0 in
  mkV (dot4 (row0 (tm t)) h) (dot4 (row1 (tm t)) h) (dot4 (row2 (tm t)) h).
(** transform/__init__.py:66-69: normals, by the transposed inverse *)
Definition t_normal (t : transform) (n : vec) : vec :=
  let h := mkV4 (vx n) (vy n) (vz n) 0 in
  mkV (dot4 (col0 (tinv t)) h) (dot4 (col1 (tinv t)) h) (dot4 (col2 (tinv t)) h).
(** transform/__init__.py:77-81: rays.  The sign bits of zero direction components of the result
    are not tracked (taken as +0.0). *)
Definition t_ray (t : transform) (r : ray) : ray :=
  mkRay (t_point t (ro r)) (t_vector t (rd r)) (mkV false false false)
        (rmint r) (rmaxt r) (rdepth r) (rtime r).
(** transform/__init__.py:71-75: ray differentials *)
Definition t_raydiff (t : transform) (r : raydiff) : raydiff :=
  let r' := raydiff_from_rd r in
  mkRD (t_ray t (rd_ray r')) (rd_has r') (rd_rxo r') (rd_ryo r') (rd_rxd r') (rd_ryd r').
(** transform/__init__.py:83-93: boxes with finite ordered corners (from_bbox is then a copy).
    The result is the pair of new corners: nothing re-orders them. *)
Definition t_bbox (t : transform) (lo hi : vec) : vec * vec :=
  let x := mkV (vx hi - vx lo) 0 0 in
  let y := mkV 0 (vy hi - vy lo) 0 in
  let z := mkV 0 0 (vz hi - vz lo) in
  let lo' := t_point t lo in
  (lo', vadd lo' (vadd (vadd (t_vector t x) (t_vector t y)) (t_vector t z))).

(** transform/__init__.py:98-101 (__mul__) *)
Definition t_mul (a b : transform) : transform := mkT (mmul (tm a) (tm b)) (mmul (tinv b) (tinv a)).
(** transform/__init__.py:252-256 (inverse) *)
Definition t_inverse (t : transform) : transform := mkT (tinv t) (tm t).
(** transform/__init__.py:103-115 (translate) *)
Definition t_translate (d : vec) : transform :=
  mkT (mkM (mkV4 1 0 0 (vx d)) (mkV4 0 1 0 (vy d)) (mkV4 0 0 1 (vz d)) (mkV4 0 0 0 1))
      (mkM (mkV4 1 0 0 (- vx d)) (mkV4 0 1 0 (- vy d)) (mkV4 0 0 1 (- vz d)) (mkV4 0 0 0 1)).
(** transform/__init__.py:117-129 (scale); zero factors are outside the domain *)
Definition t_scale (x y z : R) : transform :=
  mkT (mkM (mkV4 x 0 0 0) (mkV4 0 y 0 0) (mkV4 0 0 z 0) (mkV4 0 0 0 1))
      (mkM (mkV4 (1 / x) 0 0 0) (mkV4 0 (1 / y) 0 0) (mkV4 0 0 (1 / z) 0) (mkV4 0 0 0 1)).
(** transform/__init__.py:132-141 (rotate_x), angles in degrees *)
Definition t_rotate_x (angle : R) : transform :=
  let s := sin (deg2rad angle) in let c := cos (deg2rad angle) in
  let m := mkM (mkV4 1 0 0 0) (mkV4 0 c (- s) 0) (mkV4 0 s c 0) (mkV4 0 0 0 1) in mkT m (mT m).
(** transform/__init__.py:143-152 (rotate_y) *)
Definition t_rotate_y (angle : R) : transform :=
  let s := sin (deg2rad angle) in let c := cos (deg2rad angle) in
  let m := mkM (mkV4 c 0 s 0) (mkV4 0 1 0 0) (mkV4 (- s) 0 c 0) (mkV4 0 0 0 1) in mkT m (mT m).
(** transform/__init__.py:154-163 (rotate_z) *)
Definition t_rotate_z (angle : R) : transform :=
  let s := sin (deg2rad angle) in let c := cos (deg2rad angle) in
  let m := mkM (mkV4 c (- s) 0 0) (mkV4 s c 0 0) (mkV4 0 0 1 0) (mkV4 0 0 0 1) in mkT m (mT m).
(** transform/__init__.py:165-184 (rotate) *)
Definition t_rotate (angle : R) (axis : vec) : transform :=
  let a := normalize axis in
  let s := sin (deg2rad angle) in let c := cos (deg2rad angle) in
  let m := mkM
    (mkV4 (vx a * vx a + (1 - vx a * vx a) * c) (vx a * vy a * (1 - c) - vz a * s)
          (vx a * vz a * (1 - c) + vy a * s) 0)
    (mkV4 (vx a * vy a * (1 - c) + vz a * s) (vy a * vy a + (1 - vy a * vy a) * c)
          (vy a * vz a * (1 - c) - vx a * s) 0)
    (mkV4 (vx a * vz a * (1 - c) - vy a * s) (vy a * vz a * (1 - c) + vx a * s)
          (vz a * vz a + (1 - vz a * vz a) * c) 0)
    (mkV4 0 0 0 1) in
  mkT m (mT m).
(** transform/__init__.py:196-198: the camera axes *)
Definition look_axes (pos look up : vec) : vec * vec * vec :=
  let zc := normalize (vsub look pos) in
  let xc := normalize (vcross (normalize up) zc) in
  (xc, vcross zc xc, zc).
(** transform/__init__.py:186-233 (look_at) *)
Definition t_look_at (pos look up : vec) : transform :=
  let '(xc, yc, zc) := look_axes pos look up in
  let c2w := mkM (mkV4 (vx xc) (vy xc) (vz xc) (vx pos)) (mkV4 (vx yc) (vy yc) (vz yc) (vy pos))
                 (mkV4 (vx zc) (vy zc) (vz zc) (vz pos)) (mkV4 0 0 0 1) in
  let w2c := mkM
    (mkV4 (vx xc) (vx yc) (vx zc) (- (vx pos * vx xc + vy pos * vx yc + vz pos * vx zc)))
    (mkV4 (vy xc) (vy yc) (vy zc) (- (vx pos * vy xc + vy pos * vy yc + vz pos * vy zc)))
    (mkV4 (vz xc) (vz yc) (vz zc) (- (vx pos * vz xc + vy pos * vz yc + vz pos * vz zc)))
    (mkV4 0 0 0 1) in
  mkT c2w w2c.
(** transform/__init__.py:235-237 (orthographic) *)
Definition t_orthographic (znear zfar : R) : transform :=
  t_mul (t_scale 1 1 (1 / (zfar - znear))) (t_translate (mkV 0 0 (- znear))).
(** transform/__init__.py:239-250 (perspective) *)
Definition persp_matrix (n f : R) : M4 :=
  mkM (mkV4 1 0 0 0) (mkV4 0 1 0 0) (mkV4 0 0 (f / (f - n)) (- f * n / (f - n))) (mkV4 0 0 1 0).
Definition t_perspective (fov n f : R) : res transform :=
  let tan_inv := 1 / tan (deg2rad fov / 2) in
  do p <- t_of_matrix (persp_matrix n f);
  Ok (t_mul (t_scale tan_inv tan_inv 1) p).
(** transform/__init__.py:261-264 (has_scale) *)
Definition has_scale (t : transform) : bool :=
  let rr := fun r => q0 r * q0 r + q1 r * q1 r + q2 r * q2 r in
  ne_unity (rr (row0 (tm t))) || ne_unity (rr (row1 (tm t))) || ne_unity (rr (row2 (tm t))).
(** transform/__init__.py:266-267 (swaps_handedness) *)
Definition swaps_handedness (t : transform) : bool := Rltb (det3 (tm t)) 0.

(** ** quaternions (quat.py).  The four slots of the numpy quaternion type are named here by how
    this module uses them: Quaternion(x, y, z, w) and x, y, z, w = q.w, q.x, q.y, q.z. *)
Record quat := mkQ { qx : R; qy : R; qz : R; qw : R }.
(** quat.py:21-22 (dot) *)
Definition qdot (a b : quat) : R := qx a * qx b + qy a * qy b + qz a * qz b + qw a * qw b.
Definition qscale (k : R) (a : quat) : quat := mkQ (k * qx a) (k * qy a) (k * qz a) (k * qw a).
Definition qadd (a b : quat) : quat := mkQ (qx a + qx b) (qy a + qy b) (qz a + qz b) (qw a + qw b).
(** numpy quaternion .normalized(): division by the norm (a zero quaternion is outside the domain) *)
Definition qnormalized (a : quat) : quat := qscale (/ sqrt (qdot a a)) a.
(** quat.py:25-33 (to_transform) *)
Definition to_transform (q : quat) : transform :=
  let '(mkQ x y z w) := q in
  let m := mkM
    (mkV4 (1 - 2 * (y * y + z * z)) (2 * (x * y + z * w)) (2 * (x * z - y * w)) 0)
    (mkV4 (2 * (x * y - z * w)) (1 - 2 * (x * x + z * z)) (2 * (y * z + x * w)) 0)
    (mkV4 (2 * (x * z + y * w)) (2 * (y * z - x * w)) (1 - 2 * (x * x + y * y)) 0)
    (mkV4 0 0 0 1) in
  mkT (mT m) m.
Definition vnth4 (v : V4) (i : nat) : R :=
  match i with O => q0 v | 1%nat => q1 v | 2%nat => q2 v | _ => q3 v end.
Definition mget (m : M4) (i j : nat) : R :=
  vnth4 (match i with O => row0 m | 1%nat => row1 m | 2%nat => row2 m | _ => row3 m end) j.
(** numpy m.trace() of the 4x4 array *)
Definition trace4 (m : M4) : R := mget m 0 0 + mget m 1 1 + mget m 2 2 + mget m 3 3.
(** quat.py:36-69 (from_transform) and 72-105 (from_arr): the same computation on a 4x4 array *)
Definition from_arr (m : M4) : quat :=
  let tr := trace4 m in
  if Rltb 0 tr then
    let s := sqrt (tr + 1) in
    let w := s / 2 in
    let s := / 2 / s in
    mkQ ((mget m 2 1 - mget m 1 2) * s) ((mget m 0 2 - mget m 2 0) * s) ((mget m 1 0 - mget m 0 1) * s) w
  else
    let nxt := fun i => match i with O => 1%nat | 1%nat => 2%nat | _ => 0%nat end in
    let i := if Rltb (mget m 0 0) (mget m 1 1) then 1%nat else 0%nat in
    let i := if Rltb (mget m 2 2) (mget m i i) then 2%nat else i in
    let j := nxt i in let k := nxt j in
    let s := sqrt (mget m i i - (mget m j j + mget m k k) + 1) in
    let qi := s * / 2 in
    let s := if Reqb s 0 then s else / 2 / s in
    let w := (mget m k j - mget m j k) * s in
    let qj := (mget m j i + mget m i j) * s in
    let qk := (mget m k i + mget m i k) * s in
    let get := fun a => if Nat.eqb a i then qi else if Nat.eqb a j then qj else qk in
    mkQ (get 0%nat) (get 1%nat) (get 2%nat) w.
(** quat.py:108-116 (slerp) *)
Definition slerp (t : R) (a b : quat) : quat :=
  let ct := qdot a b in
  if Rltb (1 - EPS) ct then qnormalized (qadd (qscale (1 - t) a) (qscale t b))
  else
    let theta := acos (clip ct (-1) 1) in
    let thetap := theta * t in
    let qperp := qnormalized (qadd b (qscale (-1) (qscale ct a))) in
    qadd (qscale (cos thetap) a) (qscale (sin thetap) qperp).

(** ** AnimatedTransform *)
(** transform/__init__.py:45-49 (== compares the matrices) *)
Definition V4_eqb (u v : V4) : bool :=
  Reqb (q0 u) (q0 v) && Reqb (q1 u) (q1 v) && Reqb (q2 u) (q2 v) && Reqb (q3 u) (q3 v).
Definition M4_eqb (a b : M4) : bool :=
  V4_eqb (row0 a) (row0 b) && V4_eqb (row1 a) (row1 b) && V4_eqb (row2 a) (row2 b) && V4_eqb (row3 a) (row3 b).

(** transform/__init__.py:344-346: the linear part *)
Definition linear_part (m : M4) : M4 :=
  mkM (mkV4 (q0 (row0 m)) (q1 (row0 m)) (q2 (row0 m)) 0) (mkV4 (q0 (row1 m)) (q1 (row1 m)) (q2 (row1 m)) 0)
      (mkV4 (q0 (row2 m)) (q1 (row2 m)) (q2 (row2 m)) 0) (mkV4 0 0 0 1).
(** transform/__init__.py:357-358: largest column sum of |Rnext - Rit| over the 3x3 block *)
Definition polar_norm (a b : M4) : R :=
  let c := fun ca cb => Rabs (q0 ca - q0 cb) + Rabs (q1 ca - q1 cb) + Rabs (q2 ca - q2 cb) in
  Rmax (Rmax (c (col0 a) (col0 b)) (c (col1 a) (col1 b))) (c (col2 a) (col2 b)).
(** transform/__init__.py:352-359: [n] remaining iterations; returns also how many were executed *)
Fixpoint polar_loop (n : nat) (norm : R) (r : M4) (count : nat) : res (M4 * nat) :=
  match n with
  | O => Ok (r, count)
  | S n' =>
      if Rltb norm EPS then Ok (r, count)
      else
        do rit <- minv (mT r);
        let rnext := mzip (fun a b => / 2 * (a + b)) rit r in
        polar_loop n' (pmax norm (polar_norm rnext rit)) rnext (S count)
  end.
(** transform/__init__.py:333-365 (decompose) *)
Definition decompose (m : M4) : res (vec * quat * M4) :=
  let T := mkV (q3 (row0 m)) (q3 (row1 m)) (q3 (row2 m)) in
  let M := linear_part m in
  do (r, _) <- polar_loop 100 (2 * EPS) M 0;
  do ri <- minv r;
  Ok (T, from_arr r, mmul ri M).

(** transform/__init__.py:271-282 (AnimatedTransform.__init__); the decompositions exist only
    when animated *)
Record animated := mkA {
  a_start : R; a_end : R; a_t1 : transform; a_t2 : transform;
  a_animated : bool; a_d1 : vec * quat * M4; a_d2 : vec * quat * M4 }.
Definition no_decomp : vec * quat * M4 := (vzero, mkQ 0 0 0 0, I4).
Definition a_make (t1 : transform) (tm1 : R) (t2 : transform) (tm2 : R) : res animated :=
  if M4_eqb (tm t1) (tm t2) then Ok (mkA tm1 tm2 t1 t2 false no_decomp no_decomp)
  else
    do d1 <- decompose (tm t1);
    do d2 <- decompose (tm t2);
    Ok (mkA tm1 tm2 t1 t2 true d1 d2).
(** transform/__init__.py:367-385 (interpolate) *)
Definition a_interpolate (a : animated) (time : R) : res transform :=
  if negb (a_animated a) || Rleb time (a_start a) then Ok (a_t1 a)
  else if Rleb (a_end a) time then Ok (a_t2 a)
  else
    let dt := (time - a_start a) / (a_end a - a_start a) in
    let '(T0, R0, S0) := a_d1 a in
    let '(T1, R1, S1) := a_d2 a in
    let trans := vadd (vscale (1 - dt) T0) (vscale dt T1) in
    let rot := slerp dt R0 R1 in
    do sc <- t_of_matrix (mzip (lerp dt) S0 S1);
    Ok (t_mul (t_mul (t_translate trans) (to_transform rot)) sc).
(** transform/__init__.py:289-298 (call on a ray) *)
Definition a_ray (a : animated) (r : ray) : res ray :=
  if negb (a_animated a) || Rltb (rtime r) (a_start a) then Ok (t_ray (a_t1 a) r)
  else if Rleb (a_end a) (rtime r) then Ok (t_ray (a_t2 a) r)
  else do t <- a_interpolate a (rtime r); Ok (t_ray t r).
(** transform/__init__.py:300-307 (call on a time and a point) *)
Definition a_point (a : animated) (time : R) (p : vec) : res vec :=
  if negb (a_animated a) || Rltb time (a_start a) then Ok (t_point (a_t1 a) p)
  else if Rltb (a_end a) time then Ok (t_point (a_t2 a) p)
  else do t <- a_interpolate a time; Ok (t_point t p).
(** transform/__init__.py:309-316 (call on a time and a vector) *)
Definition a_vector (a : animated) (time : R) (v : vec) : res vec :=
  if negb (a_animated a) || Rltb time (a_start a) then Ok (t_vector (a_t1 a) v)
  else if Rltb (a_end a) time then Ok (t_vector (a_t2 a) v)
  else do t <- a_interpolate a time; Ok (t_vector t v).
(** transform/__init__.py:320-331 (motion_bounds) *)
Definition step_time (a : animated) (i : nat) : R := lerp (INR i * (1 / (128 - 1))) (a_start a) (a_end a).
Fixpoint motion_loop (a : animated) (use_inv : bool) (lo hi : vec) (is : list nat) (acc : box) : res box :=
  match is with
  | [] => Ok acc
  | i :: is' =>
      do t <- a_interpolate a (step_time a i);
      let t := if use_inv then t_inverse t else t in
      let '(lo', hi') := t_bbox t lo hi in
      motion_loop a use_inv lo hi is' (union_bb acc (fbox lo' hi'))
  end.
Definition motion_bounds (a : animated) (lo hi : vec) (use_inv : bool) : res box :=
  if negb (a_animated a) then
    let '(lo', hi') := t_bbox (t_inverse (a_t1 a)) lo hi in Ok (fbox lo' hi')
  else motion_loop a use_inv lo hi (seq 0 128) bbox_empty.
