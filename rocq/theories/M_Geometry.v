(** Model of pytracer/geometry/__init__.py and pytracer/geometry/utility.py.
    Coordinates of points and vectors are reals; box corners are extended numbers because the
    default box of the code has infinite corners. *)
From Coq Require Import Reals Lra List Bool ZArith.
From Verif Require Import Base.
Import ListNotations.
Open Scope R_scope.

(** geometry/__init__.py:79-82 (Vector.cross), 262-265 (Normal.cross) *)
Definition vcross (u v : vec) : vec :=
  mkV (vy u * vz v - vz u * vy v)
      (vz u * vx v - vx u * vz v)
      (vx u * vy v - vy u * vx v).
(** geometry/__init__.py:84-85, 181-182, 267-268 (sq_length) *)
Definition sq_length (v : vec) : R := vx v * vx v + vy v * vy v + vz v * vz v.
(** geometry/__init__.py:87-88, 184-185, 270-271 (length) *)
Definition vlength (v : vec) : R := sqrt (sq_length v).
(** geometry/__init__.py:187-190 (Point.sq_dist) *)
Definition sq_dist (p q : vec) : R :=
  (vx p - vx q) * (vx p - vx q) + (vy p - vy q) * (vy p - vy q) + (vz p - vz q) * (vz p - vz q).
(** geometry/__init__.py:192-195 (Point.dist) *)
Definition pdist (p q : vec) : R := sqrt (sq_dist p q).
(** geometry/__init__.py:76-77, 259-260 (abs_dot) *)
Definition abs_dot (u v : vec) : R := Rabs (vdot u v).
(** geometry/utility.py:55-73 (normalize); geometry/__init__.py:90-95, 273-278 (in-place
    Vector.normalize / Normal.normalize compute the same value). *)
Definition normalize (v : vec) : vec :=
  let l := vlength v in
  if Reqb l 0 then v else mkV (vx v / l) (vy v / l) (vz v / l).

(** geometry/utility.py:25-52 (coordinate_system) *)
Definition coordinate_system (v1 : vec) : vec * vec * vec :=
  if Reqb (vlength v1) 0 then (mkV 1 0 0, mkV 0 1 0, mkV 0 0 1)
  else
    let v2 :=
      if Rltb (Rabs (vy v1)) (Rabs (vx v1))
      then let inv_len := 1 / sqrt (vx v1 * vx v1 + vz v1 * vz v1) in
           mkV (- vz v1 * inv_len) 0 (vx v1 * inv_len)
      else let inv_len := 1 / sqrt (vy v1 * vy v1 + vz v1 * vz v1) in
           mkV 0 (- vz v1 * inv_len) (vy v1 * inv_len) in
    (v1, v2, vcross v1 v2).

(** geometry/utility.py:76-89 (face_forward); the isinstance checks of lines 83-84 are typing and
    hold for every modelled argument. *)
Definition face_forward (n v : vec) : vec :=
  if Rltb (vdot n v) 0 then vneg n else n.

(** numpy.arctan2(y, x) for real arguments (IEEE -0.0 arguments are not distinguished). *)
Definition arctan2 (y x : R) : R :=
  if Rltb 0 x then atan (y / x)
  else if Rltb x 0 then (if Rleb 0 y then atan (y / x) + PI else atan (y / x) - PI)
  else if Rltb 0 y then PI / 2
  else if Rltb y 0 then - (PI / 2)
  else 0.

(** geometry/utility.py:92-103 (spherical_direction), without basis (100-101) *)
Definition spherical_direction (st ct phi : R) : vec :=
  mkV (st * cos phi) (st * sin phi) ct.
(** geometry/utility.py:102-103, with basis *)
Definition spherical_direction_basis (st ct phi : R) (x y z : vec) : vec :=
  vadd (vadd (vscale (cos phi) (vscale st x)) (vscale (sin phi) (vscale st y))) (vscale ct z).
(** geometry/utility.py:106-112 (spherical_theta) *)
Definition spherical_theta (v : vec) : R := acos (clip (vz v) (-1) 1).
(** geometry/utility.py:115-122 (spherical_phi) *)
Definition spherical_phi (v : vec) : R :=
  let p := arctan2 (vy v) (vx v) in if Rltb 0 p then p else p + 2 * PI.

(** geometry/__init__.py:281-298 (Ray.__init__).  [rdz] records, for each direction component
    that is zero, its IEEE sign bit (true = -0.0); it has no influence when the component is
    non-zero. *)
Record ray := mkRay {
  ro : vec; rd : vec; rdz : V3 bool;
  rmint : E; rmaxt : E; rdepth : Z; rtime : R }.

(** geometry/__init__.py:320-324 (Ray.__call__) *)
Definition ray_at (r : ray) (t : R) : vec := vadd (ro r) (vscale t (rd r)).
(** geometry/__init__.py:305-311 (Ray.from_parent), 344-350 (RayDifferential.from_parent) *)
Definition ray_from_parent (o d : vec) (dz : V3 bool) (r : ray) (mint maxt : E) : ray :=
  mkRay o d dz mint maxt (rdepth r + 1) (rtime r).
(** geometry/__init__.py:313-318 (Ray.from_ray) *)
Definition ray_from_ray (r : ray) : ray :=
  mkRay (ro r) (rd r) (rdz r) (rmint r) (rmaxt r) (rdepth r) (rtime r).
(** Assigning ray.maxt (done by every shape hit). *)
Definition ray_set_maxt (r : ray) (t : E) : ray :=
  mkRay (ro r) (rd r) (rdz r) (rmint r) t (rdepth r) (rtime r).

(** geometry/__init__.py:327-342 (RayDifferential extra state) *)
Record raydiff := mkRD {
  rd_ray : ray; rd_has : bool;
  rd_rxo : vec; rd_ryo : vec; rd_rxd : vec; rd_ryd : vec }.
(** geometry/__init__.py:359-371 (RayDifferential.from_rd) *)
Definition raydiff_from_rd (r : raydiff) : raydiff :=
  mkRD (ray_from_ray (rd_ray r)) (rd_has r) (rd_rxo r) (rd_ryo r) (rd_rxd r) (rd_ryd r).
(** geometry/__init__.py:373-378 (scale_differential) *)
Definition scale_differential (r : raydiff) (s : R) : raydiff :=
  let o := ro (rd_ray r) in let d := rd (rd_ray r) in
  mkRD (rd_ray r) (rd_has r)
       (vadd o (vscale s (vsub (rd_rxo r) o)))
       (vadd o (vscale s (vsub (rd_ryo r) o)))
       (vadd d (vscale s (vsub (rd_rxd r) d)))
       (vadd d (vscale s (vsub (rd_ryd r) d))).

(** ** BBox *)
Record box := mkBox { bmin : V3 E; bmax : V3 E }.

(** geometry/__init__.py:399-401: BBox() *)
Definition bbox_empty : box := mkBox (mkV PInf PInf PInf) (mkV NInf NInf NInf).
(** geometry/__init__.py:390-396: BBox(p1, p2) *)
Definition bbox_of (p1 p2 : V3 E) : box := mkBox (vmap2 emin p1 p2) (vmap2 emax p1 p2).
(** geometry/__init__.py:403-405: BBox(p1) *)
Definition bbox_p1 (p1 : V3 E) : box := mkBox p1 (mkV PInf PInf PInf).
(** geometry/__init__.py:407-409: BBox(None, p2) *)
Definition bbox_p2 (p2 : V3 E) : box := mkBox (mkV NInf NInf NInf) p2.
(** geometry/__init__.py:411-413 (from_bbox) *)
Definition from_bbox (b : box) : box := bbox_of (bmin b) (bmax b).

(** numpy.array_equal on 3-arrays *)
Definition arr_eq (u v : V3 E) : bool :=
  eeqb (vx u) (vx v) && eeqb (vy u) (vy v) && eeqb (vz u) (vz v).
(** geometry/__init__.py:420-422 (BBox.__eq__) *)
Definition bbox_eq (a b : box) : bool := arr_eq (bmin a) (bmin b) && arr_eq (bmax a) (bmax b).
(** geometry/__init__.py:424-426 (BBox.__ne__): compares pMin with pMax, twice *)
Definition bbox_ne (a b : box) : bool :=
  negb (arr_eq (bmin a) (bmax b)) || negb (arr_eq (bmin a) (bmax b)).

(** geometry/__init__.py:445-451 (Union with a Point), 473-479 (in-place union) *)
Definition union_pt (b : box) (p : V3 E) : box :=
  mkBox (vmap2 emin (bmin b) p) (vmap2 emax (bmax b) p).
(** geometry/__init__.py:453-459 (Union with a BBox), 481-487 (in-place union) *)
Definition union_bb (b c : box) : box :=
  mkBox (vmap2 emin (bmin b) (bmin c)) (vmap2 emax (bmax b) (bmax c)).

(** geometry/__init__.py:494-500 (overlaps) *)
Definition overlaps (a b : box) : bool :=
  eleb (vx (bmin b)) (vx (bmax a)) && eleb (vx (bmin a)) (vx (bmax b)) &&
  (eleb (vy (bmin b)) (vy (bmax a)) && eleb (vy (bmin a)) (vy (bmax b))) &&
  (eleb (vz (bmin b)) (vz (bmax a)) && eleb (vz (bmin a)) (vz (bmax b))).
(** geometry/__init__.py:502-509 (inside) *)
Definition inside (b : box) (p : vec) : bool :=
  eleb (Fin (vx p)) (vx (bmax b)) && eleb (vx (bmin b)) (Fin (vx p)) &&
  (eleb (Fin (vy p)) (vy (bmax b)) && eleb (vy (bmin b)) (Fin (vy p))) &&
  (eleb (Fin (vz p)) (vz (bmax b)) && eleb (vz (bmin b)) (Fin (vz p))).
(** geometry/__init__.py:511-521 (expand) *)
Definition expand (b : box) (delta : R) : box :=
  mkBox (vmap (fun e => esub e (Fin delta)) (bmin b))
        (vmap (fun e => eadd e (Fin delta)) (bmax b)).
Definition diag (b : box) : V3 E := vmap2 esub (bmax b) (bmin b).
(** geometry/__init__.py:523-528 (surface_area) *)
Definition surface_area (b : box) : E :=
  let d := diag b in
  emul (Fin 2) (eadd (eadd (emul (vx d) (vy d)) (emul (vx d) (vz d))) (emul (vy d) (vz d))).
(** geometry/__init__.py:530-535 (volume) *)
Definition volume (b : box) : E :=
  let d := diag b in emul (emul (vx d) (vy d)) (vz d).
(** geometry/__init__.py:537-547 (maximum_extent) *)
Definition maximum_extent (b : box) : nat :=
  let d := diag b in
  if eltb (vy d) (vx d) && eltb (vz d) (vx d) then 0%nat
  else if eltb (vz d) (vy d) then 1%nat else 2%nat.

(** utility/utility.py:89-91 (lerp) *)
Definition lerp (t v1 v2 : R) : R := (1 - t) * v1 + t * v2.

(** A box with finite corners, as produced by BBox(p1, p2) with finite points. *)
Definition fbox (lo hi : vec) : box := mkBox (vmap Fin lo) (vmap Fin hi).

(** geometry/__init__.py:549-556 (BBox.lerp); finite corners *)
Definition bbox_lerp (lo hi : vec) (tx ty tz : R) : vec :=
  mkV (lerp tx (vx lo) (vx hi)) (lerp ty (vy lo) (vy hi)) (lerp tz (vz lo) (vz hi)).
(** geometry/__init__.py:558-565 (BBox.offset); finite corners *)
Definition bbox_offset (lo hi p : vec) : vec :=
  mkV ((vx p - vx lo) / (vx hi - vx lo))
      ((vy p - vy lo) / (vy hi - vy lo))
      ((vz p - vz lo) / (vz hi - vz lo)).
(** geometry/__init__.py:567-576 (bounding_sphere); finite corners *)
Definition bounding_sphere (lo hi : vec) : vec * R :=
  let ctr := vscale (/ 2) (vadd lo hi) in
  (ctr, if inside (fbox lo hi) ctr then pdist ctr hi else 0).

(** geometry/__init__.py:578-601 (BBox.intersect_p); boxes with finite corners.  Lines 589-590
    divide componentwise (0-division gives infinities or NaN); 595-600 is the loop. Lines 591-594
    have no effect. *)
Definition slab_step (near far : E) (acc : option (E * E)) : option (E * E) :=
  match acc with
  | None => None
  | Some (t0, t1) =>
      let '(near, far) := if eltb far near then (far, near) else (near, far) in
      let t0 := fmax t0 near in
      let t1 := fmin t1 far in
      if eltb t1 t0 then None else Some (t0, t1)
  end.
Definition bbox_intersect_p (lo hi : vec) (r : ray) : option (E * E) :=
  let near := fun i => edivz (vnth (rdz r) i) (vnth lo i - vnth (ro r) i) (vnth (rd r) i) in
  let far := fun i => edivz (vnth (rdz r) i) (vnth hi i - vnth (ro r) i) (vnth (rd r) i) in
  slab_step (near 2%nat) (far 2%nat)
    (slab_step (near 1%nat) (far 1%nat)
      (slab_step (near 0%nat) (far 0%nat) (Some (rmint r, rmaxt r)))).
