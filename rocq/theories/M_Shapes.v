(** Model of pytracer/geometry/diffgeom.py and pytracer/shape/{__init__,sphere,cylinder,disk,triangle}.py.
    Floats are reals.  Constructing a geo.Vector/Point/Normal with a NaN component raises ValueError
    (geometry/__init__.py:34-35, 124-125, 216-217); divisions by zero that can occur for the modelled
    shapes are treated explicitly where noted, otherwise they are outside the domain. *)
From Coq Require Import String.
From Coq Require Import Reals List ZArith Bool.
From Verif Require Import Base M_Python M_Geometry M_Transform M_MonteCarlo M_Film.
Import ListNotations.
Open Scope R_scope.

(** ** Differential geometry (geometry/diffgeom.py) *)
(** geometry/diffgeom.py:21-42: the stored fields; [flip] is shape.ro xor
    shape.transform_swaps_handedness (False when shape is None) *)
Record dgeom := mkDG {
  dg_p : vec; dg_dpdu : vec; dg_dpdv : vec; dg_dndu : vec; dg_dndv : vec;
  dg_nn : vec; dg_u : R; dg_v : R;
  dg_dudx : R; dg_dvdx : R; dg_dudy : R; dg_dvdy : R; dg_dpdx : vec; dg_dpdy : vec }.
(** geometry/diffgeom.py:21-42 *)
Definition dg_make (flip : bool) (p dpdu dpdv dndu dndv : vec) (u v : R) : dgeom :=
  let n := normalize (vcross dpdu dpdv) in
  mkDG p dpdu dpdv dndu dndv (if flip then vscale (-1) n else n) u v 0 0 0 0 vzero vzero.
(** numpy.linalg.solve([[a, b], [c, d]], [x, y]); None is LinAlgError *)
Definition solve2 (a b c d x y : R) : option (R * R) :=
  let det := a * d - b * c in
  if Reqb det 0 then None else Some ((x * d - b * y) / det, (a * y - x * c) / det).
(** geometry/diffgeom.py:71-75: the two coordinate axes used for the linear system *)
Definition dg_axes (nn : vec) : nat * nat :=
  if Rltb (Rabs (vy nn)) (Rabs (vx nn)) && Rltb (Rabs (vz nn)) (Rabs (vx nn)) then (1, 2)%nat
  else if Rltb (Rabs (vz nn)) (Rabs (vy nn)) then (0, 2)%nat else (0, 1)%nat.
(** geometry/diffgeom.py:56-60: where an offset ray meets the tangent plane.  An offset ray parallel to
    the plane (division by zero) is outside the domain. *)
Definition plane_hit (nn p o d : vec) : vec :=
  let k := - vdot nn p in
  vadd o (vscale (- (vdot nn o + k) / vdot nn d) d).
(** geometry/diffgeom.py:77-92 *)
Definition dg_solve (g : dgeom) (q : vec) : R * R :=
  let '(i, j) := dg_axes (dg_nn g) in
  match solve2 (vnth (dg_dpdu g) i) (vnth (dg_dpdv g) i) (vnth (dg_dpdu g) j) (vnth (dg_dpdv g) j)
               (vnth q i - vnth (dg_p g) i) (vnth q j - vnth (dg_p g) j) with
  | Some s => s | None => (0, 0) end.
(** geometry/diffgeom.py:50-96 (compute_differential) *)
Definition compute_differential (g : dgeom) (r : raydiff) : dgeom :=
  if rd_has r then
    let px := plane_hit (dg_nn g) (dg_p g) (rd_rxo r) (rd_rxd r) in
    let py := plane_hit (dg_nn g) (dg_p g) (rd_ryo r) (rd_ryd r) in
    let '(ux, vx') := dg_solve g px in let '(uy, vy') := dg_solve g py in
    mkDG (dg_p g) (dg_dpdu g) (dg_dpdv g) (dg_dndu g) (dg_dndv g) (dg_nn g) (dg_u g) (dg_v g)
         ux vx' uy vy' (vsub px (dg_p g)) (vsub py (dg_p g))
  else
    mkDG (dg_p g) (dg_dpdu g) (dg_dpdv g) (dg_dndu g) (dg_dndv g) (dg_nn g) (dg_u g) (dg_v g)
         0 0 0 0 vzero vzero.

(** What intersect() returns for a hit: parameter, tolerance, geometry. *)
Record hit := mkHit { h_t : R; h_eps : R; h_dg : dgeom }.

(** ** Shape base class (shape/__init__.py) *)
(** shape/__init__.py:43-53: creating a shape takes the class-wide counter and increments it; the
    result is (id of the new shape, new counter) *)
Definition shape_new (next_id : Z) : Z * Z := (next_id, (next_id + 1)%Z).
(** shape/__init__.py:45-50 *)
Record base := mkBase { b_o2w : transform; b_w2o : transform; b_ro : bool }.
(** shape/__init__.py:50 and geometry/diffgeom.py:36-37 *)
Definition b_flip (b : base) : bool := xorb (b_ro b) (swaps_handedness (b_o2w b)).
(** shape/__init__.py:63-64 (world_bound) for an object bound with finite corners *)
Definition shape_world_bound (b : base) (lo hi : vec) : vec * vec := t_bbox (b_o2w b) lo hi.
(** shape/__init__.py:114-120 (pdf) *)
Definition shape_pdf (area : R) : R := 1 / area.
(** geometry/__init__.py:281-298: Ray(o, d, mint) with default maxt = inf, depth 0, time 0 *)
Definition ray_new (o d : vec) (mint : R) : ray := mkRay o d (mkV false false false) (Fin mint) PInf 0 0.
(** shape/__init__.py:122-140 (pdf_p), given the shape's intersect() and area() *)
Definition shape_pdf_p (isect : ray -> res (option hit)) (area : R) (pnt wi : vec) : res R :=
  let r := ray_new pnt wi EPS in
  do h <- isect r;
  match h with
  | None => Ok 0
  | Some h => Ok (sq_length (vsub pnt (ray_at r (h_t h))) / (abs_dot (dg_nn (h_dg h)) (vneg wi) * area))
  end.

(** ** Quadrics: common arithmetic *)
(** numpy.roots([A, B, C]) for A > 0 and positive discriminant D, sorted by the two lines after it
    (sphere.py:146-148, 240-242; cylinder.py:73-75, 156-158) *)
Definition quad_roots (A B D : R) : R * R :=
  let r0 := (- B + sqrt D) / (2 * A) in let r1 := (- B - sqrt D) / (2 * A) in
  if Rltb r1 r0 then (r1, r0) else (r0, r1).
(** sphere.py:161-163, cylinder.py:86-88, disk.py:86-88 *)
Definition hit_phi (p : vec) : R :=
  let phi := arctan2 (vy p) (vx p) in if Rltb phi 0 then phi + 2 * PI else phi.
(** min/max of Python on two floats and numpy.deg2rad(numpy.clip(pm, 0, 360)):
    sphere.py:34, cylinder.py:32, disk.py:32 *)
Definition phi_max_of (pm : R) : R := deg2rad (clip pm 0 360).

(** Weingarten equations, shared text of sphere.py:207-220 and cylinder.py:121-135 *)
Definition weingarten (dpdu dpdv d2uu d2uv d2vv : vec) : vec * vec :=
  let E := vdot dpdu dpdu in let F := vdot dpdu dpdv in let G := vdot dpdv dpdv in
  let N := normalize (vcross dpdu dpdv) in
  let e := vdot N d2uu in let f := vdot N d2uv in let g := vdot N d2vv in
  let inv := 1 / (E * G - F * F) in
  (vadd (vscale ((f * F - e * G) * inv) dpdu) (vscale ((e * F - f * E) * inv) dpdv),
   vadd (vscale ((g * F - f * G) * inv) dpdu) (vscale ((f * F - g * E) * inv) dpdv)).

(** ** Sphere (shape/sphere.py) *)
Record sphere := mkSphere {
  sp_base : base; sp_r : R; sp_zmin : R; sp_zmax : R; sp_tmin : R; sp_tmax : R; sp_phimax : R }.
(** sphere.py:26-34 *)
Definition sphere_make (b : base) (rad z0 z1 pm : R) : sphere :=
  let zmin := clip (pmin z0 z1) (- rad) rad in
  let zmax := clip (pmax z0 z1) (- rad) rad in
  mkSphere b rad zmin zmax (acos (clip (zmin / rad) (-1) 1)) (acos (clip (zmax / rad) (-1) 1)) (phi_max_of pm).
(** sphere.py:39-41 *)
Definition sphere_object_bound (s : sphere) : vec * vec :=
  (mkV (- sp_r s) (- sp_r s) (sp_zmin s), mkV (sp_r s) (sp_r s) (sp_zmax s)).
(** sphere.py:158-160 and 174-176: the hit point, nudged off the polar axis *)
Definition sphere_phit (s : sphere) (r : ray) (t : R) : vec :=
  let p := ray_at r t in
  if Reqb (vx p) 0 && Reqb (vy p) 0 then mkV (EPS * sp_r s) (vy p) (vz p) else p.
(** sphere.py:166-168 and 180-182: the clipping test (True = clipped away) *)
Definition sphere_clipped (s : sphere) (p : vec) : bool :=
  (Rltb (- sp_r s) (sp_zmin s) && Rltb (vz p) (sp_zmin s)) ||
  (Rltb (sp_zmax s) (sp_r s) && Rltb (sp_zmax s) (vz p)) ||
  Rltb (sp_phimax s) (hit_phi p).
(** sphere.py:133-183: the parameter and (nudged) object-space hit point *)
Definition sphere_find (s : sphere) (r0 : ray) : option (R * vec) :=
  let r := t_ray (b_w2o (sp_base s)) r0 in
  let A := sq_length (rd r) in
  let B := 2 * vdot (rd r) (ro r) in
  let C := sq_length (ro r) - sp_r s * sp_r s in
  let D := B * B - 4 * A * C in
  if Rleb D (0 + EPS) then None else
  let '(t0, t1) := quad_roots A B D in
  if eltb (rmaxt r) (Fin t0) || eltb (Fin t1) (rmint r) then None else
  let in1 := eltb (Fin t0) (rmint r) in
  let thit := if in1 then t1 else t0 in
  if in1 && eltb (rmaxt r) (Fin thit) then None else
  let phit := sphere_phit s r thit in
  if sphere_clipped s phit then
    if Reqb thit t1 || eltb (rmaxt r) (Fin t1) then None else
    let phit := sphere_phit s r t1 in
    if sphere_clipped s phit then None else Some (t1, phit)
  else Some (thit, phit).
(** sphere.py:185-224: geometry of a hit.  Domain: sp_phimax > 0 and sp_tmin <> sp_tmax. *)
Definition sphere_dg (s : sphere) (phit : vec) : dgeom :=
  let o2w := b_o2w (sp_base s) in
  let u := hit_phi phit / sp_phimax s in
  let theta := acos (clip (vz phit / sp_r s) (-1) 1) in
  let dt := sp_tmax s - sp_tmin s in
  let v := (theta - sp_tmin s) * dt in
  let dpdu := mkV (- sp_phimax s * vy phit) (sp_phimax s * vx phit) 0 in
  let zrad := sqrt (vx phit * vx phit + vy phit * vy phit) in
  let inv_zrad := 1 / zrad in
  let cphi := vx phit * inv_zrad in let sphi := vy phit * inv_zrad in
  let dpdv := vscale dt (mkV (vz phit * cphi) (vz phit * sphi) (- sp_r s * sin theta)) in
  let d2uu := vscale (- sp_phimax s * sp_phimax s) (mkV (vx phit) (vy phit) 0) in
  let d2uv := vscale (dt * vz phit * sp_phimax s) (mkV (- sphi) cphi 0) in
  let d2vv := vscale (- dt * dt) (mkV (vx phit) (vy phit) (vz phit)) in
  let '(dndu, dndv) := weingarten dpdu dpdv d2uu d2uv d2vv in
  dg_make (b_flip (sp_base s)) (t_point o2w phit) (t_vector o2w dpdu) (t_vector o2w dpdv)
          (t_normal o2w dndu) (t_normal o2w dndv) u v.
(** sphere.py:125-224 *)
Definition sphere_intersect (s : sphere) (r : ray) : option hit :=
  match sphere_find s r with
  | None => None
  | Some (t, phit) => Some (mkHit t (EPS * t) (sphere_dg s phit))
  end.
(** sphere.py:226-279 (the debugging print is not modelled) *)
Definition sphere_intersect_p (s : sphere) (r0 : ray) : bool :=
  let r := t_ray (b_w2o (sp_base s)) r0 in
  let A := sq_length (rd r) in
  let B := 2 * vdot (rd r) (ro r) in
  let C := sq_length (ro r) - sp_r s * sp_r s in
  let D := B * B - 4 * A * C in
  if Rleb D (0 + EPS) then false else
  let '(t0, t1) := quad_roots A B D in
  if eltb (rmaxt r) (Fin t0) || eltb (Fin t1) (rmint r) then false else
  let in1 := eltb (Fin t0) (rmint r) in
  let thit := if in1 then t1 else t0 in
  if in1 && eltb (rmaxt r) (Fin thit) then false else
  if sphere_clipped s (sphere_phit s r thit) then
    if Reqb thit t1 || eltb (rmaxt r) (Fin t1) then false else
    if sphere_clipped s (sphere_phit s r t1) then false else true
  else true.
(** sphere.py:281-282 *)
Definition sphere_area (s : sphere) : R := sp_phimax s * sp_r s * (sp_zmax s - sp_zmin s).
(** sphere.py:43-60: object-space point before the final transform *)
Definition sphere_sample_obj (s : sphere) (u1 u2 : R) : vec :=
  let v := uniform_sample_sphere u1 u2 in
  let phi := spherical_theta v * sp_phimax s * (1 / (2 * PI)) in
  let theta := sp_tmin s + spherical_theta v * (sp_tmax s - sp_tmin s) in
  let v := vscale (sp_r s) (spherical_direction (sin theta) (cos theta) phi) in
  mkV (vx v) (vy v) (sp_zmin s + vz v * (sp_zmax s - sp_zmin s)).
(** sphere.py:43-60 *)
Definition sphere_sample (s : sphere) (u1 u2 : R) : vec * vec :=
  let p := sphere_sample_obj s u1 u2 in
  let ns := normalize (t_normal (b_o2w (sp_base s)) (mkV (vx p) (vy p) (vz p))) in
  (t_point (b_o2w (sp_base s)) p, if b_ro (sp_base s) then vscale (-1) ns else ns).
(** sphere.py:94-95, 119-120 *)
Definition sphere_ct_max (s : sphere) (pnt ctr : vec) : R :=
  sqrt (Rmax 0 (1 - sp_r s * sp_r s / sq_dist pnt ctr)).
(** sphere.py:78-110 *)
Definition sphere_sample_p (s : sphere) (pnt : vec) (u1 u2 : R) : vec * vec :=
  let ctr := t_point (b_o2w (sp_base s)) vzero in
  let wc := normalize (vsub ctr pnt) in
  let '(_, wcx, wcy) := coordinate_system wc in
  if Rltb (sq_dist pnt ctr - sp_r s * sp_r s) EPS then sphere_sample s u1 u2 else
  let r := ray_new pnt (uniform_sample_cone u1 u2 (sphere_ct_max s pnt ctr) wcx wcy wc) EPS in
  let thit := match sphere_intersect s r with
              | Some h => h_t h
              | None => vdot (vsub ctr pnt) (normalize (rd r)) end in
  let ps := ray_at r thit in
  let ns := normalize (vsub ps ctr) in
  (ps, if b_ro (sp_base s) then vscale (-1) ns else ns).
(** sphere.py:112-123 *)
Definition sphere_pdf_p (s : sphere) (pnt wi : vec) : res R :=
  let ctr := t_point (b_o2w (sp_base s)) vzero in
  if Rltb (sq_dist pnt ctr - sp_r s * sp_r s) EPS
  then shape_pdf_p (fun r => Ok (sphere_intersect s r)) (sphere_area s) pnt wi
  else Ok (uniform_cone_pdf (sphere_ct_max s pnt ctr)).

(** ** Cylinder (shape/cylinder.py) *)
Record cylinder := mkCyl { cy_base : base; cy_r : R; cy_zmin : R; cy_zmax : R; cy_phimax : R }.
(** cylinder.py:26-32: what the constructor body stores *)
Definition cylinder_fields (b : base) (rad z0 z1 pm : R) : cylinder :=
  mkCyl b rad (pmin z0 z1) (pmax z0 z1) (phi_max_of pm).
(** cylinder.py:18-192 with shape/__init__.py:69-75: Cylinder does not define the abstract method
    refine(), so calling Cylinder(...) raises TypeError *)
Definition cylinder_make (b : base) (rad z0 z1 pm : R) : res cylinder :=
  instantiate shape_abstract cylinder_methods (cylinder_fields b rad z0 z1 pm).
(** cylinder.py:37-39 *)
Definition cylinder_object_bound (c : cylinder) : vec * vec :=
  (mkV (- cy_r c) (- cy_r c) (cy_zmin c), mkV (cy_r c) (cy_r c) (cy_zmax c)).
(** cylinder.py:41-50 *)
Definition cylinder_sample_obj (c : cylinder) (u1 u2 : R) : vec :=
  let z := lerp u1 (cy_zmin c) (cy_zmax c) in let t := u2 * cy_phimax c in
  mkV (cy_r c * cos t) (cy_r c * sin t) z.
(** cylinder.py:41-50 *)
Definition cylinder_sample (c : cylinder) (u1 u2 : R) : vec * vec :=
  let p := cylinder_sample_obj c u1 u2 in
  let ns := normalize (t_normal (b_o2w (cy_base c)) (mkV (vx p) (vy p) 0)) in
  (t_point (b_o2w (cy_base c)) p, if b_ro (cy_base c) then vscale (-1) ns else ns).
(** cylinder.py:91, 102, 174, 185 *)
Definition cylinder_clipped (c : cylinder) (p : vec) : bool :=
  Rltb (vz p) (cy_zmin c) || Rltb (cy_zmax c) (vz p) || Rltb (cy_phimax c) (hit_phi p).
(** cylinder.py:142-189 *)
Definition cylinder_intersect_p (c : cylinder) (r0 : ray) : bool :=
  let r := t_ray (b_w2o (cy_base c)) r0 in
  let A := vx (rd r) * vx (rd r) + vy (rd r) * vy (rd r) in
  let B := 2 * (vx (rd r) * vx (ro r) + vy (rd r) * vy (ro r)) in
  let C := vx (ro r) * vx (ro r) + vy (ro r) * vy (ro r) - cy_r c * cy_r c in
  let D := B * B - 4 * A * C in
  if Rleb D 0 then false else
  let '(t0, t1) := quad_roots A B D in
  if eltb (rmaxt r) (Fin t0) || eltb (Fin t1) (rmint r) then false else
  let in1 := eltb (Fin t0) (rmint r) in
  let thit := if in1 then t1 else t0 in
  if in1 && eltb (rmaxt r) (Fin thit) then false else
  if cylinder_clipped c (ray_at r thit) then
    if Reqb thit t1 || eltb (rmaxt r) (Fin t1) then false else
    let thit := t1 in
    if cylinder_clipped c (ray_at r thit)
    then if Reqb thit t1 || eltb (rmaxt r) (Fin t1) then false else true
    else true
  else true.
(** cylinder.py:52-140: up to line 106 the text is that of intersect_p; line 109 then reads
    self.thetaMax, an attribute no Cylinder has *)
Definition cylinder_intersect (c : cylinder) (r0 : ray) : res (option hit) :=
  let r := t_ray (b_w2o (cy_base c)) r0 in
  let A := vx (rd r) * vx (rd r) + vy (rd r) * vy (rd r) in
  let B := 2 * (vx (rd r) * vx (ro r) + vy (rd r) * vy (ro r)) in
  let C := vx (ro r) * vx (ro r) + vy (ro r) * vy (ro r) - cy_r c * cy_r c in
  let D := B * B - 4 * A * C in
  if Rleb D 0 then Ok None else
  let '(t0, t1) := quad_roots A B D in
  if eltb (rmaxt r) (Fin t0) || eltb (Fin t1) (rmint r) then Ok None else
  let in1 := eltb (Fin t0) (rmint r) in
  let thit := if in1 then t1 else t0 in
  if in1 && eltb (rmaxt r) (Fin thit) then Ok None else
  if cylinder_clipped c (ray_at r thit) then
    if Reqb thit t1 || eltb (rmaxt r) (Fin t1) then Ok None else
    let thit := t1 in
    if cylinder_clipped c (ray_at r thit)
    then if Reqb thit t1 || eltb (rmaxt r) (Fin t1) then Ok None else Err AttributeError
    else Err AttributeError
  else Err AttributeError.
(** cylinder.py:191-192 *)
Definition cylinder_area (c : cylinder) : R := cy_phimax c * cy_r c * (cy_zmax c - cy_zmin c).

(** ** Disk (shape/disk.py) *)
Record disk := mkDisk { dk_base : base; dk_h : R; dk_r : R; dk_ri : R; dk_phimax : R }.
(** disk.py:26-32 *)
Definition disk_make (b : base) (ht r ri pm : R) : disk := mkDisk b ht r ri (phi_max_of pm).
(** disk.py:38-40 *)
Definition disk_object_bound (d : disk) : vec * vec :=
  (mkV (- dk_r d) (- dk_r d) (dk_h d), mkV (dk_r d) (dk_r d) (dk_h d)).
(** disk.py:42-50: object-space point *)
Definition disk_sample_obj (d : disk) (u1 u2 : R) : vec :=
  let '(x, y) := concentric_sample_disk u1 u2 in
  let phi := arctan2 y x * dk_phimax d * (1 / (2 * PI)) in
  let r := dk_ri d + sqrt (x * x + y * y) * (dk_r d - dk_ri d) in
  mkV (r * cos phi) (r * sin phi) (dk_h d).
(** disk.py:42-56 *)
Definition disk_sample (d : disk) (u1 u2 : R) : vec * vec :=
  let p := disk_sample_obj d u1 u2 in
  let ns := normalize (t_point (b_o2w (dk_base d)) p) in
  (t_point (b_o2w (dk_base d)) p, if b_ro (dk_base d) then vscale (-1) ns else ns).
(** disk.py:66-91: parameter and object-space point of a hit *)
Definition disk_find (d : disk) (r0 : ray) : option (R * vec) :=
  let r := t_ray (b_w2o (dk_base d)) r0 in
  if Rltb (Rabs (vz (rd r))) EPS then None else
  let thit := (dk_h d - vz (ro r)) / vz (rd r) in
  if eltb (Fin thit) (rmint r) || eltb (rmaxt r) (Fin thit) then None else
  let phit := ray_at r thit in
  let dt2 := vx phit * vx phit + vy phit * vy phit in
  if Rltb (dk_r d * dk_r d) dt2 || Rltb dt2 (dk_ri d * dk_ri d) then None else
  if Rltb (dk_phimax d) (hit_phi phit) then None else Some (thit, phit).
(** disk.py:93-112.  When dt2 < inner_radius, numpy.sqrt gives NaN, hence v and dpdv are NaN and
    building dpdv (line 101) raises ValueError.  When dt2 = inner_radius, 1 - v = 0 and dpdv has
    infinite or NaN components; a NaN raises ValueError at once, infinities turn into NaN or infinities
    under o2w and then into NaN when DifferentialGeometry normalises the cross product, which raises
    ValueError there.  Domain: dk_phimax > 0, dk_ri < dk_r. *)
Definition disk_dg (d : disk) (phit : vec) : res dgeom :=
  let o2w := b_o2w (dk_base d) in
  let dt2 := vx phit * vx phit + vy phit * vy phit in
  if Rleb dt2 (dk_ri d) then Err ValueError else
  let u := hit_phi phit / dk_phimax d in
  let v := 1 - sqrt (dt2 - dk_ri d) / (dk_r d - dk_ri d) in
  let dpdu := mkV (- dk_phimax d * vy phit) (dk_phimax d * vx phit) 0 in
  let dpdv := mkV (- vx phit / (1 - v)) (- vy phit / (1 - v)) 0 in
  let dpdu := vscale (dk_phimax d * (1 / (2 * PI))) dpdu in
  let dpdv := vscale ((dk_r d - dk_ri d) / dk_r d) dpdv in
  Ok (dg_make (b_flip (dk_base d)) (t_point o2w phit) (t_vector o2w dpdu) (t_vector o2w dpdv)
              (t_normal o2w vzero) (t_normal o2w vzero) u v).
(** disk.py:58-112 *)
Definition disk_intersect (d : disk) (r : ray) : res (option hit) :=
  match disk_find d r with
  | None => Ok None
  | Some (t, phit) => do g <- disk_dg d phit; Ok (Some (mkHit t (EPS * t) g))
  end.
(** disk.py:114-142 *)
Definition disk_intersect_p (d : disk) (r0 : ray) : bool :=
  let r := t_ray (b_w2o (dk_base d)) r0 in
  if Rltb (Rabs (vz (rd r))) EPS then false else
  let thit := (dk_h d - vz (ro r)) / vz (rd r) in
  if eltb (Fin thit) (rmint r) || eltb (rmaxt r) (Fin thit) then false else
  let phit := ray_at r thit in
  let dt2 := vx phit * vx phit + vy phit * vy phit in
  if Rltb (dk_r d * dk_r d) dt2 || Rltb dt2 (dk_ri d * dk_ri d) then false else
  if Rltb (dk_phimax d) (hit_phi phit) then false else true.
(** disk.py:144-146 *)
Definition disk_area (d : disk) : R := dk_phimax d * (1/2) * (dk_r d * dk_r d - dk_ri d * dk_ri d).

(** ** Triangle meshes (shape/triangle.py) *)
(** triangle.py:409-435 (TriangleMesh.__init__); [m_alpha] is alphaTexture.evaluate *)
Record mesh := mkMesh {
  m_base : base; m_ntris : nat; m_nverts : nat; m_vi : list Z; m_p : list vec;
  m_n : option (list vec); m_s : option (list vec); m_uv : option (list R);
  m_alpha : option (dgeom -> R) }.
(** triangle.py:409-435 *)
Definition mesh_make (b : base) (nt nv : nat) (vi : list Z) (P : list vec) (N S : option (list vec))
    (uv : option (list R)) (atex : option (dgeom -> R)) : mesh :=
  mkMesh b nt nv vi (map (t_point (b_o2w b)) P) N S uv atex.
(** triangle.py:18-103 (create_triangle_mesh) for points given as a list of geo.Point, without
    'alphatex' and with 'discard' unset.  Lines 29-30, 48-52, 57-68, 83-85, 103. *)
Definition create_mesh (b : base) (vi : list Z) (P : list vec) (N S : option (list vec))
    (uv : option (list R)) : res mesh :=
  if negb (length vi mod 3 =? 0)%nat then Err RuntimeError else
  match P with [] => Err IndexError | _ =>      (* line 32 reads p[0] *)
  let npi := length P in
  if match uv with Some l => (length l <? 2 * npi)%nat | None => false end then Err RuntimeError else
  if match S with Some l => negb (length l =? npi)%nat | None => false end then Err RuntimeError else
  if match N with Some l => negb (length l =? npi)%nat | None => false end then Err RuntimeError else
  if existsb (fun i => (Z.of_nat npi <=? i)%Z) vi then Err RuntimeError else
  Ok (mesh_make b (length vi / 3) npi vi P N S uv None)
  end.
(** triangle.py:32-40: flat coordinate list to points *)
Fixpoint flat_points (p : list R) : res (list vec) :=
  match p with
  | [] => Ok []
  | x :: y :: z :: r => do l <- flat_points r; Ok (mkV x y z :: l)
  | _ => Err RuntimeError
  end.
(** triangle.py:459-463 (TriangleMesh.refine) with 115-119: triangle n stores v = 3 * n *)
Definition mesh_refine (m : mesh) : list Z := map (fun i => (3 * Z.of_nat i)%Z) (seq 0 (m_ntris m)).
(** triangle.py:448-452 (TriangleMesh.world_bound) *)
Definition mesh_world_bound (m : mesh) : res box :=
  fold_left (fun acc i => do b <- acc; do p <- get1 (m_p m) (Z.of_nat i); Ok (union_pt b (vmap Fin p)))
            (seq 0 (m_nverts m)) (Ok bbox_empty).
(** triangle.py:442-446 (TriangleMesh.object_bound) *)
Definition mesh_object_bound (m : mesh) : res box :=
  fold_left (fun acc i => do b <- acc; do p <- get1 (m_p m) (Z.of_nat i);
                          Ok (union_pt b (vmap Fin (t_point (b_w2o (m_base m)) p))))
            (seq 0 (m_nverts m)) (Ok bbox_empty).
(** self.mesh.p[self.mesh.vertexIndex[self.v + k]]: triangle.py:134-136, 141-143, 163-171, 179-181,
    251-253, 318-320 *)
Definition tri_vert (m : mesh) (v : Z) (k : Z) : res vec := do i <- get1 (m_vi m) (v + k); get1 (m_p m) i.
(** triangle.py:125-131 (get_uvs) *)
Definition tri_uvs (m : mesh) (v : Z) : res ((R * R) * (R * R) * (R * R)) :=
  match m_uv m with
  | None => Ok ((0, 0), (1, 0), (1, 1))
  | Some uv =>
      do a <- get1 uv (2 * v); do b <- get1 uv (2 * v + 1);
      do c <- get1 uv (2 * (v + 1)); do d <- get1 uv (2 * (v + 1) + 1);
      do e <- get1 uv (2 * (v + 2)); do f <- get1 uv (2 * (v + 2) + 1);
      Ok ((a, b), (c, d), (e, f))
  end.
(** triangle.py:140-144 (world_bound) *)
Definition tri_world_bound (m : mesh) (v : Z) : res box :=
  do p1 <- tri_vert m v 0; do p2 <- tri_vert m v 1; do p3 <- tri_vert m v 2;
  Ok (union_pt (bbox_of (vmap Fin p1) (vmap Fin p2)) (vmap Fin p3)).
(** triangle.py:133-138 (object_bound) *)
Definition tri_object_bound (m : mesh) (v : Z) : res box :=
  do p1 <- tri_vert m v 0; do p2 <- tri_vert m v 1; do p3 <- tri_vert m v 2;
  let w := t_point (b_w2o (m_base m)) in
  Ok (union_pt (bbox_of (vmap Fin (w p1)) (vmap Fin (w p2))) (vmap Fin (w p3))).
(** triangle.py:204-230 (and the same text at 281-307): tangents and (u,v) of a hit *)
Definition tri_dg (m : mesh) (p1 p2 p3 q : vec) (uvs : (R * R) * (R * R) * (R * R)) (b1 b2 : R) : dgeom :=
  let '((u0, v0), (u1, v1), (u2, v2)) := uvs in
  let e1 := vsub p2 p1 in let e2 := vsub p3 p1 in
  let du1 := u0 - u2 in let du2 := u1 - u2 in let dv1 := v0 - v2 in let dv2 := v1 - v2 in
  let dp1 := vsub p1 p3 in let dp2 := vsub p2 p3 in
  let det := du1 * dv2 - du2 * dv1 in
  let '(dpdu, dpdv) :=
    if Reqb det 0 then let '(_, a, b) := coordinate_system (normalize (vcross e2 e1)) in (a, b)
    else let di := 1 / det in
         (vscale di (vsub (vscale dv2 dp1) (vscale dv1 dp2)),
          vscale di (vadd (vscale (- du2) dp1) (vscale du1 dp2))) in
  let b0 := 1 - b1 - b2 in
  dg_make (b_flip (m_base m)) q dpdu dpdv vzero vzero
          (b0 * u0 + b1 * u1 + b2 * u2) (b0 * v0 + b1 * v1 + b2 * v2).
(** triangle.py:173-243 (intersect) *)
Definition tri_intersect (m : mesh) (v : Z) (r : ray) : res (option hit) :=
  do p1 <- tri_vert m v 0; do p2 <- tri_vert m v 1; do p3 <- tri_vert m v 2;
  let e1 := vsub p2 p1 in let e2 := vsub p3 p1 in
  let s1 := vcross (rd r) e2 in
  let div := vdot s1 e1 in
  if Reqb div 0 then Ok None else
  let inv := 1 / div in
  let d := vsub (ro r) p1 in
  let b1 := vdot d s1 * inv in
  if Rltb b1 0 || Rltb 1 b1 then Ok None else
  let s2 := vcross d e1 in
  let b2 := vdot (rd r) s2 * inv in
  if Rltb b2 0 || Rltb 1 (b1 + b2) then Ok None else
  let t := vdot e2 s2 * inv in
  if eltb (Fin t) (rmint r) || eltb (rmaxt r) (Fin t) then Ok None else
  do uvs <- tri_uvs m v;
  let g := tri_dg m p1 p2 p3 (ray_at r t) uvs b1 b2 in
  if match m_alpha m with Some f => Reqb (f g) 0 | None => false end then Ok None
  else Ok (Some (mkHit t (0.001 * t) g)).
(** triangle.py:245-315 (intersect_p) *)
Definition tri_intersect_p (m : mesh) (v : Z) (r : ray) : res bool :=
  do p1 <- tri_vert m v 0; do p2 <- tri_vert m v 1; do p3 <- tri_vert m v 2;
  let e1 := vsub p2 p1 in let e2 := vsub p3 p1 in
  let s1 := vcross (rd r) e2 in
  let div := vdot s1 e1 in
  if Reqb div 0 then Ok false else
  let inv := 1 / div in
  let d := vsub (ro r) p1 in
  let b1 := vdot d s1 * inv in
  if Rltb b1 0 || Rltb 1 b1 then Ok false else
  let s2 := vcross d e1 in
  let b2 := vdot (rd r) s2 * inv in
  if Rltb b2 0 || Rltb 1 (b1 + b2) then Ok false else
  let t := vdot e2 s2 * inv in
  if eltb (Fin t) (rmint r) || eltb (rmaxt r) (Fin t) then Ok false else
  do uvs <- tri_uvs m v;
  let g := tri_dg m p1 p2 p3 (ray_at r t) uvs b1 b2 in
  if match m_alpha m with Some f => Reqb (f g) 0 | None => false end then Ok false
  else Ok true.
(** triangle.py:317-321 *)
Definition tri_area (m : mesh) (v : Z) : res R :=
  do p1 <- tri_vert m v 0; do p2 <- tri_vert m v 1; do p3 <- tri_vert m v 2;
  Ok (1/2 * vlength (vcross (vsub p2 p1) (vsub p3 p1))).
(** triangle.py:146-161 (sample); line 151 adds 1 to the vertex index, not to its position *)
Definition tri_sample (m : mesh) (v : Z) (u1 u2 : R) : res (vec * vec) :=
  let '(b1, b2) := uniform_sample_triangle u1 u2 in
  do i0 <- get1 (m_vi m) v;
  do q1 <- get1 (m_p m) i0; do q2 <- get1 (m_p m) (i0 + 1); do q3 <- tri_vert m v 2;
  let p := vadd (vadd (vscale b1 q1) (vscale b2 q2)) (vscale (1 - b1 - b2) q3) in
  do p1 <- tri_vert m v 0; do p2 <- tri_vert m v 1; do p3 <- tri_vert m v 2;
  let ns := normalize (vcross (vsub p2 p1) (vsub p3 p1)) in
  Ok (p, if b_ro (m_base m) then vscale (-1) ns else ns).
(** triangle.py:343-345, 350-352: b0*a[v] + b1*a[v+1] + b2*a[v+2] *)
Definition tri_blend (a : list vec) (v : Z) (b0 b1 b2 : R) : res vec :=
  do x <- get1 a v; do y <- get1 a (v + 1); do z <- get1 a (v + 2);
  Ok (vadd (vadd (vscale b0 x) (vscale b1 y)) (vscale b2 z)).
(** triangle.py:328-339: barycentric coordinates of dg.u, dg.v *)
Definition tri_bary (uvs : (R * R) * (R * R) * (R * R)) (u v : R) : R * R * R :=
  let '((u0, v0), (u1, v1), (u2, v2)) := uvs in
  match solve2 (u1 - u0) (u2 - u0) (v1 - v0) (v2 - v0) (u - u0) (v - v0) with
  | None => (1/3, 1/3, 1/3)
  | Some (a, b) => (1 - a - b, a, b)
  end.
(** triangle.py:323-391 (get_shading_geometry); lines 342-354 and 364 test n/s again, both present here *)
Definition tri_shading (m : mesh) (v : Z) (o2w : transform) (g : dgeom) : res dgeom :=
  match m_n m, m_s m with
  | Some nl, Some sl =>
      do uvs <- tri_uvs m v;
      let '(b0, b1, b2) := tri_bary uvs (dg_u g) (dg_v g) in
      do nb <- tri_blend nl v b0 b1 b2;
      let ns := normalize (t_normal o2w nb) in
      do sb <- tri_blend sl v b0 b1 b2;
      let ss := normalize (t_vector o2w sb) in
      let ts := vcross ss ns in
      let '(ss, ts) :=
        if Rltb 0 (sq_length ts) then let ts := normalize ts in (vcross ts ns, ts)
        else let '(_, a, b) := coordinate_system ns in (a, b) in
      let '((u0, v0), (u1, v1), (u2, v2)) := uvs in
      let du1 := u0 - u2 in let du2 := u1 - u2 in let dv1 := v0 - v2 in let dv2 := v1 - v2 in
      do i0 <- get1 (m_vi m) v; do i1 <- get1 (m_vi m) (v + 1); do i2 <- get1 (m_vi m) (v + 2);
      do n0 <- get1 nl i0; do n1 <- get1 nl i1; do n2 <- get1 nl i2;
      let dn1 := vsub n0 n2 in let dn2 := vsub n1 n2 in
      let det := du1 * dv2 - du2 * dv1 in
      let '(dndu, dndv) :=
        if Reqb det 0 then (vzero, vzero)
        else let di := 1 / det in
             (vscale di (vsub (vscale dv2 dn1) (vscale dv1 dn2)),
              vscale di (vadd (vscale (- du2) dn1) (vscale du1 dn2))) in
      let g' := dg_make (b_flip (m_base m)) (dg_p g) ss ts
                  (t_normal (b_o2w (m_base m)) dndu) (t_normal (b_o2w (m_base m)) dndv) (dg_u g) (dg_v g) in
      Ok (mkDG (dg_p g') (dg_dpdu g') (dg_dpdv g') (dg_dndu g') (dg_dndv g') (dg_nn g') (dg_u g') (dg_v g')
               (dg_dudx g) (dg_dvdx g) (dg_dudy g) (dg_dvdy g) (dg_dpdx g) (dg_dpdy g))
  | _, _ => Ok g
  end.
