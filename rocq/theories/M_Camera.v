(** Model of pytracer/camera (camera.py, projective.py, environment.py).  Simplifications: the film is represented by
    its resolution, generated rays carry weight 1.; numbers are reals; sign bits of zero direction components are not tracked. *)
From Coq Require Import Reals Lra List Bool ZArith.
From Verif Require Import Base M_Geometry M_Transform M_MonteCarlo M_Sampler.
Open Scope R_scope.

Definition plus0 : V3 bool := mkV false false false.
(** camera/projective.py:31-62 (ProjectiveCamera): the attributes; r2c is computed by [proj_r2c] *)
Record projcam := mkPC { pc_c2w : animated; pc_open : R; pc_close : R; pc_lens : R; pc_focal : R; pc_r2c : transform }.
(** camera/projective.py:48-54: raster space of a resolution xres x yres and the window [x0, x1] x [y0, y1] *)
Definition proj_s2r (xres yres x0 x1 y0 y1 : R) : transform :=
  t_mul (t_mul (t_scale xres yres 1) (t_scale (1 / (x1 - x0)) (1 / (y0 - y1)) 1)) (t_translate (mkV (- x0) (- y1) 0)).
(** camera/projective.py:55-56 *)
Definition proj_r2c (c2s : transform) (xres yres x0 x1 y0 y1 : R) : transform :=
  t_mul (t_inverse c2s) (t_inverse (proj_s2r xres yres x0 x1 y0 y1)).
(** camera/projective.py:62-75 (OrthoCamera.__init__) *)
Definition ortho_make (c2w : animated) (x0 x1 y0 y1 s_open s_close lensr focald xres yres : R) : projcam :=
  mkPC c2w s_open s_close lensr focald (proj_r2c (t_orthographic 0 1) xres yres x0 x1 y0 y1).
(** camera/projective.py:131-144 (PerspectiveCamera.__init__) *)
Definition persp_make (c2w : animated) (x0 x1 y0 y1 s_open s_close lensr focald fov xres yres : R) : res projcam :=
  do p <- t_perspective fov (1 / 1000) 1000;
  Ok (mkPC c2w s_open s_close lensr focald (proj_r2c p xres yres x0 x1 y0 y1)).
(** camera/projective.py:90-107 and 159-176: the lens.  [o], [d]: the ray before; result: the ray after *)
Definition lens_ray (lens focal u v : R) (o d : vec) : vec * vec :=
  if Rltb 0 lens then
    let '(a, b) := concentric_sample_disk u v in
    let lu := a * lens in let lv := b * lens in
    let ft := focal / vz d in
    let pfoc := vadd o (vscale ft d) in
    let o' := mkV lu lv 0 in
    (o', normalize (vsub pfoc o'))
  else (o, d).
Definition ray0 (o d : vec) (time : R) : ray := mkRay o d plus0 (Fin 0) PInf 0 time.
(** camera/projective.py:77-111 (OrthoCamera.generate_ray) *)
Definition ortho_ray (c : projcam) (s : sample) : res ray :=
  let pcam := t_point (pc_r2c c) (mkV (imageX s) (imageY s) 0) in
  let '(o, d) := lens_ray (pc_lens c) (pc_focal c) (lens_u s) (lens_v s) pcam (mkV 0 0 1) in
  a_ray (pc_c2w c) (ray0 o d (lerp (stime s) (pc_open c) (pc_close c))).
(** camera/projective.py:146-180 (PerspectiveCamera.generate_ray) *)
Definition persp_ray (c : projcam) (s : sample) : res ray :=
  let pcam := t_point (pc_r2c c) (mkV (imageX s) (imageY s) 0) in
  let '(o, d) := lens_ray (pc_lens c) (pc_focal c) (lens_u s) (lens_v s) vzero (normalize pcam) in
  a_ray (pc_c2w c) (ray0 o d (lerp (stime s) (pc_open c) (pc_close c))).

(** transform/__init__.py:289-298 on a ray differential; the branch transform/__init__.py:71-75 moves o and d only *)
Definition a_raydiff (a : animated) (r : raydiff) : res raydiff :=
  let time := rtime (rd_ray r) in
  if negb (a_animated a) || Rltb time (a_start a) then Ok (t_raydiff (a_t1 a) r)
  else if Rleb (a_end a) time then Ok (t_raydiff (a_t2 a) r)
  else do t <- a_interpolate a time; Ok (t_raydiff t r).
(** camera/projective.py:113-128 (OrthoCamera.generate_ray_differential); dxCam, dyCam: 73-75 *)
Definition ortho_raydiff (c : projcam) (s : sample) : res raydiff :=
  do r <- ortho_ray c s;
  let dx := t_vector (pc_r2c c) (mkV 1 0 0) in let dy := t_vector (pc_r2c c) (mkV 0 1 0) in
  a_raydiff (pc_c2w c) (mkRD r true (vadd (ro r) dx) (vadd (ro r) dy) (rd r) (rd r)).
(** camera/projective.py:205-221: the offset ray of one axis with a lens: through the focal point of the shifted pixel *)
Definition lens_shift (lens focal u v : R) (q : vec) : vec * vec :=
  let '(a, b) := concentric_sample_disk u v in
  let d := normalize q in
  let pfoc := vscale (focal / vz d) d in
  let o := mkV (a * lens) (b * lens) 0 in
  (o, normalize (vsub pfoc o)).
(** camera/projective.py:142-144 *)
Definition persp_dx (c : projcam) : vec := vsub (t_point (pc_r2c c) (mkV 1 0 0)) (t_point (pc_r2c c) vzero).
Definition persp_dy (c : projcam) : vec := vsub (t_point (pc_r2c c) (mkV 0 1 0)) (t_point (pc_r2c c) vzero).
(** camera/projective.py:182-233 (PerspectiveCamera.generate_ray_differential) *)
Definition persp_raydiff (c : projcam) (s : sample) : res raydiff :=
  let pcam := t_point (pc_r2c c) (mkV (imageX s) (imageY s) 0) in
  let '(o, d) := lens_ray (pc_lens c) (pc_focal c) (lens_u s) (lens_v s) vzero (normalize pcam) in
  let '(rxo, rxd, ryo, ryd) :=
    if Rltb 0 (pc_lens c) then
      let '(xo, xd) := lens_shift (pc_lens c) (pc_focal c) (lens_u s) (lens_v s) (vadd (persp_dx c) pcam) in
      let '(yo, yd) := lens_shift (pc_lens c) (pc_focal c) (lens_u s) (lens_v s) (vadd pcam (persp_dy c)) in
      (xo, xd, yo, yd)
    else (o, normalize (vadd (persp_dx c) pcam), o, normalize (vadd (persp_dy c) pcam)) in
  do r <- a_raydiff (pc_c2w c) (mkRD (ray0 o d (stime s)) false rxo ryo rxd ryd);
  Ok (mkRD (rd_ray r) true (rd_rxo r) (rd_ryo r) (rd_rxd r) (rd_ryd r)).

(** camera/projective.py:18-28 (PinholeCamera); the transform at the start time *)
Definition pinhole_ray (c2w : animated) (focal : R) (s : sample) : ray :=
  let p := mkV (imageX s) (imageY s) 0 in
  mkRay (t_point (a_t1 c2w) p) (t_vector (a_t1 c2w) (vsub (mkV 0 0 focal) p)) plus0 (Fin 0) PInf 0 0.

(** camera/environment.py:28-43 (EnvironmentCamera.generate_ray).  geo.Ray takes depth before time: the time is passed as
    depth, the ray's time is 0.  Result: the ray (depth 0 in it is not used) and its depth *)
Definition env_dir (xres yres : R) (s : sample) : vec :=
  let theta := PI * imageY s / yres in let phi := 2 * PI * imageX s / xres in
  mkV (sin theta * cos phi) (cos theta) (sin theta * sin phi).
Definition env_ray (c2w : animated) (s_open s_close xres yres : R) (s : sample) : res (ray * R) :=
  do r <- a_ray c2w (ray0 vzero (env_dir xres yres s) 0);
  Ok (r, lerp (stime s) s_open s_close).

(** camera/camera.py:49-75 (Camera.generate_ray_differential, used by PinholeCamera and EnvironmentCamera); [gen]: the
    camera's generate_ray with weight; duplicate: sampler/sample.py:55-64 *)
Definition generic_raydiff (gen : sample -> res (R * ray)) (s : sample) : res (R * raydiff) :=
  do a <- gen s; let '(wt, r) := a in
  let d := sample_dup s in
  do bx <- gen (mkS (imageX d + 1) (imageY d) (lens_u d) (lens_v d) (stime d) (n1D d) (n2D d) (oneD d) (twoD d));
  do by_ <- gen (mkS (imageX d) (imageY d + 1) (lens_u d) (lens_v d) (stime d) (n1D d) (n2D d) (oneD d) (twoD d));
  let '(wtx, rx) := bx in let '(wty, ry) := by_ in
  if Reqb wtx 0 || Reqb wty 0 then Ok (0, mkRD r false (ro rx) (ro ry) (rd rx) (rd ry))
  else Ok (wt, mkRD r true (ro rx) (ro ry) (rd rx) (rd ry)).
