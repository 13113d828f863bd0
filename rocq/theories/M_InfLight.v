(** Model of InfiniteAreaLight (pytracer/light/light.py:549-683).  Spectra are RGB triples; the radiance map is a MIPMap
    of such triples, modelled as one scalar map per channel (M_MipMap), all of the same shape. *)
From Coq Require Import String.
From Coq Require Import Reals List Bool ZArith.
From Verif Require Import Base M_Python M_Geometry M_Transform M_MonteCarlo M_Utility M_Spectrum M_Film M_MipMap M_Light.
Import ListNotations.
Open Scope R_scope.

(** light/light.py:563-575: the texels, a nested list indexed [first][second]; [px i j] are the pixels of the file.  The
    two names of line 570 are the array's first and second dimension. *)
Definition inf_texels (l : vec) (file : option picture) (px : Z -> Z -> vec) : list (list vec) :=
  match light_texels file with
  | None => [[l]]
  | Some (w, h) => map (fun i => map (fun j => px i j) (Zrange 0 h)) (Zrange 0 w)
  end.
Definition chan (f : vec -> R) (t : list (list vec)) : image := map (map f) t.
(** light/light.py:577-579; texture/utility.py:198-200: the defaults of MIPMap's other arguments *)
Definition rad_map (t : list (list vec)) : res (V3 mip) :=
  do a <- mip_make REPEAT false 8 true (chan vx t);
  do b <- mip_make REPEAT false 8 true (chan vy t);
  do c <- mip_make REPEAT false 8 true (chan vz t);
  Ok (mkV a b c).
(** texture/utility.py:411-437 for a map of triples *)
Definition look_up_rgb (m : V3 mip) (s t width : R) : res vec :=
  do a <- look_up3 (vx m) s t width; do b <- look_up3 (vy m) s t width; do c <- look_up3 (vz m) s t width;
  Ok (mkV a b c).

Record inflight := mkInf { i_l2w : transform; i_map : V3 mip; i_dist : dist2 }.
(** light/light.py:584-592: [st] of line 589 is computed and never used *)
Definition env_image (m : V3 mip) (width height : Z) : res (list (list R)) :=
  let filt := 1 / IZR (Z.max width height) in
  mapM (fun v => mapM (fun u => do c <- look_up_rgb m (IZR u / IZR width) (IZR v / IZR height) filt; Ok (rgb_y c))
                      (Zrange 0 width)) (Zrange 0 height).
(** light/light.py:555-595 (__init__) *)
Definition inf_make (l2w : transform) (l : vec) (file : option picture) (px : Z -> Z -> vec) : res inflight :=
  let t := inf_texels l file px in
  let '(w, h) := match light_texels file with None => (1, 1)%Z | Some wh => wh end in
  do m <- rad_map t;
  do img <- env_image m w h;
  Ok (mkInf l2w m (dist2_make img)).

(** light/light.py:597-601 (le): look_up(self, param) (texture/utility.py:401) is called with self and two numbers *)
Definition inf_le (i : inflight) (d : vec) : res vec :=
  let wh := normalize (t_vector (t_inverse (i_l2w i)) d) in
  let s := spherical_phi wh * (1 / (2 * PI)) in let t := spherical_theta wh * (1 / PI) in
  py_call 2 0 3 (look_up_rgb (i_map i) s t 0).

(** what sample_l returns; the density is numpy's, so possibly NaN *)
Record isample := mkIS { is_L : vec; is_wi : vec; is_pdf : E; is_vis : lray }.
(** light/light.py:612-625, 632-635: direction and density for the coordinates (u, v) *)
Definition inf_dir (i : inflight) (u v : R) : vec :=
  let theta := v * PI in let phi := u * 2 * PI in
  t_vector (i_l2w i) (mkV (sin theta * cos phi) (sin theta * sin phi) (cos theta)).
Definition inf_dir_pdf (v pdf : R) : E :=
  let st := sin (v * PI) in
  let pdf := if Reqb st 0 then 0 else pdf in
  edivz false pdf (2 * PI * PI * st).
(** light/light.py:603-634 (sample_l) for u_pos = (u0, u1).  A NaN coordinate (a cell of zero width) is outside the
    model's domain (ValueError stands for it). *)
Definition inf_sample_l (i : inflight) (u0 u1 : R) (p : vec) (pEps time : R) : res isample :=
  do r <- dist2_cont (i_dist i) u0 u1;
  let '(u, v, pdf) := r in
  match u with
  | Fin u =>
      do c <- look_up_rgb (i_map i) u (INR v) 0;
      let wi := inf_dir i u (INR v) in
      Ok (mkIS c wi (inf_dir_pdf (INR v) pdf) (set_ray p pEps wi time))
  | _ => Err ValueError
  end.
(** light/light.py:636-644 (pdf): the division belongs to the second argument *)
Definition inf_pdf (i : inflight) (w : vec) : res R :=
  let wi := t_vector (t_inverse (i_l2w i)) w in
  let theta := spherical_theta wi in let phi := spherical_phi wi in
  let st := sin theta in
  if Reqb st 0 then Ok 0
  else dist2_pdf (i_dist i) (phi * (1 / (2 * PI))) (theta * (1 / PI) / (2 * PI * PI * st)).
(** light/light.py:641-677 (sample_r): Normal has no fromVector (line 660); with zero density it returns before that line,
    with neither ray nor normal.  What follows line 660 is not reproduced. *)
Definition inf_sample_r (i : inflight) (u0 u1 : R) : res (option lray) :=
  do r <- dist2_cont (i_dist i) u0 u1;
  let '(_, _, pdf) := r in
  if Reqb pdf 0 then Ok None else py_attr normal_names "fromVector"%string (Ok None).
(** light/light.py:679-683: power is a property whose getter needs a second argument *)
Definition inf_power (i : inflight) (rad : R) : res vec :=
  py_property 2 (do c <- look_up_rgb (i_map i) (/ 2) (/ 2) (/ 2); Ok (vscale (PI * rad * rad) c)).
