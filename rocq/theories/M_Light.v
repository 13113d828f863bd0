(** Model of pytracer/light (light.py, utility.py) and of utility/imageio.py:21-50 (read_image), which the textured
    lights use.  Spectra are RGB triples. *)
From Coq Require Import String.
From Coq Require Import Reals List Bool ZArith.
From Verif Require Import Base M_Python M_Geometry M_Transform M_Shapes M_MonteCarlo M_Aggregate M_Reflection M_Utility.
Import ListNotations.
Open Scope R_scope.

(** A ray as geometry/__init__.py:290-298 builds it from its arguments, whatever they are: [l_depth] and [l_time] are
    the values given for the fifth and sixth parameter. *)
Record lray := mkLR { l_o : vec; l_d : vec; l_mint : R; l_maxt : E; l_depth : R; l_time : R }.
(** geometry/__init__.py:320-324 *)
Definition lray_at (r : lray) (t : R) : vec := vadd (l_o r) (vscale t (l_d r)).

(** ** VisibilityTester *)
(** light/utility.py:34-42; coincident points are outside the model's domain (numpy then stores NaN directions) *)
Definition set_segment (p1 : vec) (eps1 : R) (p2 : vec) (eps2 time : R) : lray :=
  let dist := vlength (vsub p1 p2) in
  mkLR p1 (vmap (fun x => x / dist) (vsub p2 p1)) eps1 (Fin (dist * (1 - eps2))) 0 time.
(** light/utility.py:44-51 *)
Definition set_ray (p : vec) (eps : R) (w : vec) (time : R) : lray := mkLR p w eps PInf 0 time.
(** light/utility.py:53-59 *)
Definition unoccluded (intersect_p : lray -> bool) (r : lray) : bool := negb (intersect_p r).

(** what sample_l returns: radiance, direction, pdf, tester ray *)
Record lsample := mkLS { ls_L : V3 E; ls_wi : vec; ls_pdf : R; ls_vis : lray }.

(** ** Base class *)
(** light/light.py:32-40 *)
Definition light_ns (ns : Z) : Z := Z.max 1 ns.
(** light/light.py:126, 168, 233, 343 *)
Definition light_pos (l2w : transform) : vec := t_point l2w vzero.

(** ** Point light *)
(** light/light.py:129-135 *)
Definition point_sample_l (l2w : transform) (intensity : vec) (p : vec) (pEps time : R) : lsample :=
  let pos := light_pos l2w in
  mkLS (vmap Fin (sdiv intensity (sq_length (vsub pos p)))) (normalize (vsub pos p)) 1 (set_segment p pEps pos 0 time).

(** ** Spot light *)
(** light/light.py:170-171 *)
Definition spot_cos (deg : R) : R := cos (deg2rad deg).
(** light/light.py:181-188 for the cosine ct; the division of line 187 is numpy's *)
Definition falloff_of (cos_width cos_falloff ct : R) : E :=
  if Rltb ct cos_width then Fin 0 else
  if Rltb cos_falloff ct then Fin 1 else
  let d := edivz false (ct - cos_width) (cos_falloff - cos_width) in emul (emul (emul d d) d) d.
(** light/light.py:173-188 *)
Definition spot_falloff (l2w : transform) (width falloff : R) (w : vec) : E :=
  falloff_of (spot_cos width) (spot_cos falloff) (vz (normalize (t_vector (t_inverse l2w) w))).
(** numpy division of a finite number by an extended one (a zero denominator is +0 here) *)
Definition ediv (x : R) (y : E) : E :=
  match y with Fin b => edivz false x b | PInf | NInf => Fin 0 | NaN => NaN end.
(** light/light.py:190-196 *)
Definition spot_sample_l (l2w : transform) (intensity : vec) (width falloff : R) (p : vec) (pEps time : R) : lsample :=
  let pos := light_pos l2w in
  let wi := normalize (vsub pos p) in
  mkLS (vmap (fun x => ediv x (spot_falloff l2w width falloff (vneg wi))) intensity) wi 1 (set_segment p pEps pos 0 time).

(** ** Images read from disk (utility/imageio.py:21-50) *)
(** A decoded picture, by the shape of its array: 2-D (grey) or 3-D (h, w, channels) *)
Inductive picture := Grey (w h : Z) | Colour (w h chn : Z).
(** imageio.py:33: unpacking a 2-tuple into three names; 34-36: drop alpha; 39-44: PIL's resize returns a new picture,
    which is discarded, and the array is read again from the unchanged picture *)
Definition read_image (pic : picture) : res picture :=
  match pic with
  | Grey _ _ => Err ValueError
  | Colour w h chn =>
      if negb (is_pow_2 w) || negb (is_pow_2 h) then Ok (Colour w h chn)
      else Ok (Colour w h (if (4 <=? chn)%Z then 3 else chn))
  end.
(** the try block of light/light.py:237-245 and 347-354, 567-575: the array's shape is unpacked into two names; any
    exception leaves no texels.  [None]: the file cannot be opened. *)
Definition light_texels (file : option picture) : option (Z * Z) :=
  match file with
  | None => None
  | Some pic => match read_image pic with
                | Err _ => None
                | Ok (Grey w h) => Some (w, h)
                | Ok (Colour _ _ _) => None
                end
  end.
(** light/light.py:231-272: line 255 divides two Python ints.  Only whether the construction reaches line 256. *)
Definition projection_aspect (file : option picture) : res R :=
  let '(w, h) := match light_texels file with Some wh => wh | None => (0, 0)%Z end in
  if (h =? 0)%Z then Err ZeroDivisionError else Ok (IZR w / IZR h).
(** light/light.py:356-361 and 364-384: with texels, __scale reads the attribute projMap, which does not exist *)
Definition gonio_scale (file : option picture) : res vec :=
  match light_texels file with None => Ok (spec 1) | Some _ => py_attr gonio_names "projMap"%string (Ok (spec 1)) end.
(** light/light.py:386-392 *)
Definition gonio_sample_l (l2w : transform) (intensity : vec) (file : option picture) (p : vec) (pEps time : R)
  : res lsample :=
  let pos := light_pos l2w in
  let wi := normalize (vsub pos p) in
  do s <- gonio_scale file;
  Ok (mkLS (vmap2 (edivz false) intensity s) wi 1 (set_segment p pEps pos 0 time)).

(** ** Distant light *)
(** light/light.py:420-423 *)
Definition distant_di (l2w : transform) (di : vec) : vec := normalize (t_vector l2w di).
(** light/light.py:425-431: the attribute pos does not exist; set_ray takes four arguments besides self
    (light/utility.py:44-46) and is given five *)
Definition distant_sample_l (l2w : transform) (radiance di : vec) (p : vec) (pEps time : R) : res lsample :=
  let wi := distant_di l2w di in
  py_attr distant_names "pos"%string
    (py_call 5 0 6 (Ok (mkLS (vmap Fin radiance) wi 1 (set_ray p pEps wi time)))).

(** ** Emission along rays: sample_r.  Normal has no fromVector (geometry/__init__.py:198-277); uniform_sample_cone
    without a frame raises AttributeError (M_MonteCarlo.uniform_sample_cone_noframe). *)
Inductive light_kind := Point | Spot | Gonio | Distant | Diffuse.
(** light/light.py:137-143, 198-206, 394-400, 433-450, 523-536: in each the call that raises; in 535 ShapeSet.pdf is
    called with one argument and needs two.  The earlier lines (which do not raise) are not reproduced. *)
Definition sample_r (k : light_kind) : res unit :=
  match k with
  | Point => py_attr normal_names "fromVector"%string (Ok tt)
  | Spot => do _ <- uniform_sample_cone_noframe 0 0 0; py_attr normal_names "fromVector"%string (Ok tt)
  | Gonio => py_attr normal_names "fromVector"%string (Ok tt)
  | Distant => py_attr normal_names "fromVector"%string (Ok tt)
  | Diffuse => py_call 3 0 2 (Ok tt)
  end.
(** light/light.py:84-94 and the overrides: power is a property whose getter needs a second argument, so reading the
    attribute raises (the value it would have is not reproduced) *)
Definition light_power (k : light_kind) : res vec := py_property 2 (Ok vzero).
(** integrator/utility.py:27-42 *)
Fixpoint power_list (ks : list light_kind) : res (list vec) :=
  match ks with [] => Ok [] | k :: t => do p <- light_power k; do r <- power_list t; Ok (p :: r) end.

(** ** ShapeSet *)
(** light/utility.py:79-86: list.pop() takes the last element; [fuel] counts iterations *)
Fixpoint shape_set_loop (fuel : nat) (tmp : list shp) (shapes : list nat) : option (list nat) :=
  match rev tmp with
  | [] => Some shapes
  | s :: rest =>
      match fuel with
      | O => None
      | S f =>
          match s with
          | SLeaf n => shape_set_loop f (rev rest) (shapes ++ [n])
          | SComp _ l => shape_set_loop f (rev rest ++ l) shapes
          end
      end
  end.
Definition shape_set (fuel : nat) (s : shp) : option (list nat) := shape_set_loop fuel [s] [].
(** light/utility.py:92-97 *)
Definition ss_areas (area : nat -> R) (shapes : list nat) : list R := map area shapes.
Definition ss_sum (areas : list R) : R := fold_left Rplus areas 0.
(** light/utility.py:104-108, 122-126: the shape used *)
Definition ss_choose (areas : list R) (u_com : R) : res nat := do r <- dist1_dis (dist1_make areas) u_com; Ok (fst r).
(** light/utility.py:128-132; [pdfs] are the values sh.pdf_p(p, wi) *)
Fixpoint ss_acc (areas pdfs : list R) (acc : R) : R :=
  match areas, pdfs with a :: ta, q :: tq => ss_acc ta tq (acc + a * q) | _, _ => acc end.
Definition ss_pdf (areas pdfs : list R) : R := ss_acc areas pdfs 0 / ss_sum areas.
(** light/utility.py:134-138; [pdfs] are the values sh.pdf(p) *)
Definition ss_pdf_p (areas pdfs : list R) : R := ss_acc areas pdfs 0 / (ss_sum areas * INR (length areas)).

(** ** Diffuse area light *)
(** light/light.py:507-508 *)
Definition diffuse_l (emit n w : vec) : vec := if Rltb 0 (vdot n w) then emit else spec 0.
(** light/light.py:504-505 *)
Definition diffuse_le (emit : vec) : vec := emit.
(** light/light.py:108-115: every other light *)
Definition base_le : vec := spec 0.
(** light/light.py:514-521: [ps], [ns] from shape_set.sample_p, [pdf] from shape_set.pdf *)
Definition diffuse_sample_l (emit : vec) (ps ns : vec) (pdf : R) (p : vec) (pEps time : R) : lsample :=
  let wi := normalize (vsub ps p) in
  mkLS (vmap Fin (diffuse_l emit ns (vneg wi))) wi pdf (set_segment p pEps ps EPS time).
