(** Model of pytracer/filter/filter.py, pytracer/film/film.py, and the parts of
    pytracer/utility/imageio.py and pytracer/spectral/spectrum.py that the film uses. *)
From Coq Require Import Reals List ZArith Bool.
From Verif Require Import Base.
Import ListNotations.
Open Scope R_scope.

(** ** Filters (filter/filter.py) *)
(** filter/filter.py:16-25: the widths; xwInv = 1/xw and ywInv = 1/yw are computed on use *)
Record filt := mkF { f_xw : R; f_yw : R; f_eval : R -> R -> R }.
(** filter/filter.py:36-38 *)
Definition box_filter (xw yw : R) : filt := mkF xw yw (fun _ _ => 1).
(** filter/filter.py:41-43 *)
Definition triangle_filter (xw yw : R) : filt :=
  mkF xw yw (fun x y => Rmax 0 (xw - Rabs x) * Rmax 0 (yw - Rabs y)).
(** filter/filter.py:56-57 *)
Definition gaussian (alpha d expv : R) : R := Rmax 0 (exp (- alpha * d * d) - expv).
(** filter/filter.py:46-54 *)
Definition gaussian_filter (xw yw alpha : R) : filt :=
  mkF xw yw (fun x y => gaussian alpha x (exp (- alpha * xw * xw)) * gaussian alpha y (exp (- alpha * yw * yw))).
(** filter/filter.py:69-89, scalar argument (the array branch applies the same polynomial per entry) *)
Definition mitchell (B C x0 : R) : R :=
  let x := Rabs (2 * x0) in
  if Rltb 1 x
  then ((- B - 6 * C) * x * x * x + (6 * B + 30 * C) * x * x + (-12 * B - 48 * C) * x + (8 * B + 24 * C)) * (1 / 6)
  else ((12 - 9 * B - 6 * C) * x * x * x + (-18 + 12 * B + 6 * C) * x * x + (6 - 2 * B)) * (1 / 6).
(** filter/filter.py:60-67 *)
Definition mitchell_filter (B C xw yw : R) : filt :=
  mkF xw yw (fun x y => mitchell B C (x * (1 / xw)) * mitchell B C (y * (1 / yw))).
(** numpy.sinc *)
Definition np_sinc (x : R) : R := if Reqb x 0 then 1 else sin (PI * x) / (PI * x).
(** filter/filter.py:100-118, scalar argument *)
Definition lanczos (tau x0 : R) : R :=
  let x := Rabs x0 in
  if Rltb x EPS then 1 else if Rltb 1 x then 0 else np_sinc (x * tau) * np_sinc x.
(** filter/filter.py:92-98 *)
Definition lanczos_filter (xw yw tau : R) : filt :=
  mkF xw yw (fun x y => lanczos tau (x * (1 / xw)) * lanczos tau (y * (1 / yw))).

(** ** Colour conversion (spectral/spectrum.py) *)
(** spectral/spectrum.py:25-28 *)
Definition xyz2rgb (v : vec) : vec :=
  mkV (3.240479 * vx v - 1.537150 * vy v - 0.498535 * vz v)
      (- 0.969256 * vx v + 1.875991 * vy v + 0.041556 * vz v)
      (0.055648 * vx v - 0.204043 * vy v + 1.057311 * vz v).
(** spectral/spectrum.py:31-34 *)
Definition rgb2xyz (v : vec) : vec :=
  mkV (0.412453 * vx v + 0.357580 * vy v + 0.180423 * vz v)
      (0.212671 * vx v + 0.715160 * vy v + 0.072169 * vz v)
      (0.019334 * vx v + 0.119193 * vy v + 0.950227 * vz v).

(** ** numpy indexing: negative indices wrap once, everything else raises *)
Definition np_index (n : nat) (i : Z) : res nat :=
  if (0 <=? i)%Z && (i <? Z.of_nat n)%Z then Ok (Z.to_nat i)
  else if (- Z.of_nat n <=? i)%Z && (i <? 0)%Z then Ok (Z.to_nat (Z.of_nat n + i))
  else Err IndexError.
Definition get1 {A} (l : list A) (i : Z) : res A :=
  do k <- np_index (length l) i;
  match nth_error l k with Some a => Ok a | None => Err IndexError end.
Fixpoint replace_nth {A} (k : nat) (a : A) (l : list A) : list A :=
  match l, k with
  | [], _ => []
  | _ :: t, O => a :: t
  | h :: t, S k => h :: replace_nth k a t
  end.
Definition set1 {A} (l : list A) (i : Z) (a : A) : res (list A) :=
  do k <- np_index (length l) i; Ok (replace_nth k a l).
Definition get2 {A} (m : list (list A)) (i j : Z) : res A := do r <- get1 m i; get1 r j.
Definition set2 {A} (m : list (list A)) (i j : Z) (a : A) : res (list (list A)) :=
  do r <- get1 m i; do r' <- set1 r j a; set1 m i r'.
(** range(a, b) *)
Definition Zrange (a b : Z) : list Z := map (fun k => (a + Z.of_nat k)%Z) (seq 0 (Z.to_nat (b - a))).

(** ** ImageFilm *)
(** film/film.py:93-103 (the lock is modelled in M_FilmThreads.v) *)
Record pixel := mkP { pL : vec; pS : vec; pW : R }.
Definition pixel0 : pixel := mkP vzero vzero 0.
Record film := mkFilm {
  xstart : Z; xcnt : Z; ystart : Z; ycnt : Z;
  ffilt : filt; table : list (list R); pixels : list (list pixel) }.
(** pytracer/__init__.py:20 FILTER_TABLE_SIZE = 16 *)
(** film/film.py:127-135: table[y][x] *)
Definition make_table (f : filt) : list (list R) :=
  let dx := f_xw f / 16 in
  let dy := f_yw f / 16 in
  map (fun y => map (fun x => f_eval f ((INR x + /2) * dx) ((INR y + /2) * dy)) (seq 0 16)) (seq 0 16).
(** film/film.py:108-135; crop = [c0, c1, c2, c3].  The y start is computed from the x resolution,
    as in the source. *)
Definition film_make (xr yr : Z) (f : filt) (c0 c1 c2 c3 : R) : film :=
  let xs := Zceil (IZR xr * c0) in
  let xc := Z.max 1 (Zceil (IZR xr * c1) - xs) in
  let ys := Zceil (IZR xr * c2) in
  let yc := Z.max 1 (Zceil (IZR yr * c3) - ys) in
  mkFilm xs xc ys yc f (make_table f) (repeat (repeat pixel0 (Z.to_nat yc)) (Z.to_nat xc)).

(** film/film.py:146-156: inclusive raster extent of a sample, clipped to the film *)
Definition extent (f : film) (sx sy : R) : Z * Z * Z * Z :=
  let dX := sx - /2 in
  let dY := sy - /2 in
  (Z.max (Zceil (dX - f_xw (ffilt f))) (xstart f),
   Z.min (Zfloor (dX + f_xw (ffilt f))) (xstart f + xcnt f - 1),
   Z.max (Zceil (dY - f_yw (ffilt f))) (ystart f),
   Z.min (Zfloor (dY + f_yw (ffilt f))) (ystart f + ycnt f - 1)).
(** film/film.py:158-159 and 176-177: the pixels visited, in order *)
Definition coords (f : film) (sx sy : R) : list (Z * Z) :=
  let '(x0, x1, y0, y1) := extent f sx sy in
  if (x1 - x0 <? 0)%Z || (y1 - y0 <? 0)%Z then []
  else flat_map (fun y => map (fun x => (x, y)) (Zrange x0 (x1 + 1))) (Zrange y0 (y1 + 1)).
(** film/film.py:165-169: table index of a pixel along one axis (entry x - x0 of the array ifx, whose
    arange starts at x0) *)
Definition tindex (p : Z) (d w : R) : Z :=
  Z.min 15 (Zfloor (Rabs ((IZR p - d) * 16 * (1 / w)))).
(** film/film.py:183 *)
Definition weight (f : film) (sx sy : R) (x y : Z) : res R :=
  get2 (table f) (tindex y (sy - /2) (f_yw (ffilt f))) (tindex x (sx - /2) (f_xw (ffilt f))).
(** film/film.py:183-197: one pixel update *)
Definition add_pixel (f : film) (sx sy : R) (xyz : vec) (x y : Z) : res film :=
  do wt <- weight f sx sy x y;
  do p <- get2 (pixels f) (x - xstart f) (y - ystart f);
  do ps <- set2 (pixels f) (x - xstart f) (y - ystart f)
             (mkP (vadd (pL p) (vscale wt xyz)) (pS p) (pW p + wt));
  Ok (mkFilm (xstart f) (xcnt f) (ystart f) (ycnt f) (ffilt f) (table f) ps).
Fixpoint add_pixels (f : film) (sx sy : R) (xyz : vec) (cs : list (Z * Z)) : res film :=
  match cs with
  | [] => Ok f
  | (x, y) :: cs => do f' <- add_pixel f sx sy xyz x y; add_pixels f' sx sy xyz cs
  end.
(** film/film.py:137-198 *)
Definition add_sample (f : film) (sx sy : R) (L : vec) : res film :=
  add_pixels f sx sy (rgb2xyz L) (coords f sx sy).
(** film/film.py:200-217; L.to_xyz() is rgb2xyz (spectral/spectrum.py:606-607) *)
Definition splat (f : film) (sx sy : R) (L : vec) : res film :=
  let x := Zfloor sx in
  let y := Zfloor sy in
  if (x <? xstart f)%Z || (xcnt f <=? x - xstart f)%Z || (y <? ystart f)%Z || (ycnt f <=? y - ystart f)%Z
  then Ok f
  else
    do p <- get2 (pixels f) (x - xstart f) (y - ystart f);
    do ps <- set2 (pixels f) (x - xstart f) (y - ystart f) (mkP (pL p) (vadd (pS p) (rgb2xyz L)) (pW p));
    Ok (mkFilm (xstart f) (xcnt f) (ystart f) (ycnt f) (ffilt f) (table f) ps).
(** film/film.py:219-227 *)
Definition get_sample_extent (f : film) : Z * Z * Z * Z :=
  (Zfloor (IZR (xstart f) + /2 - f_xw (ffilt f)),
   Zfloor (IZR (xstart f) + /2 + IZR (xcnt f) + f_xw (ffilt f)),
   Zfloor (IZR (ystart f) + /2 - f_yw (ffilt f)),
   Zfloor (IZR (ystart f) + /2 + IZR (ycnt f) + f_yw (ffilt f))).
(** film/film.py:229-235 *)
Definition get_pixel_extent (f : film) : Z * Z * Z * Z :=
  (xstart f, (xstart f + xcnt f)%Z, ystart f, (ystart f + ycnt f)%Z).
(** film/film.py:248-255: the RGB value of one pixel *)
Definition pixel_rgb (splat_scale : R) (p : pixel) : vec :=
  let c := xyz2rgb (pL p) in
  let c := if negb (Reqb (pW p) 0) then vmap (fun x => Rmax 0 (x / pW p)) c else c in
  vadd c (vscale splat_scale (xyz2rgb (pS p))).
(** film/film.py:241-255: the array rgb[y][x] *)
Definition film_rgb (f : film) (splat_scale : R) : list (list vec) :=
  map (fun y => map (fun x => pixel_rgb splat_scale (nth y (nth x (pixels f) []) pixel0))
                    (seq 0 (Z.to_nat (xcnt f)))) (seq 0 (Z.to_nat (ycnt f))).

(** ** utility/imageio.py:53-93 (write_image) without the file system *)
(** numpy.max of one channel of a non-empty array *)
Fixpoint rmax_list (d : R) (l : list R) : R := match l with [] => d | x :: t => rmax_list (Rmax d x) t end.
Definition chan_max (ch : vec -> R) (img : list (list vec)) : R :=
  match map ch (concat img) with [] => 0 | x :: t => rmax_list x t end.
(** utility/imageio.py:60-63 *)
Definition norm_chan (coef x : R) : R := if negb (Reqb coef 0) then 255 * x / coef else x.
(** utility/imageio.py:60-65; astype('uint8') truncates values in [0, 256) *)
Definition to_bytes (img : list (list vec)) : list (list (V3 Z)) :=
  let cx := chan_max vx img in let cy := chan_max vy img in let cz := chan_max vz img in
  map (map (fun v => mkV (Ztrunc (norm_chan cx (vx v))) (Ztrunc (norm_chan cy (vy v))) (Ztrunc (norm_chan cz (vz v))))) img.
(** length of the numpy slice a[o : e] on an axis of size n, for 0 <= o, 0 <= e *)
Definition slice_len (n o e : Z) : Z := Z.max 0 (Z.min n e - Z.min n o).
(** numpy broadcasting of one source axis onto one destination axis *)
Definition axis_fits (src dst : Z) : bool := (src =? dst)%Z || (src =? 1)%Z.
(** utility/imageio.py:67-93 for alpha = None: whole image replaced, or the crop written into an
    existing image of shape H x W; the result is the shape check of the slice assignment at line 84.
    The source array has shape yRes x xRes. *)
Inductive written := WholeImage | UpdatedRegion (rows cols : Z).
Definition write_image (xRes yRes xFull yFull xOff yOff H W : Z) : res written :=
  if (xRes =? xFull)%Z && (yRes =? yFull)%Z then Ok WholeImage
  else
    let r := slice_len H xOff (xOff + xRes - 1) in
    let c := slice_len W yOff (yOff + yRes - 1) in
    if axis_fits yRes r && axis_fits xRes c then Ok (UpdatedRegion r c) else Err ValueError.
