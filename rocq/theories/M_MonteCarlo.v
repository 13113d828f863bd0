(** Model of pytracer/montecarlo/utility.py and pytracer/montecarlo/distribution.py.
    Floats are real numbers, random variates are the arguments u1, u2. *)
From Coq Require Import String.
From Coq Require Import Reals List ZArith Bool.
From Verif Require Import Base M_Python M_Geometry M_Transform.
Import ListNotations.
Open Scope R_scope.

(** montecarlo/utility.py:23-30 (sample counts are integers) *)
Definition balance_heuristic (nf : nat) (fpdf : R) (ng : nat) (gpdf : R) : R :=
  (INR nf * fpdf) / (INR nf * fpdf + INR ng * gpdf).
(** montecarlo/utility.py:33-42 *)
Definition power_heuristic (nf : nat) (fpdf : R) (ng : nat) (gpdf : R) : R :=
  let f := INR nf * fpdf in
  let g := INR ng * gpdf in
  f * f / (f * f + g * g).

(** montecarlo/utility.py:45-56 (rejection_sample_disk).  [rng k] is the k-th number drawn; [fuel]
    bounds the number of draws of a pair (None: still looping).  The second component of the result
    is the number of values drawn. *)
Fixpoint rejection_loop (rng : nat -> R) (k : nat) (fuel : nat) : option (R * R * nat) :=
  match fuel with
  | O => None
  | S fuel' =>
      let x := 1 - 2 * rng k in
      let y := 1 - 2 * rng (S k) in
      if Rltb 1 (x * x + y * y) then rejection_loop rng (S (S k)) fuel' else Some (x, y, S (S k))
  end.
Definition rejection_sample_disk (rng : nat -> R) (fuel : nat) : option (R * R * nat) :=
  rejection_loop rng 0 fuel.

(** montecarlo/utility.py:59-70 *)
Definition uniform_sample_hemisphere (u1 u2 : R) : vec :=
  let r := sqrt (pmax 0 (1 - u1 * u1)) in
  let phi := 2 * PI * u2 in
  mkV (r * cos phi) (r * sin phi) u1.
(** montecarlo/utility.py:73-80; pytracer/__init__.py: INV_2PI = 1/(2 pi) *)
Definition uniform_hemisphere_pdf : R := 1 / (2 * PI).
(** montecarlo/utility.py:83-95 *)
Definition uniform_sample_sphere (u1 u2 : R) : vec :=
  let z := 1 - 2 * u1 in
  let r := sqrt (pmax 0 (1 - z * z)) in
  let phi := 2 * PI * u2 in
  mkV (r * cos phi) (r * sin phi) z.
(** montecarlo/utility.py:98-105 *)
Definition uniform_sphere_pdf : R := 1 / (4 * PI).
(** montecarlo/utility.py:108-119 *)
Definition uniform_sample_disk (u1 u2 : R) : R * R :=
  (sqrt u1 * cos (2 * PI * u2), sqrt u1 * sin (2 * PI * u2)).
(** montecarlo/utility.py:145-166: radius and angle *)
Definition concentric_polar (sx sy : R) : R * R :=
  let '(r, theta) :=
    if Rltb (- sy) sx then
      if Rltb sy sx then (sx, let theta := sy / sx in if Rleb sy 0 then theta + 8 else theta)
      else (sy, 2 - sx / sy)
    else
      if Rltb sy sx then (- sy, 6 + sx / sy)
      else (- sx, 4 - sy / sx) in
  (r, theta * (PI / 4)).
(** montecarlo/utility.py:122-168 *)
Definition concentric_sample_disk (u1 u2 : R) : R * R :=
  let sx := 2 * u1 - 1 in
  let sy := 2 * u2 - 1 in
  if Reqb sx 0 && Reqb sy 0 then (0, 0)
  else let '(r, theta) := concentric_polar sx sy in (r * cos theta, r * sin theta).
(** montecarlo/utility.py:171-184 *)
Definition cosine_sample_hemisphere (u1 u2 : R) : vec :=
  let v := uniform_sample_sphere u1 u2 in
  mkV (vx v) (vy v) (sqrt (pmax 0 (1 - vx v * vx v - vy v * vy v))).
(** montecarlo/utility.py:187-194 (the second argument is unused) *)
Definition cosine_hemisphere_pdf (costheta phi : R) : R := costheta * (1 / PI).
(** montecarlo/utility.py:197-206 *)
Definition uniform_sample_triangle (u1 u2 : R) : R * R := (1 - sqrt u1, u2 * sqrt u1).
(** montecarlo/utility.py:217-221: without a frame; numpy has no [scos] *)
Definition uniform_sample_cone_noframe (u1 u2 ct_max : R) : res vec :=
  let ct := (1 - u1) + u1 * ct_max in let st := sqrt (1 - ct * ct) in let phi := u2 * 2 * PI in
  py_attr numpy_names "scos"%string (Ok (mkV (cos phi * st) (sin phi * st) ct)).
(** montecarlo/utility.py:222-226: with a frame *)
Definition uniform_sample_cone (u1 u2 ct_max : R) (x y z : vec) : vec :=
  let ct := lerp u1 ct_max 1 in
  let st := sqrt (1 - ct * ct) in
  let phi := u2 * 2 * PI in
  vadd (vadd (vscale (cos phi * st) x) (vscale (sin phi * st) y)) (vscale ct z).
(** montecarlo/utility.py:229-233 *)
Definition uniform_cone_pdf (ct_max : R) : R := 1 / (2 * PI * (1 - ct_max)).
(** montecarlo/utility.py:246-250 *)
Definition hg_cos (g u1 : R) : R :=
  if Rltb (Rabs g) EPS then 1 - 2 * u1
  else let sqr := (1 - g * g) / (1 - g + 2 * g * u1) in
       (1 + g * g - sqr * sqr) / (2 * g).
(** montecarlo/utility.py:236-255 *)
Definition sample_hg (w : vec) (g u1 u2 : R) : vec :=
  let ct := hg_cos g u1 in
  let st := sqrt (pmax 0 (1 - ct * ct)) in
  let phi := 2 * PI * u2 in
  let '(_, v1, v2) := coordinate_system w in
  spherical_direction_basis st ct phi v1 v2 w.

(** ** Distribution1D *)
(** montecarlo/distribution.py:31-42 *)
Record dist1 := mkD1 { d_func : list R; d_cdf : list R; d_raw : R }.
Definition d_cnt (d : dist1) : nat := length (d_func d).
(** montecarlo/distribution.py:36-38: the running sums cdf[0..cnt], [acc] = cdf[i-1] *)
Fixpoint cum (n : R) (acc : R) (arr : list R) : list R :=
  acc :: match arr with [] => [] | x :: arr' => cum n (acc + x / n) arr' end.
(** montecarlo/distribution.py:26-42; line 42 divides by cdf_raw (a zero total is outside the
    model's domain: numpy then fills the table with NaN). *)
Definition dist1_make (arr : list R) : dist1 :=
  let c := cum (INR (length arr)) 0 arr in
  let raw := last c 0 in
  mkD1 arr (map (fun x => x / raw) c) raw.
(** numpy.searchsorted(a, u) (side left) on a sorted array: index of the first entry >= u *)
Fixpoint searchsorted (l : list R) (u : R) : nat :=
  match l with [] => O | x :: l' => if Rltb x u then S (searchsorted l' u) else O end.
(** montecarlo/distribution.py:57-58 and 77-78: max(0, searchsorted - 1) *)
Definition dist1_off (d : dist1) (u : R) : nat := pred (searchsorted (d_cdf d) u).
Definition nth_res {A} (l : list A) (i : nat) : res A :=
  match nth_error l i with Some x => Ok x | None => Err IndexError end.
(** montecarlo/distribution.py:47-65; the division of line 61 is IEEE (0/0 is NaN) *)
Definition dist1_cont (d : dist1) (u : R) : res (E * R) :=
  let off := dist1_off d u in
  do c0 <- nth_res (d_cdf d) off;
  do c1 <- nth_res (d_cdf d) (S off);
  let du := edivz false (u - c0) (c1 - c0) in
  do f <- nth_res (d_func d) off;
  Ok (emul (eadd du (Fin (INR off))) (Fin (/ INR (d_cnt d))), f / d_raw d).
(** montecarlo/distribution.py:67-80 *)
Definition dist1_dis (d : dist1) (u : R) : res (nat * R) :=
  let off := dist1_off d u in
  do f <- nth_res (d_func d) off;
  Ok (off, f / (d_raw d * INR (d_cnt d))).

(** ** Distribution2D *)
Record dist2 := mkD2 { d_cond : list dist1; d_marg : dist1 }.
(** montecarlo/distribution.py:91-107; [arr] is the list of rows *)
Definition dist2_make (arr : list (list R)) : dist2 :=
  let c := map dist1_make arr in
  mkD2 c (dist1_make (map d_raw c)).
(** numpy.clip(ftoi(x), 0, n - 1) *)
Definition clip_index (x : R) (n : nat) : nat :=
  Z.to_nat (Z.min (Z.max (Zfloor x) 0) (Z.of_nat n - 1)).
(** montecarlo/distribution.py:112-127; the result is [[u, v], pdf] where v is the INTEGER row
    index.  A NaN v cannot be converted to an integer (ValueError). *)
Definition dist2_cont (d : dist2) (u0 u1 : R) : res (E * nat * R) :=
  do (v, pdf1) <- dist1_cont (d_marg d) u1;
  match v with
  | Fin v =>
      let vi := clip_index (v * INR (d_cnt (d_marg d))) (d_cnt (d_marg d)) in
      do c <- nth_res (d_cond d) vi;
      do (u, pdf0) <- dist1_cont c u0;
      Ok (u, vi, pdf0 * pdf1)
  | _ => Err ValueError
  end.
(** montecarlo/distribution.py:129-142 *)
Definition dist2_pdf (d : dist2) (u v : R) : res R :=
  do c0 <- nth_res (d_cond d) 0;
  let ui := clip_index (u * INR (d_cnt c0)) (d_cnt c0) in
  let vi := clip_index (v * INR (d_cnt (d_marg d))) (d_cnt (d_marg d)) in
  do c <- nth_res (d_cond d) vi;
  if Reqb (d_raw c * d_raw (d_marg d)) 0 then Ok 0
  else
    do f <- nth_res (d_func c) ui;
    do m <- nth_res (d_func (d_marg d)) vi;
    Ok ((f * m) / (d_raw c * d_raw (d_marg d))).
