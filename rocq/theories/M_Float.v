(** A second model of the arithmetic, with rounding: float64 numbers are the reals of the binary64 format (53 bits,
    gradual underflow) and every operation rounds its exact result to the nearest such number, ties to even, as numpy and
    Python do.  Simplification: the exponent has no upper bound (no overflow to infinity).  The functions below are those
    of /repo in which a rounding error could change which sample, pixel, table entry or bucket is used. *)
From Coq Require Import Reals ZArith List Bool.
From Flocq Require Import Core.
Import ListNotations.
Open Scope R_scope.

(** pytracer/__init__.py:19 (FLOAT = np.float64): the format and its rounding *)
Definition fexp64 : Z -> Z := FLT_exp (-1074) 53.
Definition F64 (x : R) : Prop := generic_format radix2 fexp64 x.
Definition fl (x : R) : R := round radix2 fexp64 ZnearestE x.
Definition fadd (x y : R) : R := fl (x + y).
Definition fsub (x y : R) : R := fl (x - y).
Definition fmul (x y : R) : R := fl (x * y).
Definition fdiv (x y : R) : R := fl (x / y).

(** utility/utility.py:89-91 (lerp) *)
Definition f_lerp (t v1 v2 : R) : R := fadd (fmul (fsub 1 t) v1) (fmul t v2).

(** sampler/utility.py:18-22 (one entry of stratified_sample_1d) with draw [u]; 25-33, 35-45 use the same expression for
    every coordinate *)
Definition f_stratum (n i : Z) (u : R) : R := fdiv (fadd (IZR i) u) (IZR n).
(** sampler/sampler/stratified.py:57, 62, 71: the image position in pixel [p] *)
Definition f_image (n i p : Z) (u : R) : R := fadd (f_stratum n i u) (IZR p).
(** sampler/sampler/stratified.py:59, 75: the sample's time *)
Definition f_time (n i : Z) (u s_open s_close : R) : R := f_lerp (f_stratum n i u) s_open s_close.

(** film/film.py:146-156, 166-169, one axis: the range of pixels a sample at [x] reaches (filter half-width [w], film
    columns [start] .. [start + cnt - 1]) and the filter table entry used for column [k] *)
Definition f_reach (w x : R) (start cnt : Z) : Z * Z :=
  let d := fsub x (1/2) in
  (Z.max (Zceil (fsub d w)) start, Z.min (Zfloor (fadd d w)) (start + cnt - 1)).
Definition f_entry (winv x : R) (k : Z) : Z :=
  let d := fsub x (1/2) in
  Z.min 15 (Zfloor (Rabs (fmul (fmul (fsub (IZR k) d) 16) winv))).
(** film/film.py:116-117: first column and number of columns of a crop window (the rows, 118-119, use the x resolution for
    the first row: C31) *)
Definition f_crop (res : Z) (c0 c1 : R) : Z * Z :=
  let s := Zceil (fmul (IZR res) c0) in (s, Z.max 1 (Zceil (fmul (IZR res) c1) - s)).

(** utility/imageio.py:60-65: the byte of a value [x >= 0] in a channel whose largest value is [c > 0]; astype('uint8')
    cuts the fraction off and keeps the last eight bits *)
Definition f_byte (c x : R) : Z := (Ztrunc (fdiv (fmul 255 x) c) mod 256)%Z.

(** aggregate/accelerator/bvh.py:138-143, 221-227: the bucket of a centroid [c] between [lo] and [hi] before and after the
    correction; INT(.) cuts the fraction off *)
Definition f_bucket0 (n : Z) (lo hi c : R) : Z := Ztrunc (fmul (IZR n) (fdiv (fsub c lo) (fsub hi lo))).
Definition f_bucket (n : Z) (lo hi c : R) : Z := let b := f_bucket0 n lo hi c in if (b =? n)%Z then (b - 1)%Z else b.

(** montecarlo/utility.py:23-30 and 33-42 *)
Definition f_balance (nf fpdf ng gpdf : R) : R :=
  fdiv (fmul nf fpdf) (fadd (fmul nf fpdf) (fmul ng gpdf)).
Definition f_power_den (nf fpdf ng gpdf : R) : R :=
  let f := fmul nf fpdf in let g := fmul ng gpdf in fadd (fmul f f) (fmul g g).
Definition f_power (nf fpdf ng gpdf : R) : R :=
  let f := fmul nf fpdf in fdiv (fmul f f) (f_power_den nf fpdf ng gpdf).

(** montecarlo/distribution.py:34-42: running sums of the table divided by its length, then divided by the last *)
Fixpoint f_sums (n acc : R) (arr : list R) : list R :=
  match arr with [] => [] | a :: l => let acc' := fadd acc (fdiv a n) in acc' :: f_sums n acc' l end.
Definition f_cdf_raw (arr : list R) : list R := 0 :: f_sums (INR (length arr)) 0 arr.
Definition f_raw (arr : list R) : R := last (f_cdf_raw arr) 0.
Definition f_cdf (arr : list R) : list R := map (fun x => fdiv x (f_raw arr)) (f_cdf_raw arr).
(** np.searchsorted (left): the number of entries before the first one not below [u] *)
Fixpoint f_search (l : list R) (u : R) : nat :=
  match l with [] => 0 | a :: l' => if Rlt_dec a u then S (f_search l' u) else 0 end%nat.
(** montecarlo/distribution.py:57-58, 77-78 *)
Definition f_off (arr : list R) (u : R) : nat := Nat.pred (f_search (f_cdf arr) u).
(** montecarlo/distribution.py:47-65: the divisor of line 61, the sampled value and its density *)
Definition f_width (arr : list R) (u : R) : R :=
  fsub (nth (S (f_off arr u)) (f_cdf arr) 0) (nth (f_off arr u) (f_cdf arr) 0).
Definition f_cont (arr : list R) (u : R) : R * R :=
  let off := f_off arr u in
  let du := fdiv (fsub u (nth off (f_cdf arr) 0)) (f_width arr u) in
  (fdiv (fadd du (INR off)) (INR (length arr)), fdiv (nth off arr 0) (f_raw arr)).

(** geometry/__init__.py:587-601 (BBox.intersect_p), one axis with [d <> 0]: the ordered pair of parameters *)
Definition f_slab (lo hi o d : R) : R * R :=
  let a := fdiv (fsub lo o) d in let b := fdiv (fsub hi o) d in if Rlt_dec b a then (b, a) else (a, b).
(** the three axes in order, leaving at the first empty range *)
Definition f_box (lo hi o d : list R) (t0 t1 : R) : option (R * R) :=
  fold_left (fun acc i => match acc with
    | None => None
    | Some (a, b) => let s := f_slab (nth i lo 0) (nth i hi 0) (nth i o 0) (nth i d 0) in
        let a' := Rmax a (fst s) in let b' := Rmin b (snd s) in if Rlt_dec b' a' then None else Some (a', b')
    end) [0; 1; 2]%nat (Some (t0, t1)).
(** aggregate/accelerator/bvh.py:296-320 (BVH._intersect_p), one axis: [inv_dir] is the rounded reciprocal (327, 372) *)
Definition f_bslab (lo hi o d : R) : R * R :=
  let inv := fdiv 1 d in
  if Rlt_dec d 0 then (fmul (fsub hi o) inv, fmul (fsub lo o) inv) else (fmul (fsub lo o) inv, fmul (fsub hi o) inv).
(** aggregate/accelerator/bvh.py:303-308, 313-318: cutting one range by another *)
Definition f_cut (s t : R * R) : option (R * R) :=
  if Rlt_dec (snd t) (fst s) then None else if Rlt_dec (snd s) (fst t) then None else
  Some (if Rlt_dec (fst s) (fst t) then fst t else fst s, if Rlt_dec (snd t) (snd s) then snd t else snd s).
(** aggregate/accelerator/bvh.py:296-320 for a ray with finite range and no zero direction component *)
Definition f_bvh_box (lo hi o d : list R) (mint maxt : R) : bool :=
  let s i := f_bslab (nth i lo 0) (nth i hi 0) (nth i o 0) (nth i d 0) in
  match f_cut (s 0%nat) (s 1%nat) with
  | None => false
  | Some xy => match f_cut xy (s 2%nat) with
    | None => false
    | Some (a, b) => (if Rlt_dec a maxt then true else false) && (if Rlt_dec mint b then true else false)
    end
  end.

(** aggregate/aggregate.py:234-236 (pos2voxel), one axis with [n] voxels *)
Definition f_voxel (n : Z) (lo winv p : R) : Z := Z.max 0 (Z.min (Ztrunc (fmul (fsub p lo) winv)) (n - 1)).
