(** Model of pytracer/spectral/spectrum.py (the colour conversions are in M_Film.v). *)
From Coq Require Import Reals List ZArith Bool.
From Verif Require Import Base M_Film.
Import ListNotations.
Open Scope R_scope.

(** ** RGBSpectrum: three coefficients *)
(** spectral/spectrum.py:587-589 *)
Definition rgb_y (c : vec) : R := 0.212671 * vx c + 0.715160 * vy c + 0.072169 * vz c.
(** spectral/spectrum.py:556-561, 595-597: cls(rgb) with a 3-sequence is np.full(3, rgb), which broadcasts *)
Definition rgb_from_rgb (rgb : vec) : vec := rgb.
(** spectral/spectrum.py:599-601 *)
Definition rgb_from_xyz (xyz : vec) : vec := rgb_from_rgb (xyz2rgb xyz).
(** spectral/spectrum.py:603-604 *)
Definition rgb_to_rgb (c : vec) : vec := c.
(** spectral/spectrum.py:606-607 *)
Definition rgb_to_xyz (c : vec) : vec := rgb2xyz c.

(** ** CoefficientSpectrum: any number of coefficients *)
(** spectral/spectrum.py:182-187 *)
Definition cs_is_black (c : list R) : bool := forallb (fun x => Rltb x EPS) c.
(** spectral/spectrum.py:210-214 with utility/utility.py:89-91, 128-133 (arrays of equal length) *)
Definition cs_lerp (t : R) (a b : list R) : list R :=
  map (fun p => (1 - t) * fst p + t * snd p) (combine a b).
(** spectral/spectrum.py:219-220 with the default bounds 0 and infinity *)
Definition cs_clip0 (c : list R) : list R := map (Rmax 0) c.
(** spectral/spectrum.py:216-217: coefficients that may be NaN *)
Definition cs_has_nans (c : list E) : bool := existsb (fun x => match x with NaN => true | _ => false end) c.
(** spectral/spectrum.py:196-201 *)
Definition cs_exp (c : list R) : list R := map exp c.
(** componentwise array arithmetic inherited from np.ndarray (spectral/spectrum.py:43) *)
Definition cs_add (a b : list R) : list R := map (fun p => fst p + snd p) (combine a b).
Definition cs_scale (k : R) (a : list R) : list R := map (Rmult k) a.

(** ** SampledSpectrum *)
(** spectral/spectrum.py:20-22 *)
Definition LAMBDA_START : R := 400.
Definition LAMBDA_END : R := 700.
Definition N_SPECTRAL : nat := 30.

(** numpy.searchsorted(lam, x), side 'left': on a sorted array, the number of entries below x *)
Definition searchsorted (lam : list R) (x : R) : Z :=
  Z.of_nat (length (filter (fun l => Rltb l x) lam)).
(** numpy.trapz(y, x) *)
Fixpoint trapz (y x : list R) : R :=
  match y, x with
  | y0 :: ((y1 :: _) as yt), x0 :: ((x1 :: _) as xt) => (x1 - x0) * (y0 + y1) / 2 + trapz yt xt
  | _, _ => 0
  end.
(** a[i:j] for 0 <= i, j within the array *)
Definition slice {A} (l : list A) (i j : Z) : list A := skipn (Z.to_nat i) (firstn (Z.to_nat j) l).
(** utility/utility.py:89-91 *)
Definition lerp1 (t v1 v2 : R) : R := (1 - t) * v1 + t * v2.

(** spectral/spectrum.py:429-493.  Result: the average and the two (mutable) argument arrays after the
    call.  Float arrays; the division by le - ls is for ls < le. *)
Definition average_spectrum_samples (lam v : list R) (ls le : R) : res (R * list R * list R) :=
  do l0 <- get1 lam 0;
  if Rleb le l0 then do v0 <- get1 v 0; Ok (v0, lam, v) else
  do ln <- get1 lam (-1);
  if Rleb ln ls then do vn <- get1 v (-1); Ok (vn, lam, v) else
  if (length lam =? 1)%nat then do v0 <- get1 v 0; Ok (v0, lam, v) else
  do s1 <- (if Rltb ls l0 then do v0 <- get1 v 0; Ok (v0 * (l0 - ls)) else Ok 0);
  do s2 <- (if Rltb ln le then do vn <- get1 v (-1); Ok (vn * (le - ln)) else Ok 0);
  let lo0 := (searchsorted lam ls - 1)%Z in
  let hi0 := searchsorted lam le in
  (* lines 463-471 *)
  do st1 <- (if (0 <=? lo0)%Z then
      do bl <- get1 lam lo0; do bv <- get1 v lo0;
      do l1 <- get1 lam (lo0 + 1); do v1 <- get1 v (lo0 + 1);
      do v' <- set1 v lo0 (lerp1 ((ls - bl) / (l1 - bl)) bv v1);
      do lam' <- set1 lam lo0 ls; Ok (lo0, bl, bv, lam', v')
    else do bl <- get1 lam 0; do bv <- get1 v 0; Ok (0%Z, bl, bv, lam, v));
  let '(lo, bk_lam_lo, bk_v_lo, lam1, v1) := st1 in
  (* lines 473-482 *)
  do inner <- (if (hi0 <? Z.of_nat (length lam1))%Z then do lh <- get1 lam1 hi0; Ok (negb (Reqb lh le)) else Ok false);
  do st2 <- (if inner : bool then
      do bl <- get1 lam1 hi0; do bv <- get1 v1 hi0;
      do lp <- get1 lam1 (hi0 - 1); do vp <- get1 v1 (hi0 - 1);
      do v' <- set1 v1 hi0 (lerp1 ((bl - le) / (bl - lp)) bv vp);
      do lam' <- set1 lam1 hi0 le; Ok ((hi0 + 1)%Z, bl, bv, lam', v')
    else do bl <- get1 lam1 (-1); do bv <- get1 v1 (-1); Ok (Z.of_nat (length lam1), bl, bv, lam1, v1));
  let '(hi, bk_lam_hi, bk_v_hi, lam2, v2) := st2 in
  let s3 := trapz (slice v2 lo hi) (slice lam2 lo hi) in
  (* lines 487-491 *)
  do lam3 <- set1 lam2 lo bk_lam_lo; do lam4 <- set1 lam3 (hi - 1) bk_lam_hi;
  do v3 <- set1 v2 lo bk_v_lo; do v4 <- set1 v3 (hi - 1) bk_v_hi;
  Ok ((s1 + s2 + s3) / (le - ls), lam4, v4).

(** spectral/spectrum.py:345-348, 423: bin starts; :347 the right end used by init; :424 the right end used by
    from_sampled: [i+1 / N] parses as i + (1/N) *)
Definition bin_start (i : nat) : R := lerp1 (INR i / INR N_SPECTRAL) LAMBDA_START LAMBDA_END.
Definition bin_end_init (i : nat) : R := lerp1 (INR (S i) / INR N_SPECTRAL) LAMBDA_START LAMBDA_END.
Definition bin_end_sampled (i : nat) : R := lerp1 (INR i + 1 / INR N_SPECTRAL) LAMBDA_START LAMBDA_END.

(** the loop of spectral/spectrum.py:421-427 / 350-412 over bins [is]: the arrays are threaded through *)
Fixpoint resample (bend : nat -> R) (lam v : list R) (is : list nat) : res (list R) :=
  match is with
  | [] => Ok []
  | i :: t => do r <- average_spectrum_samples lam v (bin_start i) (bend i);
              let '(a, lam', v') := r in
              do s <- resample bend lam' v' t; Ok (a :: s)
  end.
(** spectral/spectrum.py:414-427, for samples already in increasing wavelength order (lines 416-418 sort) *)
Definition from_sampled (lam v : list R) : res (list R) := resample bin_end_sampled lam v (seq 0 N_SPECTRAL).
(** spectral/spectrum.py:345-356: one matching or basis curve *)
Definition init_curve (lam v : list R) : res (list R) := resample bin_end_init lam v (seq 0 N_SPECTRAL).

(** the seven basis curves of one kind (spectral/spectrum.py:270-283) *)
Record basis := mkBasis { b_white : list R; b_cyan : list R; b_magenta : list R; b_yellow : list R;
                          b_red : list R; b_green : list R; b_blue : list R }.
(** numpy.argsort of three numbers: insertion sort, so equal entries keep their order *)
Definition argsort3 (c : vec) : nat * nat * nat :=
  let '(a, b) := if Rltb (vy c) (vx c) then (1, 0)%nat else (0, 1)%nat in
  if Rltb (vz c) (vnth c a) then (2, a, b)%nat
  else if Rltb (vz c) (vnth c b) then (a, 2, b)%nat else (a, b, 2)%nat.
(** spectral/spectrum.py:495-533: both branches have the same shape; [k] is .94 or .86445 *)
Definition from_rgb_branch (k : R) (B : basis) (rgb : vec) : list R :=
  let '(lo, me, hi) := argsort3 rgb in
  let sp := match lo with
            | O => (b_cyan B, b_green B, b_blue B)
            | S O => (b_magenta B, b_red B, b_blue B)
            | _ => (b_yellow B, b_red B, b_green B)
            end in
  let get i := let '(p, q, r) := sp in match i with O => p | S O => q | _ => r end in
  let s0 := repeat 0 N_SPECTRAL in
  let s1 := cs_add s0 (cs_scale (vnth rgb lo) (b_white B)) in
  let s2 := cs_add s1 (cs_scale (vnth rgb me - vnth rgb lo) (get lo)) in
  let s3 := cs_add s2 (cs_scale (vnth rgb hi - vnth rgb me) (get hi)) in
  cs_clip0 (cs_scale k s3).
