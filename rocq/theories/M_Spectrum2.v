(** Further parts of pytracer/spectral/spectrum.py: factories, powers, luminance and tristimulus values of sampled spectra. *)
From Coq Require Import Reals List Bool ZArith.
From Verif Require Import Base M_Geometry M_Film M_Spectrum.
Import ListNotations.
Open Scope R_scope.

(** an argument of the factories: a spectrum object, a one-dimensional array or sequence of floats, a sequence of Python ints,
    an array or sequence of other dimension, anything that is not iterable *)
Inductive factory_arg := ASpec (c : list R) | ASeq (c : list R) | AInts (c : list Z) | AOther (ndim : nat) | AScalar.
(** spectral/spectrum.py:82-98 (CoefficientSpectrum.create): copies; the coefficients of the result *)
Definition cs_create (a : factory_arg) : res (list R) :=
  match a with
  | ASpec c => Ok c
  | ASeq c => Ok c
  | AInts c => Ok (map IZR c)
  | AOther _ => Err TypeError
  | AScalar => Err TypeError
  end.
(** spectral/spectrum.py:575-585 (RGBSpectrum.create).  Line 583 passes the sequence to numpy.ndarray, whose argument is a
    shape: floats raise TypeError, negative ints ValueError, other ints give an uninitialised array of that shape; [inr] is
    that array's shape. *)
Definition rgb_create (a : factory_arg) : res (list R + list Z) :=
  match a with
  | ASpec c => if (length c =? 3)%nat then Ok (inl c) else
               Err TypeError
  | ASeq c => Err TypeError
  | AInts c => if (length c =? 3)%nat then (if existsb (fun z => (z <? 0)%Z) c then Err ValueError else Ok (inr c)) else Err TypeError
  | AOther _ => Err TypeError
  | AScalar => Err TypeError
  end.
(** spectral/spectrum.py:285-290 (SampledSpectrum()): no argument *)
Definition sampled_black : list R := repeat 0 N_SPECTRAL.
(** spectral/spectrum.py:189-194 (sqrt) of nonnegative coefficients, 203-208 (pow) with a natural exponent *)
Definition cs_sqrt (c : list R) : list R := map sqrt c.
Definition cs_pow (n : nat) (c : list R) : list R := map (fun x => x ^ n) c.

(** numpy's dot of two one-dimensional arrays *)
Definition np_dot (a b : list R) : res R :=
  if (length a =? length b)%nat then Ok (fold_right Rplus 0 (map (fun p => fst p * snd p) (combine a b))) else Err ValueError.
(** pytracer/data/spectral.py *)
Definition CIE_Y_INTEGRAL : R := 106.856895.
(** the class attributes X, Y, Z: None until SampledSpectrum.init has run (spectral/spectrum.py:266-268, 345-356) *)
Definition curves : Type := option (list R * list R * list R).
(** spectral/spectrum.py:296-298: the factor *)
Definition y_scale : R := (LAMBDA_END - LAMBDA_START) / (CIE_Y_INTEGRAL * INR N_SPECTRAL).
(** spectral/spectrum.py:296-298 (SampledSpectrum.y) *)
Definition sampled_y (cv : curves) (c : list R) : res R :=
  match cv with None => Err AttributeError | Some (_, Y, _) => do d <- np_dot Y c; Ok (d * (LAMBDA_END - LAMBDA_START) / (CIE_Y_INTEGRAL * INR N_SPECTRAL)) end.
(** spectral/spectrum.py:540-543 (SampledSpectrum.to_xyz) *)
Definition sampled_to_xyz (cv : curves) (c : list R) : res vec :=
  match cv with
  | None => Err AttributeError
  | Some (X, Y, Z) =>
      do x <- np_dot X c; do y <- np_dot Y c; do z <- np_dot Z c;
      let k v := v * (LAMBDA_END - LAMBDA_START) / (CIE_Y_INTEGRAL * INR N_SPECTRAL) in
      Ok (mkV (k x) (k y) (k z))
  end.
(** spectral/spectrum.py:545-546 *)
Definition sampled_to_rgb (cv : curves) (c : list R) : res vec := do v <- sampled_to_xyz cv c; Ok (rgb_from_xyz v).
