(** Specification vocabulary for spectra. *)
From Coq Require Import Reals List.
From Verif Require Import Base M_Spectrum.
Import ListNotations.
Open Scope R_scope.

(** wavelengths in non-decreasing order *)
Definition increasing (lam : list R) : Prop := forall i j, (i <= j < length lam)%nat -> nth i lam 0 <= nth j lam 0.
(** the straight line through (l0, v0) and (l1, v1) *)
Definition line (l0 v0 l1 v1 x : R) : R := v0 + (v1 - v0) * ((x - l0) / (l1 - l0)).
(** area under that line between x = a and x = b (a trapezoid), clipped to [l0, l1] *)
Definition segment_area (l0 v0 l1 v1 a b : R) : R :=
  let a' := Rmax a l0 in let b' := Rmin b l1 in
  if Rle_dec b' a' then 0 else (b' - a') * (line l0 v0 l1 v1 a' + line l0 v0 l1 v1 b') / 2.
Fixpoint inner_area (lam v : list R) (a b : R) : R :=
  match lam, v with
  | l0 :: ((l1 :: _) as lt), v0 :: ((v1 :: _) as vt) => segment_area l0 v0 l1 v1 a b + inner_area lt vt a b
  | _, _ => 0
  end.
(** area under the curve over [a, b]: piecewise linear through the samples, the first and last values
    extended to the left and right *)
Definition curve_area (lam v : list R) (a b : R) : R :=
  nth 0 v 0 * Rmax 0 (Rmin b (nth 0 lam 0) - a) + inner_area lam v a b +
  last v 0 * Rmax 0 (b - Rmax a (last lam 0)).
(** b is one of the sample wavelengths strictly between the first and the last *)
Definition inner_sample (lam : list R) (b : R) : Prop := In b lam /\ nth 0 lam 0 < b < last lam 0.
(** Smits' construction: white for the smallest channel, the secondary colour of the two larger channels for the
    middle one, the primary of the largest channel for the rest; curves are functions of the bin. *)
Definition smits (white secondary primary : nat -> R) (lo me hi : R) (i : nat) : R :=
  lo * white i + (me - lo) * secondary i + (hi - me) * primary i.

(** basis curves have one entry per spectral sample *)
Definition basis_ok (B : basis) : Prop :=
  length (b_white B) = N_SPECTRAL /\ length (b_cyan B) = N_SPECTRAL /\ length (b_magenta B) = N_SPECTRAL /\
  length (b_yellow B) = N_SPECTRAL /\ length (b_red B) = N_SPECTRAL /\ length (b_green B) = N_SPECTRAL /\
  length (b_blue B) = N_SPECTRAL.
