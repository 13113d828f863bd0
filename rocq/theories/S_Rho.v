(** Specification vocabulary for albedo estimates: averages over lists of samples. *)
From Coq Require Import Reals List.
From Verif Require Import Base M_Geometry M_Reflection.
Import ListNotations.
Open Scope R_scope.

(** The sum and the mean of a colour over a list. *)
Fixpoint total {A} (f : A -> vec) (l : list A) : vec :=
  match l with [] => mkV 0 0 0 | x :: l' => vadd (f x) (total f l') end.
Definition mean {A} (f : A -> vec) (l : list A) : vec := vscale (/ INR (length l)) (total f l).
(** The mean of a real number over a list. *)
Fixpoint rtotal {A} (f : A -> R) (l : list A) : R :=
  match l with [] => 0 | x :: l' => f x + rtotal f l' end.
Definition rmean {A} (f : A -> R) (l : list A) : R := rtotal f l / INR (length l).

(** One term of the Monte Carlo estimate of an albedo: f |cos| / pdf of the direction drawn, 0 if it cannot be drawn. *)
Definition weight (cosine : R) (draw : R * option (vec * vec)) : vec :=
  match draw with
  | (pdf, Some (wi, f)) => if Rlt_dec 0 pdf then vscale (cosine * Rabs (vz wi) / pdf) f else mkV 0 0 0
  | (_, None) => mkV 0 0 0
  end.
