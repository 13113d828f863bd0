(** Vocabulary for the texture properties. *)
From Coq Require Import Reals List ZArith Bool Lra Lia.
From Verif Require Import Base M_Utility M_MipMap.
Import ListNotations.
Open Scope R_scope.

(** [l] is an array of [r] rows and [c] columns, not empty *)
Definition shaped (l : image) (r c : Z) : Prop :=
  (0 < r)%Z /\ (0 < c)%Z /\ Z.of_nat (length l) = r /\ List.Forall (fun row => Z.of_nat (length row) = c) l.
(** the number in row i, column j *)
Definition pixel (l : image) (i j : Z) : R := nth (Z.to_nat j) (nth (Z.to_nat i) l []) 0.
(** every texel of [l] lies in [lo, hi] *)
Definition within (l : image) (r c : Z) (lo hi : R) : Prop :=
  forall i j, (0 <= i < r)%Z -> (0 <= j < c)%Z -> lo <= pixel l i j <= hi.
(** a sum over 0 .. n-1, and the mean over the block of 2^k x 2^k texels number (a, b) *)
Fixpoint zsum (n : nat) (f : Z -> R) : R := match n with O => 0 | S n => zsum n f + f (Z.of_nat n) end.
Definition block_mean (l : image) (k : nat) (a b : Z) : R :=
  let n := Nat.pow 2 k in
  zsum n (fun i => zsum n (fun j => pixel l (a * Z.of_nat n + i) (b * Z.of_nat n + j))) / INR (n * n).
Definition power_of_two (x : Z) : Prop := exists k, (0 <= k)%Z /\ x = (2 ^ k)%Z.
