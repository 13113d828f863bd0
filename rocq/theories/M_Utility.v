(** Model of pytracer/utility/utility.py:49-133. *)
From Coq Require Import Reals List ZArith Bool.
From Verif Require Import Base.
Import ListNotations.
Open Scope R_scope.

(** utility/utility.py:54-56 *)
Definition eq_unity (x : R) : bool := Rltb (1 - EPS) x && Rltb x (1 + EPS).
(** utility/utility.py:59-61 *)
Definition ne_unity (x : R) : bool := Rltb x (1 - EPS) || Rltb (1 + EPS) x.
(** utility/utility.py:64-66 *)
Definition is_zero (x : R) : bool := Rltb (- EPS) x && Rltb x EPS.
(** utility/utility.py:69-71 *)
Definition not_zero (x : R) : bool := Rltb x (- EPS) || Rltb EPS x.
(** utility/utility.py:74-76 *)
Definition ftoi (x : R) : Z := Zfloor x.
(** utility/utility.py:79-81 *)
Definition ctoi (x : R) : Z := Zceil x.
(** numpy.round: to the nearest integer, halves to the even one *)
Definition np_round (x : R) : Z :=
  let f := Zfloor x in
  if Rltb (x - IZR f) (1/2) then f
  else if Rltb (1/2) (x - IZR f) then (f + 1)%Z
  else if Z.even f then f else (f + 1)%Z.
(** utility/utility.py:84-86 *)
Definition rtoi (x : R) : Z := np_round x.
(** utility/utility.py:89-91 *)
Definition lerp (t v1 v2 : R) : R := (1 - t) * v1 + t * v2.
(** numpy.log2, exact *)
Definition log2R (x : R) : R := ln x / ln 2.
(** INT(2 ** k) for a float k holding an integer: 2^k, truncated to 0 for negative k *)
Definition int_pow2 (k : Z) : Z := if (0 <=? k)%Z then (2 ^ k)%Z else 0%Z.
(** utility/utility.py:94-96, for x > 0 (log2 of other numbers is -inf or NaN) *)
Definition round_pow_2 (x : Z) : Z := int_pow2 (np_round (log2R (IZR x))).
(** utility/utility.py:99-101, for x > 0 *)
Definition next_pow_2 (x : Z) : Z := int_pow2 (Zceil (log2R (IZR x))).
(** utility/utility.py:104-106 *)
Definition is_pow_2 (x : Z) : bool := (Z.land x (x - 1) =? 0)%Z.
(** utility/utility.py:110-116, float argument, default bounds: lower 0, upper infinity *)
Definition clip0 (x : R) : R := Rmax x 0.
(** utility/utility.py:119-124 *)
Definition is_black (s : vec) : bool := Rltb (Rabs (vx s)) EPS && Rltb (Rabs (vy s)) EPS && Rltb (Rabs (vz s)) EPS.
Definition is_black1 (s : R) : bool := Rltb (Rabs s) EPS.
