(** Model of small utilities: the progress display (utility/utility.py:25-46), indexing of boxes
    (geometry/__init__.py:428-434), ray differentials made from rays (353-357). *)
From Coq Require Import Reals ZArith List Bool.
From Verif Require Import Base M_Geometry.
Import ListNotations.

(** utility/utility.py:38-41: the bar for one call; a filled cell is true.  [length * iteration // total] is floor
    division, ZeroDivisionError for total = 0 (raised by the percentage, line 38, before); a string times a negative
    number is empty. *)
Definition progress_cells (iteration total len : Z) : res (list bool) :=
  if (total =? 0)%Z then Err ZeroDivisionError
  else let f := (len * iteration / total)%Z in
       Ok (repeat true (Z.to_nat f) ++ repeat false (Z.to_nat (len - f))).
(** utility/utility.py:25-46: the bars printed by one call, in order (43-46: a second, full one on completion) *)
Definition progress_reporter (iteration total len : Z) : res (list (list bool)) :=
  do b <- progress_cells iteration total len;
  Ok (b :: if (iteration =? total)%Z then [repeat true (Z.to_nat len)] else []).

(** geometry/__init__.py:428-434 (BBox.__getitem__) *)
Definition box_getitem (b : box) (key : Z) : res (V3 E) :=
  if (key =? 0)%Z then Ok (bmin b) else if (key =? 1)%Z then Ok (bmax b) else Err KeyError.

(** geometry/__init__.py:334-342 with 353-357 (RayDifferential.from_ray): no differentials *)
Definition raydiff_from_ray (r : ray) : raydiff :=
  mkRD (ray_from_ray r) false (mkV 0 0 0)%R (mkV 0 0 0)%R (mkV 0 0 0)%R (mkV 0 0 0)%R.
(** geometry/__init__.py:344-350 (RayDifferential.from_parent) *)
Definition raydiff_from_parent (o d : vec) (dz : V3 bool) (r : ray) (mint maxt : E) : raydiff :=
  mkRD (ray_from_parent o d dz r mint maxt) false (mkV 0 0 0)%R (mkV 0 0 0)%R (mkV 0 0 0)%R (mkV 0 0 0)%R.
