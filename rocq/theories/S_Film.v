(** Specification vocabulary for the film properties. *)
From Coq Require Import Reals List ZArith Bool Permutation.
From Verif Require Import Base M_Film.
Import ListNotations.
Open Scope R_scope.

(** What a client does to a film: deposit a filtered sample, or splat one. *)
Inductive film_op := Add (sx sy : R) (L : vec) | Splat (sx sy : R) (L : vec).
Definition film_step (f : film) (o : film_op) : res film :=
  match o with Add sx sy L => add_sample f sx sy L | Splat sx sy L => splat f sx sy L end.
Fixpoint run_ops (f : film) (os : list film_op) : res film :=
  match os with [] => Ok f | o :: os => do f' <- film_step f o; run_ops f' os end.

(** the pixel with raster coordinates (x, y), if the film has it *)
Definition in_film (f : film) (x y : Z) : Prop :=
  (xstart f <= x < xstart f + xcnt f)%Z /\ (ystart f <= y < ystart f + ycnt f)%Z.
Definition pix (f : film) (x y : Z) : pixel :=
  nth (Z.to_nat (y - ystart f)) (nth (Z.to_nat (x - xstart f)) (pixels f) []) pixel0.

(** The centre of pixel (x, y) is (x + 1/2, y + 1/2); a sample covers the pixels whose centre is within
    the filter's half-widths. *)
Definition covers (flt : filt) (sx sy : R) (x y : Z) : Prop :=
  Rabs (IZR x + /2 - sx) <= f_xw flt /\ Rabs (IZR y + /2 - sy) <= f_yw flt.
(** The filter is tabulated: the weight is its value at the middle of the table cell (16 cells per
    half-width) that contains the offset. *)
Definition cell_mid (w d : R) : R := (IZR (Z.min 15 (Zfloor (16 * Rabs d / w))) + /2) * (w / 16).
Definition tab_weight (flt : filt) (sx sy : R) (x y : Z) : R :=
  f_eval flt (cell_mid (f_xw flt) (IZR x + /2 - sx)) (cell_mid (f_yw flt) (IZR y + /2 - sy)).
Definition coversb (flt : filt) (sx sy : R) (x y : Z) : bool :=
  Rleb (Rabs (IZR x + /2 - sx)) (f_xw flt) && Rleb (Rabs (IZR y + /2 - sy)) (f_yw flt).
(** weight that an operation deposits on a pixel (0 when it does not cover it) *)
Definition op_weight (flt : filt) (x y : Z) (o : film_op) : R :=
  match o with
  | Add sx sy _ => if coversb flt sx sy x y then tab_weight flt sx sy x y else 0
  | Splat _ _ _ => 0
  end.
Definition op_rad (o : film_op) : vec := match o with Add _ _ L | Splat _ _ L => L end.
Definition op_splat (x y : Z) (o : film_op) : vec :=
  match o with
  | Splat sx sy L => if (Zfloor sx =? x)%Z && (Zfloor sy =? y)%Z then L else vzero
  | Add _ _ _ => vzero
  end.
Fixpoint rsum (l : list R) : R := match l with [] => 0 | x :: t => x + rsum t end.
Fixpoint vsum (l : list vec) : vec := match l with [] => vzero | x :: t => vadd x (vsum t) end.
Definition total_weight (flt : filt) (x y : Z) (os : list film_op) : R := rsum (map (op_weight flt x y) os).
(** sum of weight * radiance *)
Definition weighted_sum (flt : filt) (x y : Z) (os : list film_op) : vec :=
  vsum (map (fun o => vscale (op_weight flt x y o) (op_rad o)) os).
Definition splat_sum (x y : Z) (os : list film_op) : vec := vsum (map (op_splat x y) os).

Definition vclose (e : R) (u v : vec) : Prop :=
  Rabs (vx u - vx v) <= e /\ Rabs (vy u - vy v) <= e /\ Rabs (vz u - vz v) <= e.
Definition vabs1 (v : vec) : R := Rabs (vx v) + Rabs (vy v) + Rabs (vz v).
Definition vle (u v : vec) : Prop := vx u <= vx v /\ vy u <= vy v /\ vz u <= vz v.
Definition even_kernel (f : filt) : Prop :=
  forall x y, f_eval f (- x) y = f_eval f x y /\ f_eval f x (- y) = f_eval f x y.
Definition nonneg_img (img : list (list vec)) : Prop := forall v, In v (concat img) -> vle vzero v.
Definition byte (z : Z) : Prop := (0 <= z <= 255)%Z.
