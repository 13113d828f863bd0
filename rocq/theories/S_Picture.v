(** Vocabulary for pictures of whole scenes: which samples a render sends, what each of them saw, and the picture made
    of them. *)
From Coq Require Import Reals List ZArith.
From Verif Require Import Base M_Sampler S_Sampler M_Film S_Film.
Import ListNotations.
Open Scope R_scope.

(** a sample as the sampler fills it for some pixel of the window [x0, x1) x [y0, y1) *)
Definition sent (s : sampler) (orig : sample) (x0 x1 y0 y1 : Z) (smp : sample) : Prop :=
  exists px py, (x0 <= px < x1)%Z /\ (y0 <= py < y1)%Z /\ sample_good s px py (sample_dup orig) smp.
(** a sample with the radiance it saw, as a contribution to the film *)
Definition contribution (a : sample * vec) : film_op := Add (imageX (fst a)) (imageY (fst a)) (snd a).
(** [pixel_mean flt x y l avg]: avg is the filter-weighted mean of the contributions l at pixel (x, y), whose total weight
    is positive *)
Definition pixel_mean (flt : filt) (x y : Z) (l : list (sample * vec)) (avg : vec) : Prop :=
  let os := map contribution l in
  0 < total_weight flt x y os /\ vscale (total_weight flt x y os) avg = weighted_sum flt x y os.
(** value of the picture at pixel (x, y) of the film *)
Definition pixel_at (f : film) (img : list (list vec)) (x y : Z) : vec :=
  nth (Z.to_nat (x - xstart f)) (nth (Z.to_nat (y - ystart f)) img []) vzero.
(** the picture [img] of the film shows the samples [l]: every pixel is, up to one millionth of its size (the constants of the
    colour conversion), the weighted mean of the radiances *)
Definition pictures (f : film) (img : list (list vec)) (l : list (sample * vec)) : Prop :=
  forall x y, in_film f x y -> exists avg, pixel_mean (ffilt f) x y l avg /\ vle vzero avg /\
    vclose (1e-6 * vabs1 avg) (pixel_at f img x y) avg.
(** every pixel of the window gets its [n] samples: sample i of the j-th pixel in raster order lies in that pixel *)
Definition raster (s : sampler) (orig : sample) (x0 x1 y0 y1 : Z) (n : nat) (l : list (sample * vec)) : Prop :=
  let wd := Z.to_nat (x1 - x0) in let pixels := (wd * Z.to_nat (y1 - y0))%nat in
  length l = (pixels * n)%nat /\
  forall j i a, (j < pixels)%nat -> (i < n)%nat -> nth_error l (j * n + i) = Some a ->
    sample_good s (x0 + Z.of_nat (j mod wd)) (y0 + Z.of_nat (j / wd)) (sample_dup orig) (fst a).
(** a filter usable for reconstruction: at least half a pixel wide, nonnegative, positive inside *)
Definition proper_filter (flt : filt) : Prop :=
  /2 <= f_xw flt /\ /2 <= f_yw flt /\ (forall a b, 0 <= f_eval flt a b) /\
  (forall a b, 0 <= a < f_xw flt -> 0 <= b < f_yw flt -> 0 < f_eval flt a b).
