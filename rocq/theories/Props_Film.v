(** Property theorems C27-C32, C65 (film, filters, image output).  Vocabulary: S_Film.v. *)
From Coq Require Import Reals Lra Lia List ZArith Bool Permutation.
From Verif Require Import Base M_Film S_Film P_Film P_Film2 M_FilmThreads P_FilmThreads P_FilmThreads2 P_Film3 S_FilmThreads.
Import ListNotations.
Open Scope R_scope.

(** C27: after any history, adding a sample succeeds (no index error) and changes exactly the pixels
    whose centre is within the filter's half-widths of the sample, by the tabulated filter weight. *)
Theorem C27_footprint (xr yr : Z) (flt : filt) (c0 c1 c2 c3 : R) (os : list film_op) (sx sy : R) (L : vec) :
  0 < f_xw flt -> 0 < f_yw flt ->
  exists f g, run_ops (film_make xr yr flt c0 c1 c2 c3) os = Ok f /\ add_sample f sx sy L = Ok g /\
    get_pixel_extent g = get_pixel_extent f /\
    forall x y, in_film f x y ->
      (covers flt sx sy x y -> let w := tab_weight flt sx sy x y in
         pix g x y = mkP (vadd (pL (pix f x y)) (vscale w (rgb2xyz L))) (pS (pix f x y)) (pW (pix f x y) + w)) /\
      (~ covers flt sx sy x y -> pix g x y = pix f x y).
Proof. exact (footprint xr yr flt c0 c1 c2 c3 os sx sy L). Qed.
Print Assumptions C27_footprint.
Theorem C27_table_index (f : film) (sx sy : R) (x y : Z) :
  (0 <= tindex y (sy - /2) (f_yw (ffilt f)) <= 15)%Z /\ (0 <= tindex x (sx - /2) (f_xw (ffilt f)) <= 15)%Z /\
  length (make_table (ffilt f)) = 16%nat /\ (forall r, In r (make_table (ffilt f)) -> length r = 16%nat).
Proof. exact (table_in_range f sx sy x y). Qed.
Print Assumptions C27_table_index.
Example C27_ex : let flt := triangle_filter 2 2 in 0 < f_xw flt /\ covers flt 0 (3/10) 1 (-1) /\ ~ covers flt 0 (3/10) 2 0.
Proof.
  unfold covers; cbn [f_xw f_yw triangle_filter]. split; [lra|]. split; [split; apply Rabs_le; lra|].
  intros [A _]. rewrite Rabs_right in A; lra.
Qed.

(** C28 *)
Theorem C28_order (xr yr : Z) (flt : filt) (c0 c1 c2 c3 : R) (os os' : list film_op) :
  0 < f_xw flt -> 0 < f_yw flt -> Permutation os os' ->
  exists g, run_ops (film_make xr yr flt c0 c1 c2 c3) os = Ok g /\ run_ops (film_make xr yr flt c0 c1 c2 c3) os' = Ok g.
Proof. exact (order_main xr yr flt c0 c1 c2 c3 os os'). Qed.
Print Assumptions C28_order.
Example C28_ex : Permutation [Add 0 0 (mkV 1 2 3); Splat 1 1 (mkV 1 0 0); Add 5 5 vzero] [Add 5 5 vzero; Add 0 0 (mkV 1 2 3); Splat 1 1 (mkV 1 0 0)].
Proof. apply Permutation_sym. apply (Permutation_cons_append [Add 0 0 (mkV 1 2 3); Splat 1 1 (mkV 1 0 0)]). Qed.

(** C29: [good_run f ws]: the threads' code is generated without error, every interleaving takes at most
    a fixed number of steps, never blocks for ever, and when all threads have finished every cell of the
    film holds what processing the samples one after the other yields. *)
Remark good_run_meaning (f : film) (ws : list (list film_op)) : good_run f ws <->
  exists cs, spawn f ws = Ok cs /\
  forall n c, exec (start f cs) n c ->
    (n + todo c = todo (start f cs))%nat /\
    (finished c -> exists g, run_ops f (concat ws) = Ok g /\
       forall x y fd, in_film f x y -> mem c ((x, y), fd) = film_mem g ((x, y), fd)) /\
    (~ finished c -> exists i c', step c i c').
Proof. reflexivity. Qed.
(** filters wider than a pixel: locks are used *)
Theorem C200_locked (xr yr : Z) (flt : filt) (c0 c1 c2 c3 : R) (ws : list (list film_op)) :
  0 < f_xw flt -> 0 < f_yw flt -> /2 < f_xw flt \/ /2 < f_yw flt ->
  good_run (film_make xr yr flt c0 c1 c2 c3) ws.
Proof. exact (locked_good (film_make xr yr flt c0 c1 c2 c3) ws (wf_make xr yr flt c0 c1 c2 c3)). Qed.
Print Assumptions C200_locked.
(** narrow filters: no locks; safe when each pixel's samples belong to one thread and samples do not lie
    on pixel borders (or the filter is strictly narrower than the pixel) *)
Theorem C29_narrow_partial (xr yr : Z) (flt : filt) (c0 c1 c2 c3 : R) (ws : list (list film_op)) (tile_of : Z -> Z -> nat) :
  0 < f_xw flt -> 0 < f_yw flt -> f_xw flt <= /2 -> f_yw flt <= /2 ->
  (forall i w sx sy L, nth_error ws i = Some w -> In (Add sx sy L) w ->
     tile_of (Zfloor sx) (Zfloor sy) = i /\
     (f_xw flt < /2 \/ IZR (Zfloor sx) < sx) /\ (f_yw flt < /2 \/ IZR (Zfloor sy) < sy)) ->
  good_run (film_make xr yr flt c0 c1 c2 c3) ws.
Proof. exact (tiles_good (film_make xr yr flt c0 c1 c2 c3) ws tile_of (wf_make xr yr flt c0 c1 c2 c3)). Qed.
Print Assumptions C29_narrow_partial.
Example C29_ex : forall i w sx sy L, nth_error [[Add (1/2) (1/2) (mkV 1 1 1)]; [Add (3/2) (1/2) vzero]] i = Some w ->
  In (Add sx sy L) w -> Z.to_nat (Zfloor sx) = i.
Proof.
  assert (A : Zfloor (1/2) = 0%Z) by (apply Zfloor_unique; lra). assert (B : Zfloor (3/2) = 1%Z) by (apply Zfloor_unique; lra).
  intros [|[|i]] w sx sy L E H; cbn in E; [| |destruct i; discriminate]; injection E as <-; destruct H as [H|[]]; injection H as <- <- <-; rewrite ?A, ?B; reflexivity.
Qed.
(** the box filter of half-width 1/2 with a sample exactly on a pixel border: the neighbouring pixel is
    written without a lock and another thread's update is lost *)
Theorem C29_border_refuted (L L' : vec) : exists cs n c g,
  spawn (film_make 2 1 (box_filter (/2) (/2)) 0 1 0 1) [[Add (/2) (/2) L]; [Add 1 (/2) L']] = Ok cs /\
  exec (start (film_make 2 1 (box_filter (/2) (/2)) 0 1 0 1) cs) n c /\ finished c /\
  run_ops (film_make 2 1 (box_filter (/2) (/2)) 0 1 0 1) [Add (/2) (/2) L; Add 1 (/2) L'] = Ok g /\
  mem c ((0, 0)%Z, LW) = 1 /\ film_mem g ((0, 0)%Z, LW) = 2.
Proof. exact (lost_update L L'). Qed.
Print Assumptions C29_border_refuted.

(** C30: the written value is the weighted average clamped at 0 (plus splats), up to the 1e-6 error of
    the RGB/XYZ matrices; for a non-negative filter the average lies between the bounds of the covering
    samples' radiance (so equal radiance is reproduced). *)
Theorem C30_average (xr yr : Z) (flt : filt) (c0 c1 c2 c3 : R) (os : list film_op) (sc : R) (x y : Z) (lo hi : vec) :
  0 < f_xw flt -> 0 < f_yw flt -> (forall a b, 0 <= f_eval flt a b) ->
  let f := film_make xr yr flt c0 c1 c2 c3 in
  in_film f x y -> 0 < total_weight flt x y os ->
  (forall sx sy L, In (Add sx sy L) os -> covers flt sx sy x y -> vle lo L /\ vle L hi) ->
  exists g avg, run_ops f os = Ok g /\ vscale (total_weight flt x y os) avg = weighted_sum flt x y os /\
    vle lo avg /\ vle avg hi /\
    vclose (1e-6 * vabs1 avg + Rabs sc * (1e-6 * vabs1 (splat_sum x y os)))
      (nth (Z.to_nat (x - xstart f)) (nth (Z.to_nat (y - ystart f)) (film_rgb g sc) []) vzero)
      (vadd (vmap (Rmax 0) avg) (vscale sc (splat_sum x y os))).
Proof. exact (average_main xr yr flt c0 c1 c2 c3 os sc x y lo hi). Qed.
Print Assumptions C30_average.
(** any filter, including those with negative lobes *)
Theorem C30_any_filter (xr yr : Z) (flt : filt) (c0 c1 c2 c3 : R) (os : list film_op) (sc : R) (x y : Z) :
  0 < f_xw flt -> 0 < f_yw flt ->
  let f := film_make xr yr flt c0 c1 c2 c3 in
  in_film f x y -> total_weight flt x y os <> 0 ->
  exists g, run_ops f os = Ok g /\
    let avg := vscale (/ total_weight flt x y os) (weighted_sum flt x y os) in
    vclose (1e-6 * vabs1 avg + Rabs sc * (1e-6 * vabs1 (splat_sum x y os)))
      (nth (Z.to_nat (x - xstart f)) (nth (Z.to_nat (y - ystart f)) (film_rgb g sc) []) vzero)
      (vadd (vmap (Rmax 0) avg) (vscale sc (splat_sum x y os))).
Proof. exact (reconstruct xr yr flt c0 c1 c2 c3 os sc x y). Qed.
Print Assumptions C30_any_filter.
Example C30_ex : let flt := box_filter 1 1 in
  0 < total_weight flt 0 0 [Add (1/2) (1/2) (mkV 1 1 1); Add 1 1 (mkV 3 1 1); Add 9 9 (mkV 100 0 0)].
Proof.
  unfold total_weight; cbn [map op_weight rsum].
  replace (coversb _ (1/2) (1/2) 0 0) with true by (symmetry; apply coversb_spec; split; cbn; apply Rabs_le; lra).
  replace (coversb _ 1 1 0 0) with true by (symmetry; apply coversb_spec; split; cbn; apply Rabs_le; lra).
  unfold tab_weight; cbn. destruct (coversb _ 9 9 0 0); lra.
Qed.

(** C31: square images, or crops that start at the top *)
Theorem C31_crop_partial (xr yr : Z) (flt : filt) (c0 c1 c2 c3 : R) (x y : Z) :
  (Zceil (IZR xr * c0) < Zceil (IZR xr * c1))%Z -> (Zceil (IZR yr * c2) < Zceil (IZR yr * c3))%Z ->
  xr = yr \/ c2 = 0 ->
  in_film (film_make xr yr flt c0 c1 c2 c3) x y <->
    (IZR xr * c0 <= IZR x < IZR xr * c1 /\ IZR yr * c2 <= IZR y < IZR yr * c3).
Proof. exact (crop_window xr yr flt c0 c1 c2 c3 x y). Qed.
Print Assumptions C31_crop_partial.
Theorem C201_nonempty (xr yr : Z) (flt : filt) (c0 c1 c2 c3 : R) :
  let f := film_make xr yr flt c0 c1 c2 c3 in
  (1 <= xcnt f)%Z /\ (1 <= ycnt f)%Z /\
  get_pixel_extent f = (xstart f, (xstart f + xcnt f)%Z, ystart f, (ystart f + ycnt f)%Z).
Proof. exact (crop_min xr yr flt c0 c1 c2 c3). Qed.
Print Assumptions C201_nonempty.
Theorem C201_sample_extent (f : film) (sx sy : R) (x y : Z) : in_film f x y -> covers (ffilt f) sx sy x y ->
  let '(a, b, c, d) := get_sample_extent f in (a <= Zfloor sx < b)%Z /\ (c <= Zfloor sy < d)%Z.
Proof. exact (extent_covers f sx sy x y). Qed.
Print Assumptions C201_sample_extent.
(** 4x2 image, lower half: the film covers row 2, which the image does not have, and not row 1 *)
Theorem C31_vertical_crop_refuted : let f := film_make 4 2 (box_filter (/2) (/2)) 0 1 (/2) 1 in
  in_film f 0 2 /\ ~ in_film f 0 1.
Proof. exact crop_bad. Qed.
Print Assumptions C31_vertical_crop_refuted.

(** C32 *)
Theorem C32_filters (xw yw a B C t : R) :
  even_kernel (box_filter xw yw) /\ even_kernel (triangle_filter xw yw) /\ even_kernel (gaussian_filter xw yw a) /\
  even_kernel (mitchell_filter B C xw yw) /\ even_kernel (lanczos_filter xw yw t) /\
  (forall x y, 0 <= f_eval (box_filter xw yw) x y /\ 0 <= f_eval (triangle_filter xw yw) x y /\
     0 <= f_eval (gaussian_filter xw yw a) x y) /\
  (forall x y, 0 <= a -> 0 < xw -> 0 < yw -> xw <= Rabs x \/ yw <= Rabs y ->
     f_eval (triangle_filter xw yw) x y = 0 /\ f_eval (gaussian_filter xw yw a) x y = 0) /\
  (forall x y, 0 < xw -> 0 < yw -> xw < Rabs x \/ yw < Rabs y -> f_eval (lanczos_filter xw yw t) x y = 0).
Proof. exact (filters_main xw yw a B C t). Qed.
Print Assumptions C32_filters.
Theorem C32_mitchell_unity (B C t : R) : 0 <= t <= 1 ->
  mitchell B C ((t - 2) * (1 / 2)) + mitchell B C ((t - 1) * (1 / 2)) + mitchell B C (t * (1 / 2)) + mitchell B C ((t + 1) * (1 / 2)) = 1
  /\ mitchell B C 1 = 0 /\ mitchell B C (-1) = 0.
Proof. intros H. exact (conj (mitchell_unity B C t H) (mitchell_edge B C)). Qed.
Print Assumptions C32_mitchell_unity.

(** C65: bytes *)
Theorem C204_bytes (img : list (list vec)) : nonneg_img img ->
  (forall b, In b (concat (to_bytes img)) -> byte (vx b) /\ byte (vy b) /\ byte (vz b)) /\
  (forall ch : vec -> R, ch = vx \/ ch = vy \/ ch = vz ->
     let out v := Ztrunc (norm_chan (chan_max ch img) (ch v)) in
     (forall u v, In u (concat img) -> In v (concat img) -> ch u <= ch v -> (out u <= out v)%Z) /\
     ((exists w, In w (concat img) /\ 0 < ch w) ->
        exists v, In v (concat img) /\ (forall w, In w (concat img) -> ch w <= ch v) /\ out v = 255%Z)).
Proof. exact (bytes_main img). Qed.
Print Assumptions C204_bytes.
Example C65_ex : nonneg_img [[mkV 1 2 0]; [mkV 0 3 0]].
Proof. intros v [<-|[<-|[]]]; unfold vle; cbn; lra. Qed.
Theorem C65_hue_refuted : exists img u, In u (concat img) /\ nonneg_img img /\ vx u = 2 * vy u /\ 0 < vy u /\
  In (mkV 255%Z 255%Z 0%Z) (concat (to_bytes img)) /\ length (concat img) = 1%nat.
Proof. exact hue_bad. Qed.
Print Assumptions C65_hue_refuted.
(** a cropped render is never written into the existing image: a crop of one pixel changes nothing, every other raises ValueError *)
Theorem C65_crop_refuted (xRes yRes xF yF xo yo H W : Z) :
  (1 <= xRes)%Z -> (1 <= yRes)%Z -> (0 <= xo)%Z -> (0 <= yo)%Z -> (0 <= H)%Z -> (0 <= W)%Z ->
  ~ (xRes = xF /\ yRes = yF) ->
  write_image xRes yRes xF yF xo yo H W = if (xRes =? 1)%Z && (yRes =? 1)%Z then Ok (UpdatedRegion 0 0) else Err ValueError.
Proof. exact (crop_write xRes yRes xF yF xo yo H W). Qed.
(** full-size images are written whole *)
Example C65_crop_ex : write_image 4 3 4 3 0 0 9 9 = Ok WholeImage. Proof. reflexivity. Qed.
Print Assumptions C65_crop_refuted.
