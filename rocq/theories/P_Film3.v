(** Film properties in the form used by Props_Film.v. *)
From Coq Require Import Reals Lra Lia List ZArith Bool Permutation.
From Verif Require Import Base M_Film S_Film P_Film P_Film2 M_FilmThreads P_FilmThreads P_FilmThreads2.
Import ListNotations.
Open Scope R_scope.

Lemma footprint xr yr flt c0 c1 c2 c3 os sx sy L : 0 < f_xw flt -> 0 < f_yw flt ->
  exists f g, run_ops (film_make xr yr flt c0 c1 c2 c3) os = Ok f /\ add_sample f sx sy L = Ok g /\
    get_pixel_extent g = get_pixel_extent f /\
    forall x y, in_film f x y ->
      (covers flt sx sy x y -> let w := tab_weight flt sx sy x y in
         pix g x y = mkP (vadd (pL (pix f x y)) (vscale w (rgb2xyz L))) (pS (pix f x y)) (pW (pix f x y) + w)) /\
      (~ covers flt sx sy x y -> pix g x y = pix f x y).
Proof.
  intros HX HY. set (f0 := film_make xr yr flt c0 c1 c2 c3). pose proof (wf_make xr yr flt c0 c1 c2 c3) as W. fold f0 in W.
  destruct (run_ops_ok os f0 W HX HY) as (f&F&WF&SF&_).
  assert (FF : ffilt f = flt) by apply SF.
  destruct (add_sample_ok f sx sy L WF) as (g&G&WG&SG&P); try now rewrite FF.
  exists f, g. split; auto. split; auto. split.
  { unfold get_pixel_extent. destruct SG as (->&->&->&->&_). reflexivity. }
  intros x y HI. specialize (P x y HI). rewrite FF in P. exact P.
Qed.
(** every table index the sample uses is valid *)
Lemma table_in_range f sx sy x y :
  (0 <= tindex y (sy - /2) (f_yw (ffilt f)) <= 15)%Z /\ (0 <= tindex x (sx - /2) (f_xw (ffilt f)) <= 15)%Z /\
  length (make_table (ffilt f)) = 16%nat /\ (forall r, In r (make_table (ffilt f)) -> length r = 16%nat).
Proof.
  split; [apply tindex_range|]. split; [apply tindex_range|]. split; [reflexivity|].
  intros r H. unfold make_table in H. apply in_map_iff in H. destruct H as (k&<-&_). rewrite map_length, seq_length. reflexivity.
Qed.
Lemma order_main xr yr flt c0 c1 c2 c3 os os' : 0 < f_xw flt -> 0 < f_yw flt -> Permutation os os' ->
  exists g, run_ops (film_make xr yr flt c0 c1 c2 c3) os = Ok g /\ run_ops (film_make xr yr flt c0 c1 c2 c3) os' = Ok g.
Proof. intros HX HY. apply order_irrelevant; auto. apply wf_make. Qed.
Lemma nonneg_weight flt x y o : (forall a b, 0 <= f_eval flt a b) -> 0 <= op_weight flt x y o.
Proof. intros H. destruct o; cbn; [destruct (coversb _ _ _ _ _); [apply H|]|]; lra. Qed.
Lemma average_main xr yr flt c0 c1 c2 c3 os sc x y lo hi :
  0 < f_xw flt -> 0 < f_yw flt -> (forall a b, 0 <= f_eval flt a b) ->
  let f := film_make xr yr flt c0 c1 c2 c3 in
  in_film f x y -> 0 < total_weight flt x y os ->
  (forall sx sy L, In (Add sx sy L) os -> covers flt sx sy x y -> vle lo L /\ vle L hi) ->
  exists g avg, run_ops f os = Ok g /\ vscale (total_weight flt x y os) avg = weighted_sum flt x y os /\
    vle lo avg /\ vle avg hi /\
    vclose (1e-6 * vabs1 avg + Rabs sc * (1e-6 * vabs1 (splat_sum x y os)))
      (nth (Z.to_nat (x - xstart f)) (nth (Z.to_nat (y - ystart f)) (film_rgb g sc) []) vzero)
      (vadd (vmap (Rmax 0) avg) (vscale sc (splat_sum x y os))).
Proof.
  intros HX HY NN f HI TW BD.
  destruct (reconstruct xr yr flt c0 c1 c2 c3 os sc x y HX HY HI ltac:(lra)) as (g&G&V).
  exists g. eexists. split; [exact G|]. split; [|].
  2: { rewrite <- and_assoc. split; [|exact V]. apply avg_bounds; auto; [intros; now apply nonneg_weight|].
    intros o HO NZ. destruct o as [sx sy L|sx sy L]; [|cbn in NZ; congruence]. cbn in NZ.
    destruct (coversb flt sx sy x y) eqn:C; [|congruence]. apply coversb_spec in C. cbn. eauto. }
  apply V3_eq; unfold vscale; cbn; field; lra.
Qed.
Lemma filters_main (xw yw a B C t : R) :
  even_kernel (box_filter xw yw) /\ even_kernel (triangle_filter xw yw) /\ even_kernel (gaussian_filter xw yw a) /\
  even_kernel (mitchell_filter B C xw yw) /\ even_kernel (lanczos_filter xw yw t) /\
  (forall x y, 0 <= f_eval (box_filter xw yw) x y /\ 0 <= f_eval (triangle_filter xw yw) x y /\
     0 <= f_eval (gaussian_filter xw yw a) x y) /\
  (forall x y, 0 <= a -> 0 < xw -> 0 < yw -> xw <= Rabs x \/ yw <= Rabs y ->
     f_eval (triangle_filter xw yw) x y = 0 /\ f_eval (gaussian_filter xw yw a) x y = 0) /\
  (forall x y, 0 < xw -> 0 < yw -> xw < Rabs x \/ yw < Rabs y -> f_eval (lanczos_filter xw yw t) x y = 0).
Proof.
  destruct (filters_even xw yw a B C t) as (E1&E2&E3&E4&E5). repeat (split; [assumption|]).
  split; [intros; apply filters_nonneg|]. split; intros; [now apply filters_support|now apply lanczos_support].
Qed.
Lemma bytes_main img : nonneg_img img ->
  (forall b, In b (concat (to_bytes img)) -> byte (vx b) /\ byte (vy b) /\ byte (vz b)) /\
  (forall ch : vec -> R, ch = vx \/ ch = vy \/ ch = vz ->
     let out v := Ztrunc (norm_chan (chan_max ch img) (ch v)) in
     (forall u v, In u (concat img) -> In v (concat img) -> ch u <= ch v -> (out u <= out v)%Z) /\
     ((exists w, In w (concat img) /\ 0 < ch w) ->
        exists v, In v (concat img) /\ (forall w, In w (concat img) -> ch w <= ch v) /\ out v = 255%Z)).
Proof.
  intros NN. split; [now apply to_bytes_range|]. intros ch HC out.
  assert (P : forall w, In w (concat img) -> 0 <= ch w).
  { intros w HW. destruct (NN w HW) as (A&B&D). destruct HC as [->|[->| ->]]; assumption. }
  split; [intros; now apply norm_mono|]. intros. now apply brightest_255.
Qed.
(** channels are scaled independently, so hue is not preserved *)
Lemma hue_bad : exists img u, In u (concat img) /\ nonneg_img img /\ vx u = 2 * vy u /\ 0 < vy u /\
  In (mkV 255%Z 255%Z 0%Z) (concat (to_bytes img)) /\ length (concat img) = 1%nat.
Proof.
  exists [[mkV 2 1 0]], (mkV 2 1 0). split; [now left|]. split; [intros v [<-|[]]; unfold vle; cbn; lra|].
  cbn [vx vy]. split; [lra|]. split; [lra|]. split; [|reflexivity]. left. cbn [to_bytes map concat app]. unfold chan_max; cbn [concat map app rmax_list vx vy vz].
  unfold norm_chan.
  replace (Reqb 2 0) with false by (symmetry; apply Reqb_false; lra).
  replace (Reqb 1 0) with false by (symmetry; apply Reqb_false; lra).
  replace (Reqb 0 0) with true by (symmetry; apply Reqb_true; lra). cbn [negb].
  replace (255 * 2 / 2) with (IZR 255) by field. replace (255 * 1 / 1) with (IZR 255) by field.
  rewrite !Ztrunc_nonneg by lra. replace 0 with (IZR 0) by auto. rewrite !Zfloor_IZR. reflexivity.
Qed.
