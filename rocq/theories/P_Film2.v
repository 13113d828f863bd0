(** Proofs about reconstruction, crop windows, filters and image output. *)
From Coq Require Import Reals Lra Lia List ZArith Bool Permutation Psatz.
From Verif Require Import Base M_Film S_Film P_Film.
Import ListNotations.
Open Scope R_scope.

(** *** colour round trip *)
Lemma round_trip v : vclose (2e-6 * vabs1 v) (xyz2rgb (rgb2xyz v)) v.
Proof.
  unfold vclose, vabs1, xyz2rgb, rgb2xyz; cbn.
  destruct v as [r g b]; cbn.
  pose proof (Rle_abs r). pose proof (Rle_abs (-r)) as Hr. rewrite Rabs_Ropp in Hr.
  pose proof (Rle_abs g). pose proof (Rle_abs (-g)) as Hg. rewrite Rabs_Ropp in Hg.
  pose proof (Rle_abs b). pose proof (Rle_abs (-b)) as Hb. rewrite Rabs_Ropp in Hb.
  repeat split; apply Rabs_le; lra.
Qed.

Lemma round_trip6 v : vclose (1e-6 * vabs1 v) (xyz2rgb (rgb2xyz v)) v.
Proof.
  unfold vclose, vabs1, xyz2rgb, rgb2xyz; cbn.
  destruct v as [r g b]; cbn.
  pose proof (Rle_abs r). pose proof (Rle_abs (-r)) as Hr. rewrite Rabs_Ropp in Hr.
  pose proof (Rle_abs g). pose proof (Rle_abs (-g)) as Hg. rewrite Rabs_Ropp in Hg.
  pose proof (Rle_abs b). pose proof (Rle_abs (-b)) as Hb. rewrite Rabs_Ropp in Hb.
  repeat split; apply Rabs_le; lra.
Qed.

(** *** reconstruction *)
Lemma film_rgb_nth g sc x y : wf g -> in_film g x y ->
  nth (Z.to_nat (x - xstart g)) (nth (Z.to_nat (y - ystart g)) (film_rgb g sc) []) vzero = pixel_rgb sc (pix g x y).
Proof.
  intros [WX WY WT WP] [HX HY]. unfold film_rgb.
  set (row := fun y => map _ _).
  rewrite (nth_indep _ [] (row 0%nat)) by (rewrite map_length, seq_length; lia).
  rewrite (map_nth row), seq_nth by lia. unfold row.
  set (h := fun x => pixel_rgb sc _).
  rewrite (nth_indep _ vzero (h 0%nat)) by (rewrite map_length, seq_length; lia).
  rewrite (map_nth h), seq_nth by lia. reflexivity.
Qed.
Lemma Rmax_close e a b : Rabs (a - b) <= e -> Rabs (Rmax 0 a - Rmax 0 b) <= e.
Proof. unfold Rabs, Rmax; repeat destruct Rcase_abs; repeat destruct Rle_dec; lra. Qed.
Lemma xyz2rgb_scale k v : xyz2rgb (vscale k v) = vscale k (xyz2rgb v).
Proof. apply V3_eq; unfold xyz2rgb, vscale; cbn; ring. Qed.
Lemma vclose_scale e k u v : vclose e u v -> vclose (Rabs k * e) (vscale k u) (vscale k v).
Proof.
  unfold vclose, vscale; cbn. rewrite <- !Rmult_minus_distr_l, !Rabs_mult.
  pose proof (Rabs_pos k). intros (A&B&C). repeat split; apply Rmult_le_compat_l; auto.
Qed.
Lemma vclose_add e e' u v u' v' : vclose e u v -> vclose e' u' v' -> vclose (e + e') (vadd u u') (vadd v v').
Proof.
  assert (H : forall a b c d x y, Rabs (a - b) <= x -> Rabs (c - d) <= y -> Rabs (a + c - (b + d)) <= x + y).
  { intros. replace (a + c - (b + d)) with ((a - b) + (c - d)) by ring.
    eapply Rle_trans; [apply Rabs_triang|lra]. }
  unfold vclose, vadd; cbn. intros (A&B&C) (A'&B'&C'). auto.
Qed.

Lemma reconstruct xr yr flt c0 c1 c2 c3 os sc x y : 0 < f_xw flt -> 0 < f_yw flt ->
  let f := film_make xr yr flt c0 c1 c2 c3 in
  in_film f x y -> total_weight flt x y os <> 0 ->
  exists g, run_ops f os = Ok g /\
    let avg := vscale (/ total_weight flt x y os) (weighted_sum flt x y os) in
    vclose (1e-6 * vabs1 avg + Rabs sc * (1e-6 * vabs1 (splat_sum x y os)))
      (nth (Z.to_nat (x - xstart f)) (nth (Z.to_nat (y - ystart f)) (film_rgb g sc) []) vzero)
      (vadd (vmap (Rmax 0) avg) (vscale sc (splat_sum x y os))).
Proof.
  intros HX HY f HI HW. pose proof (wf_make xr yr flt c0 c1 c2 c3) as W. fold f in W.
  destruct (run_ops_ok os f W HX HY) as (g&G&WG&SG&P). exists g. split; auto.
  destruct (P x y HI) as (A&B&C). assert (PX : pix f x y = pixel0) by (apply make_pix; exact HI). rewrite PX in A, B, C. cbn [pL pS pW pixel0] in A, B, C.
  rewrite vadd_0_l in A, B. rewrite Rplus_0_l in C. change (ffilt f) with flt in A, B, C.
  assert (XS : xstart f = xstart g) by (symmetry; apply SG). assert (YS : ystart f = ystart g) by (symmetry; apply SG).
  rewrite XS, YS. rewrite film_rgb_nth by (auto; now apply (same_in f g)).
  unfold pixel_rgb. rewrite A, B, C.
  replace (Reqb (total_weight flt x y os) 0) with false by (symmetry; now apply Reqb_false). cbn [negb].
  set (w := total_weight flt x y os) in *. set (s := weighted_sum flt x y os). cbv zeta. set (avg := vscale (/ w) s).
  apply vclose_add; [|apply vclose_scale, round_trip6].
  assert (E : vmap (fun a => Rmax 0 (a / w)) (xyz2rgb (rgb2xyz s)) = vmap (Rmax 0) (xyz2rgb (rgb2xyz avg))).
  { unfold avg. rewrite rgb2xyz_scale, xyz2rgb_scale. unfold vmap, vscale; cbn [vx vy vz].
    apply V3_eq; cbn; f_equal; unfold Rdiv; ring. }
  rewrite E. pose proof (round_trip6 avg) as (R1&R2&R3).
  unfold vclose, vmap; cbn. repeat split; now apply Rmax_close.
Qed.

Lemma avg_bounds flt x y os lo hi :
  (forall o, In o os -> 0 <= op_weight flt x y o) -> 0 < total_weight flt x y os ->
  (forall o, In o os -> op_weight flt x y o <> 0 -> vle lo (op_rad o) /\ vle (op_rad o) hi) ->
  let avg := vscale (/ total_weight flt x y os) (weighted_sum flt x y os) in vle lo avg /\ vle avg hi.
Proof.
  intros NN TW BD avg.
  assert (CH : forall ch : vec -> R, ch vzero = 0 -> (forall u v, ch (vadd u v) = ch u + ch v) -> (forall k u, ch (vscale k u) = k * ch u) ->
     (forall u v, vle u v -> ch u <= ch v) -> ch lo <= ch avg <= ch hi).
  { intros ch C0 CA CS CM.
    assert (S : forall l, (forall o, In o l -> 0 <= op_weight flt x y o) ->
       (forall o, In o l -> op_weight flt x y o <> 0 -> vle lo (op_rad o) /\ vle (op_rad o) hi) ->
       ch lo * total_weight flt x y l <= ch (weighted_sum flt x y l) <= ch hi * total_weight flt x y l).
    { unfold total_weight, weighted_sum. induction l as [|o l IH]; intros H1 H2; cbn [map vsum rsum].
      - rewrite C0. lra.
      - rewrite CA, CS. destruct IH as [I1 I2]; [intros; apply H1; now right|intros; apply H2; auto; now right|].
        assert (Q : ch lo * op_weight flt x y o <= op_weight flt x y o * ch (op_rad o) <= ch hi * op_weight flt x y o).
        { destruct (Req_dec (op_weight flt x y o) 0) as [->|N]; [lra|].
          destruct (H2 o (or_introl eq_refl) N) as [L1 L2]. apply CM in L1, L2.
          specialize (H1 o (or_introl eq_refl)). nra. }
        lra. }
    destruct (S os NN BD) as [S1 S2]. unfold avg. rewrite CS.
    pose proof (Rinv_0_lt_compat _ TW) as IP.
    apply (Rmult_le_compat_l (/ total_weight flt x y os)) in S1, S2; try lra.
    replace (/ total_weight flt x y os * (ch lo * total_weight flt x y os)) with (ch lo) in S1 by (field; lra).
    replace (/ total_weight flt x y os * (ch hi * total_weight flt x y os)) with (ch hi) in S2 by (field; lra).
    lra. }
  pose proof (CH vx eq_refl (fun _ _ => eq_refl) (fun _ _ => eq_refl) (fun _ _ H => proj1 H)).
  pose proof (CH vy eq_refl (fun _ _ => eq_refl) (fun _ _ => eq_refl) (fun _ _ H => proj1 (proj2 H))).
  pose proof (CH vz eq_refl (fun _ _ => eq_refl) (fun _ _ => eq_refl) (fun _ _ H => proj2 (proj2 H))).
  unfold vle. tauto.
Qed.

(** *** crop windows *)
Lemma ceil_window a b (x : Z) : (Zceil a <= x < Zceil b)%Z <-> a <= IZR x < b.
Proof.
  split.
  - intros [A B]. split.
    + destruct (Zceil_spec a) as [_ H]. apply IZR_le in A. lra.
    + apply Rnot_le_lt. intros H. apply Zceil_le in H. lia.
  - intros [A B]. split; [now apply Zceil_le|now apply Zceil_gt].
Qed.
Lemma crop_window xr yr flt c0 c1 c2 c3 x y :
  (Zceil (IZR xr * c0) < Zceil (IZR xr * c1))%Z -> (Zceil (IZR yr * c2) < Zceil (IZR yr * c3))%Z ->
  xr = yr \/ c2 = 0 ->
  in_film (film_make xr yr flt c0 c1 c2 c3) x y <->
    (IZR xr * c0 <= IZR x < IZR xr * c1 /\ IZR yr * c2 <= IZR y < IZR yr * c3).
Proof.
  intros HX HY HC. unfold in_film, film_make; cbn [xstart xcnt ystart ycnt].
  assert (E : Zceil (IZR xr * c2) = Zceil (IZR yr * c2)) by (destruct HC as [->| ->]; rewrite ?Rmult_0_r; auto).
  rewrite E, <- !ceil_window. lia.
Qed.
Lemma crop_min xr yr flt c0 c1 c2 c3 : let f := film_make xr yr flt c0 c1 c2 c3 in
  (1 <= xcnt f)%Z /\ (1 <= ycnt f)%Z /\
  get_pixel_extent f = (xstart f, (xstart f + xcnt f)%Z, ystart f, (ystart f + ycnt f)%Z).
Proof. cbn. split; [lia|]. split; [lia|]. reflexivity. Qed.
Lemma crop_bad : let f := film_make 4 2 (box_filter (/2) (/2)) 0 1 (/2) 1 in
  in_film f 0 2 /\ ~ in_film f 0 1.
Proof.
  unfold in_film, film_make; cbn [xstart xcnt ystart ycnt].
  replace (4 * 0) with (IZR 0) by lra. replace (4 * 1) with (IZR 4) by lra. replace (4 * /2) with (IZR 2) by lra.
  replace (2 * 1) with (IZR 2) by lra. rewrite !Zceil_IZR. lia.
Qed.
Lemma extent_covers f sx sy x y : in_film f x y -> covers (ffilt f) sx sy x y ->
  let '(a, b, c, d) := get_sample_extent f in (a <= Zfloor sx < b)%Z /\ (c <= Zfloor sy < d)%Z.
Proof.
  intros [HX HY] [CX CY]. unfold get_sample_extent.
  assert (AX : forall (st cnt p : Z) (s w : R), (st <= p < st + cnt)%Z -> Rabs (IZR p + /2 - s) <= w ->
     (Zfloor (IZR st + / 2 - w) <= Zfloor s < Zfloor (IZR st + / 2 + IZR cnt + w))%Z).
  { intros st cnt p s w H A. assert (- w <= IZR p + /2 - s <= w) by (unfold Rabs in A; destruct Rcase_abs; lra).
    assert (IZR st <= IZR p) by (apply IZR_le; lia). assert (IZR p + 1 <= IZR st + IZR cnt) by (rewrite <- !plus_IZR; apply IZR_le; lia).
    split; [apply Zfloor_mono; lra|].
    assert (Zfloor s + 1 <= Zfloor (IZR st + / 2 + IZR cnt + w))%Z; [|lia].
    apply Zfloor_ge. rewrite plus_IZR. destruct (Zfloor_spec s). lra. }
  split; eapply AX; eauto.
Qed.

(** *** filters *)
Lemma gaussian_even a d e : gaussian a (- d) e = gaussian a d e.
Proof. unfold gaussian. replace (- a * - d * - d) with (- a * d * d) by ring. reflexivity. Qed.
Lemma gaussian_nonneg a d e : 0 <= gaussian a d e.
Proof. apply Rmax_l. Qed.
Lemma gaussian_out a d w : 0 <= a -> 0 <= w <= Rabs d -> gaussian a d (exp (- a * w * w)) = 0.
Proof.
  intros Ha H. unfold gaussian. apply Rmax_left.
  assert (w * w <= d * d).
  { replace (d * d) with (Rabs d * Rabs d) by (rewrite <- Rabs_mult; apply Rabs_right; nra). nra. }
  assert (E : exp (- a * d * d) <= exp (- a * w * w)); [|lra].
  destruct (Req_dec (- a * d * d) (- a * w * w)) as [->|N]; [lra|]. apply Rlt_le, exp_increasing. nra.
Qed.
Lemma tri_out w x : w <= Rabs x -> Rmax 0 (w - Rabs x) = 0.
Proof. intros. apply Rmax_left. lra. Qed.
Lemma mitchell_even B C x : mitchell B C (- x) = mitchell B C x.
Proof. unfold mitchell. replace (2 * - x) with (- (2 * x)) by ring. rewrite Rabs_Ropp. reflexivity. Qed.
Lemma lanczos_even t x : lanczos t (- x) = lanczos t x.
Proof. unfold lanczos. now rewrite Rabs_Ropp. Qed.

Lemma filters_even xw yw a B C t :
  even_kernel (box_filter xw yw) /\ even_kernel (triangle_filter xw yw) /\ even_kernel (gaussian_filter xw yw a) /\
  even_kernel (mitchell_filter B C xw yw) /\ even_kernel (lanczos_filter xw yw t).
Proof.
  unfold even_kernel; repeat split; cbn [f_eval box_filter triangle_filter gaussian_filter mitchell_filter lanczos_filter];
    rewrite ?Rabs_Ropp, ?gaussian_even, ?Ropp_mult_distr_l_reverse, ?mitchell_even, ?lanczos_even; auto.
Qed.
Lemma filters_nonneg xw yw a x y :
  0 <= f_eval (box_filter xw yw) x y /\ 0 <= f_eval (triangle_filter xw yw) x y /\ 0 <= f_eval (gaussian_filter xw yw a) x y.
Proof.
  cbn [f_eval box_filter triangle_filter gaussian_filter]. split; [lra|]. split; apply Rmult_le_pos; try apply gaussian_nonneg; apply Rmax_l.
Qed.
Lemma filters_support xw yw a x y : 0 <= a -> 0 < xw -> 0 < yw -> xw <= Rabs x \/ yw <= Rabs y ->
  f_eval (triangle_filter xw yw) x y = 0 /\ f_eval (gaussian_filter xw yw a) x y = 0.
Proof.
  intros Ha HX HY [H|H]; cbn [f_eval triangle_filter gaussian_filter];
    rewrite (tri_out _ _ H);
    [rewrite (gaussian_out a x xw) by (auto; lra)|rewrite (gaussian_out a y yw) by (auto; lra)]; split; ring.
Qed.
Lemma lanczos_out t x : 1 < Rabs x -> lanczos t x = 0.
Proof.
  intros H. unfold lanczos. pose proof EPS_pos. Rcase; unfold EPS in *; try lra; auto.
Qed.
Lemma lanczos_support xw yw t x y : 0 < xw -> 0 < yw -> xw < Rabs x \/ yw < Rabs y -> f_eval (lanczos_filter xw yw t) x y = 0.
Proof.
  intros HX HY H. cbn [f_eval lanczos_filter].
  assert (Q : forall w z, 0 < w -> w < Rabs z -> 1 < Rabs (z * (1 / w))).
  { intros w z Hw Hz. rewrite Rabs_mult, (Rabs_right (1 / w)).
    - apply Rmult_lt_reg_r with w; auto. replace (Rabs z * (1 / w) * w) with (Rabs z) by (field; lra). lra.
    - apply Rle_ge, Rlt_le, Rdiv_lt_0_compat; lra. }
  destruct H as [H|H]; [rewrite (lanczos_out t (x * (1 / xw))) by auto|rewrite (lanczos_out t (y * (1 / yw))) by auto]; ring.
Qed.
(** Mitchell with half-width 2: the weights of unit-spaced samples add up to 1 *)
Lemma mitchell_unity B C t : 0 <= t <= 1 ->
  mitchell B C ((t - 2) * (1 / 2)) + mitchell B C ((t - 1) * (1 / 2)) + mitchell B C (t * (1 / 2)) + mitchell B C ((t + 1) * (1 / 2)) = 1.
Proof.
  intros H. unfold mitchell.
  replace (Rabs (2 * ((t - 2) * (1 / 2)))) with (2 - t) by (rewrite Rabs_left1; lra).
  replace (Rabs (2 * ((t - 1) * (1 / 2)))) with (1 - t) by (rewrite Rabs_left1; lra).
  replace (Rabs (2 * (t * (1 / 2)))) with t by (rewrite Rabs_right; lra).
  replace (Rabs (2 * ((t + 1) * (1 / 2)))) with (t + 1) by (rewrite Rabs_right; lra).
  Rcase; try lra; try solve [field].
  all: first [assert (t = 0) by lra; subst t | assert (t = 1) by lra; subst t].
  all: try lra.
  all: try field.
Qed.
Lemma mitchell_edge B C : mitchell B C 1 = 0 /\ mitchell B C (-1) = 0.
Proof. split; unfold mitchell; [rewrite Rabs_right by lra|rewrite Rabs_left by lra]; Rcase; try lra; field. Qed.

(** *** image output *)
Lemma rmax_list_ge l : forall d, d <= rmax_list d l /\ forall x, In x l -> x <= rmax_list d l.
Proof.
  induction l as [|a l IH]; intros d; cbn; [split; [lra|tauto]|].
  destruct (IH (Rmax d a)) as [A B]. pose proof (Rmax_l d a). pose proof (Rmax_r d a). split; [lra|].
  intros x [->|HI]; [lra|auto].
Qed.
Lemma rmax_list_in l : forall d, In (rmax_list d l) (d :: l).
Proof.
  induction l as [|a l IH]; intros d; cbn [rmax_list]; [now left|].
  destruct (IH (Rmax d a)) as [E|H].
  - unfold Rmax in E at 1. destruct Rle_dec; [right; left|left]; auto.
  - right; now right.
Qed.
Lemma chan_max_ge ch img v : In v (concat img) -> ch v <= chan_max ch img.
Proof.
  intros H. unfold chan_max. apply (in_map ch) in H. destruct (map ch (concat img)) as [|a l]; [contradiction|].
  destruct (rmax_list_ge l a) as [A B]. destruct H as [<-|H]; auto.
Qed.
Lemma chan_max_in ch img : concat img <> [] -> exists v, In v (concat img) /\ ch v = chan_max ch img.
Proof.
  intros H. unfold chan_max. destruct (concat img) as [|a l] eqn:E; [congruence|]. cbn [map].
  destruct (rmax_list_in (map ch l) (ch a)) as [<-|HI].
  - exists a. split; [now left|auto].
  - apply in_map_iff in HI. destruct HI as (v&E'&HI). exists v. split; [now right|auto].
Qed.
Lemma norm_chan_range ch img v : (forall u, In u (concat img) -> 0 <= ch u) -> In v (concat img) ->
  0 <= norm_chan (chan_max ch img) (ch v) <= 255.
Proof.
  intros NN HI. pose proof (chan_max_ge ch img v HI) as M. pose proof (NN v HI) as P. unfold norm_chan.
  destruct (Reqb (chan_max ch img) 0) eqn:E; Rb; cbn [negb].
  - assert (ch v = 0) by lra. lra.
  - assert (0 < chan_max ch img) by lra. split.
    + apply Rmult_le_pos; [lra|]. apply Rlt_le, Rinv_0_lt_compat; auto.
    + apply Rmult_le_reg_r with (chan_max ch img); auto. unfold Rdiv. rewrite Rmult_assoc, Rinv_l by lra. nra.
Qed.
Lemma byte_range r : 0 <= r <= 255 -> (0 <= Ztrunc r <= 255)%Z.
Proof.
  intros. rewrite Ztrunc_nonneg by lra. split; [apply Zfloor_ge; lra|].
  assert (Zfloor r <= Zfloor (IZR 255))%Z by (apply Zfloor_mono; lra). now rewrite Zfloor_IZR in H0.
Qed.
Lemma to_bytes_range img : nonneg_img img ->
  forall b, In b (concat (to_bytes img)) -> byte (vx b) /\ byte (vy b) /\ byte (vz b).
Proof.
  intros NN b HB. unfold to_bytes in HB. rewrite concat_map in HB || rewrite <- concat_map in HB.
  apply in_map_iff in HB. destruct HB as (v&<-&HV). cbn. unfold byte.
  repeat split; apply byte_range, norm_chan_range; auto; intros u HU; apply NN; auto.
Qed.
Lemma norm_mono ch img u v : (forall w, In w (concat img) -> 0 <= ch w) -> In u (concat img) -> In v (concat img) ->
  ch u <= ch v -> (Ztrunc (norm_chan (chan_max ch img) (ch u)) <= Ztrunc (norm_chan (chan_max ch img) (ch v)))%Z.
Proof.
  intros NN HU HV L. pose proof (norm_chan_range ch img u NN HU). pose proof (norm_chan_range ch img v NN HV).
  rewrite !Ztrunc_nonneg by lra. apply Zfloor_mono. unfold norm_chan.
  pose proof (chan_max_ge ch img v HV). pose proof (NN v HV).
  destruct (Reqb (chan_max ch img) 0) eqn:E; Rb; cbn [negb]; auto.
  assert (0 < chan_max ch img) by lra. unfold Rdiv. apply Rmult_le_compat_r; [apply Rlt_le, Rinv_0_lt_compat; auto|nra].
Qed.
Lemma brightest_255 ch img : (forall w, In w (concat img) -> 0 <= ch w) -> 
  (exists w, In w (concat img) /\ 0 < ch w) ->
  exists v, In v (concat img) /\ (forall w, In w (concat img) -> ch w <= ch v) /\
    Ztrunc (norm_chan (chan_max ch img) (ch v)) = 255%Z.
Proof.
  intros NN (w&HW&P). destruct (chan_max_in ch img) as (v&HV&E); [intros Q; rewrite Q in HW; contradiction|].
  exists v. split; auto. split; [intros; rewrite E; now apply chan_max_ge|].
  pose proof (chan_max_ge ch img w HW). rewrite E. unfold norm_chan.
  replace (Reqb _ 0) with false by (symmetry; apply Reqb_false; lra). cbn [negb].
  replace (255 * chan_max ch img / chan_max ch img) with (IZR 255) by (field; lra).
  rewrite Ztrunc_nonneg by lra. apply Zfloor_IZR.
Qed.
Lemma crop_write xRes yRes xF yF xo yo H W : (1 <= xRes)%Z -> (1 <= yRes)%Z -> (0 <= xo)%Z -> (0 <= yo)%Z -> (0 <= H)%Z -> (0 <= W)%Z ->
  ~ (xRes = xF /\ yRes = yF) ->
  write_image xRes yRes xF yF xo yo H W = if (xRes =? 1)%Z && (yRes =? 1)%Z then Ok (UpdatedRegion 0 0) else Err ValueError.
Proof.
  intros. unfold write_image. destruct (Z.eqb_spec xRes xF), (Z.eqb_spec yRes yF); cbn [andb]; try tauto.
  all: unfold axis_fits, slice_len.
  all: destruct (Z.eqb_spec xRes 1), (Z.eqb_spec yRes 1).
  all: repeat match goal with |- context [(?a =? ?b)%Z] => destruct (Z.eqb_spec a b) end; cbn [orb andb]; auto.
  all: try (f_equal; f_equal; lia). all: exfalso; lia.
Qed.
