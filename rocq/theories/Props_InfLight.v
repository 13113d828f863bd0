(** Environment light: C190-C194.  Nothing here is vacuous: the hypotheses are only ranges of random numbers and a light
    which is not black. *)
From Coq Require Import Reals List Bool ZArith Lra Lia.
From Verif Require Import Base M_Geometry M_Transform M_MonteCarlo M_Utility M_Spectrum M_Film M_MipMap M_Light M_InfLight Props_Texture.
Import ListNotations.
Open Scope R_scope.

Lemma no_texels (file : option picture) : light_texels file = None.
Proof. destruct file as [[w h|w h c]|]; cbn; [reflexivity| |reflexivity]. destruct (negb (is_pow_2 w) || negb (is_pow_2 h)); reflexivity. Qed.
Lemma one_texel (x : R) : exists m, mip_make REPEAT false 8 true [[x]] = Ok m /\ forall s t width, look_up3 m s t width = Ok x.
Proof.
  apply (C57_constant REPEAT false 8 true [[x]] 1 1 x).
  - exists 0%Z. split; [lia|reflexivity].
  - exists 0%Z. split; [lia|reflexivity].
  - repeat constructor.
  - discriminate.
  - intros i j Hi Hj. assert (i = 0%Z) as -> by lia. assert (j = 0%Z) as -> by lia. reflexivity.
Qed.
Lemma inf_made (l2w : transform) (l : vec) (file : option picture) (px : Z -> Z -> vec) :
  exists m, inf_make l2w l file px = Ok (mkInf l2w m (dist2_make [[rgb_y l]])) /\
    forall s t width, look_up_rgb m s t width = Ok l.
Proof.
  destruct l as [r g b]. destruct (one_texel r) as (m1 & A1 & B1). destruct (one_texel g) as (m2 & A2 & B2). destruct (one_texel b) as (m3 & A3 & B3).
  exists (mkV m1 m2 m3).
  assert (L : forall s t width, look_up_rgb (mkV m1 m2 m3) s t width = Ok (mkV r g b)).
  { intros. unfold look_up_rgb. cbn [vx vy vz]. rewrite B1, B2, B3. reflexivity. }
  split; [|exact L].
  unfold inf_make, inf_texels. rewrite no_texels. unfold rad_map, chan. cbn [map vx vy vz]. rewrite A1, A2, A3. cbn [bind].
  unfold env_image. change (Zrange 0 1) with [0%Z]. cbn [mapM]. rewrite L. cbn [bind]. reflexivity.
Qed.

Lemma d1_one (y u : R) : 0 < y -> 0 <= u <= 1 -> dist1_cont (dist1_make [y]) u = Ok (Fin u, 1).
Proof.
  intros Y U. unfold dist1_cont, dist1_off, dist1_make. cbn [cum length last d_cdf d_func d_raw d_cnt map].
  replace (0 + y / INR 1) with y by (cbn; field). replace (y / y) with 1 by (field; lra). replace (0 / y) with 0 by (field; lra).
  assert (Q : pred (M_MonteCarlo.searchsorted [0; 1] u) = O).
  { cbn. destruct (Rltb 0 u); [|reflexivity]. destruct (Rltb 1 u) eqn:W; [apply Rltb_true in W; lra|reflexivity]. }
  rewrite Q. cbn [nth_res nth_error bind]. unfold nth_res. cbn [nth_error bind]. unfold edivz.
  assert (Reqb (1 - 0) 0 = false) as -> by (apply Reqb_false; lra).
  cbn [eadd emul bind]. unfold d_cnt. cbn [d_func length]. f_equal. f_equal; [|field; lra]. f_equal. cbn. field.
Qed.
Lemma raw_one (y : R) : d_raw (dist1_make [y]) = y.
Proof. cbn. field. Qed.
Lemma clip_index_1 (x : R) : clip_index x 1 = O.
Proof. unfold clip_index. assert (Z.min (Z.max (Zfloor x) 0) (Z.of_nat 1 - 1) = 0%Z) as -> by lia. reflexivity. Qed.
Lemma d2_one (y u0 u1 : R) : 0 < y -> 0 <= u0 <= 1 -> 0 <= u1 <= 1 -> dist2_cont (dist2_make [[y]]) u0 u1 = Ok (Fin u0, O, 1).
Proof.
  intros Y U0 U1. unfold dist2_cont, dist2_make. cbn [map d_marg d_cond]. rewrite raw_one, d1_one by assumption. cbn [bind].
  change (d_cnt (dist1_make [y])) with 1%nat. rewrite clip_index_1. unfold nth_res at 1. cbn [nth_error bind].
  rewrite d1_one by assumption. cbn [bind]. rewrite Rmult_1_l. reflexivity.
Qed.
Lemma d2_pdf_one (y u v : R) : 0 < y -> dist2_pdf (dist2_make [[y]]) u v = Ok 1.
Proof.
  intros Y. unfold dist2_pdf, dist2_make. cbn [map d_marg d_cond]. rewrite raw_one.
  change (d_cnt (dist1_make [y])) with 1%nat. unfold nth_res. cbn [nth_error bind]. change (d_cnt (dist1_make [y])) with 1%nat.
  rewrite !clip_index_1. cbn [nth_error bind]. rewrite raw_one.
  assert (Reqb (y * y) 0 = false) as -> by (apply Reqb_false; nra). cbn [d_func dist1_make nth_error bind]. f_equal. field. lra.
Qed.

(** C190: the environment picture.  Whatever file is named, and whatever its pixels, the light is the one built with no
    file at all: the picture is never shown.  (Building it does succeed, with the plain colour.) *)
Theorem C190_picture_ignored_refuted (l2w : transform) (l : vec) (pic : picture) (px : Z -> Z -> vec) :
  inf_make l2w l (Some pic) px = inf_make l2w l None px.
Proof. unfold inf_make, inf_texels. rewrite !no_texels. reflexivity. Qed.
Print Assumptions C190_picture_ignored_refuted.
Theorem C190_plain_colour_partial (l2w : transform) (l : vec) (file : option picture) (px : Z -> Z -> vec) :
  exists i, inf_make l2w l file px = Ok i /\ i_l2w i = l2w /\
    (forall s t width, look_up_rgb (i_map i) s t width = Ok l).
Proof. destruct (inf_made l2w l file px) as (m & H & L). eexists. split; [exact H|]. split; [reflexivity|exact L]. Qed.
Print Assumptions C190_plain_colour_partial.

(** C191: a ray leaving the scene should see the light's colour; asking for it raises, for every ray *)
Theorem C191_escaping_ray_refuted (i : inflight) (d : vec) : inf_le i d = Err TypeError.
Proof. reflexivity. Qed.
Print Assumptions C191_escaping_ray_refuted.

(** C192: directions sampled towards the light.  Every pair of random numbers gives the same direction, the light's own
    z axis, with density not a number.  What does hold: the colour, and the shadow ray starting at p along the direction
    without end. *)
Theorem C192_one_direction_refuted (l2w : transform) (l : vec) (file : option picture) (px : Z -> Z -> vec) (i : inflight) :
  0 < rgb_y l -> inf_make l2w l file px = Ok i ->
  forall u0 u1 p pEps time, 0 <= u0 <= 1 -> 0 <= u1 <= 1 ->
  exists s, inf_sample_l i u0 u1 p pEps time = Ok s /\ is_wi s = t_vector l2w (mkV 0 0 1) /\ is_pdf s = NaN.
Proof.
  intros Y H u0 u1 p pEps time U0 U1. destruct (inf_made l2w l file px) as (m & H' & L). rewrite H in H'. injection H' as ->.
  unfold inf_sample_l. cbn [i_dist i_map]. rewrite d2_one by assumption. cbn [bind]. rewrite L. cbn [bind].
  eexists. split; [reflexivity|]. cbn [is_wi is_pdf]. unfold inf_dir, inf_dir_pdf. cbn [i_l2w INR].
  rewrite !Rmult_0_l, sin_0, cos_0, !Rmult_0_l. split; [reflexivity|].
  assert (Reqb 0 0 = true) as -> by (apply Reqb_true; reflexivity). unfold edivz. rewrite Rmult_0_r.
  assert (Reqb 0 0 = true) as -> by (apply Reqb_true; reflexivity). reflexivity.
Qed.
Print Assumptions C192_one_direction_refuted.
Theorem C192_colour_partial (l2w : transform) (l : vec) (file : option picture) (px : Z -> Z -> vec) (i : inflight) :
  0 < rgb_y l -> inf_make l2w l file px = Ok i ->
  forall u0 u1 p pEps time, 0 <= u0 <= 1 -> 0 <= u1 <= 1 ->
  exists s, inf_sample_l i u0 u1 p pEps time = Ok s /\ is_L s = l /\
    is_vis s = mkLR p (is_wi s) pEps PInf 0 time.
Proof.
  intros Y H u0 u1 p pEps time U0 U1. destruct (inf_made l2w l file px) as (m & H' & L). rewrite H in H'. injection H' as ->.
  unfold inf_sample_l. cbn [i_dist i_map]. rewrite d2_one by assumption. cbn [bind]. rewrite L. cbn [bind].
  eexists. split; [reflexivity|]. cbn [is_L is_vis is_wi]. split; reflexivity.
Qed.
Print Assumptions C192_colour_partial.
Example C192_ex : 0 < rgb_y (mkV 1 1 1). Proof. unfold rgb_y; cbn; lra. Qed.

(** C193: the density of a direction.  Apart from the two poles it is 1 for every direction, so its integral over the
    sphere is 4 pi and not 1. *)
Theorem C193_density_refuted (l2w : transform) (l : vec) (file : option picture) (px : Z -> Z -> vec) (i : inflight) :
  0 < rgb_y l -> inf_make l2w l file px = Ok i ->
  forall w, sin (spherical_theta (t_vector (t_inverse l2w) w)) <> 0 -> inf_pdf i w = Ok 1.
Proof.
  intros Y H w W. destruct (inf_made l2w l file px) as (m & H' & L). rewrite H in H'. injection H' as ->.
  unfold inf_pdf. cbn [i_l2w i_dist]. destruct (Reqb _ 0) eqn:Q; [apply Reqb_true in Q; contradiction|]. apply d2_pdf_one; assumption.
Qed.
Print Assumptions C193_density_refuted.
Theorem C193_poles_partial (i : inflight) (w : vec) :
  sin (spherical_theta (t_vector (t_inverse (i_l2w i)) w)) = 0 -> inf_pdf i w = Ok 0.
Proof. intros W. unfold inf_pdf. rewrite W. assert (Reqb 0 0 = true) as -> by (apply Reqb_true; reflexivity). reflexivity. Qed.
Print Assumptions C193_poles_partial.

(** C194: emitting rays from the light and its power: both raise *)
Theorem C194_emission_refuted (l2w : transform) (l : vec) (file : option picture) (px : Z -> Z -> vec) (i : inflight) :
  0 < rgb_y l -> inf_make l2w l file px = Ok i ->
  (forall u0 u1, 0 <= u0 <= 1 -> 0 <= u1 <= 1 -> inf_sample_r i u0 u1 = Err AttributeError) /\ (forall rad, inf_power i rad = Err TypeError).
Proof.
  intros Y H. destruct (inf_made l2w l file px) as (m & H' & L). rewrite H in H'. injection H' as ->. split; [|reflexivity].
  intros u0 u1 U0 U1. unfold inf_sample_r. cbn [i_dist]. rewrite d2_one by assumption. cbn [bind].
  assert (Reqb 1 0 = false) as -> by (apply Reqb_false; lra). reflexivity.
Qed.
Print Assumptions C194_emission_refuted.
