(** Property theorems C151 and C152, values of the spherical mapping. *)
From Coq Require Import Reals Lra Lia List ZArith Bool.
From Verif Require Import Base M_Geometry S_Geometry P_Geometry M_Transform S_Transform M_Shapes P_Quadrics P_LobeSampling P_ShapesMore M_Texture.
Import ListNotations.
Open Scope R_scope.

(** C151: a point that the mapping's transform takes to distance d, polar angle a and azimuth b has the coordinates
    a/pi and b/(2 pi). *)
Theorem C151_values (w2t : transform) (g : dgeom) (d a b : R) : 0 < d -> 0 < a < PI -> 0 < b <= 2 * PI ->
  t_point w2t (dg_p g) = vscale d (mkV (sin a * cos b) (sin a * sin b) (cos a)) ->
  st_s (spherical_map w2t g) = a / PI /\ st_t (spherical_map w2t g) = b / (2 * PI).
Proof.
  intros D A B H. pose proof PI_RGT_0 as P. unfold spherical_map, sphere_st. cbn [st_s st_t]. rewrite H.
  set (w := mkV (sin a * cos b) (sin a * sin b) (cos a)).
  assert (U : unit w).
  { unfold unit, w. cbn [vx vy vz]. pose proof (sin2_cos2 a) as Q1. pose proof (sin2_cos2 b) as Q2. unfold Rsqr in *.
    replace (sin a * cos b * (sin a * cos b) + sin a * sin b * (sin a * sin b) + cos a * cos a) with
      (sin a * sin a * (sin b * sin b + cos b * cos b) + cos a * cos a) by ring. rewrite Q2. lra. }
  replace (vsub (vscale d w) vzero) with (vscale d w) by (unfold vsub, vscale, vzero, vmap, vmap2; apply V3_eq; cbn; ring).
  rewrite (normalize_pos_scale d w D U). split.
  - unfold spherical_theta, w. cbn [vz]. pose proof (COS_bound a). rewrite clip_id by lra. rewrite acos_cos by lra. unfold Rdiv. ring.
  - assert (E0 : spherical_phi w = b).
    { pose proof (spherical_phi_range w) as R0. destruct (spherical_phi_cs w) as [C S0]. destruct (arctan2_cs (vy w) (vx w)) as [X Y]. cbn zeta in X, Y.
      assert (SA : 0 < sin a) by (apply sin_gt_0; lra).
      replace (sqrt (vx w * vx w + vy w * vy w)) with (sin a) in X, Y.
      2:{ unfold w. cbn [vx vy]. pose proof (sin2_cos2 b) as Q2. unfold Rsqr in Q2.
          replace (sin a * cos b * (sin a * cos b) + sin a * sin b * (sin a * sin b)) with (sin a * sin a * (sin b * sin b + cos b * cos b)) by ring.
          rewrite Q2, Rmult_1_r. symmetry. apply sqrt_square. lra. }
      rewrite <- C in X. rewrite <- S0 in Y. cbn [w vx vy] in X, Y.
      apply Rmult_eq_reg_l in X; [|lra]. apply Rmult_eq_reg_l in Y; [|lra].
      assert (Q : 2 * PI - spherical_phi w = 2 * PI - b).
      { apply cs_unique; try lra; unfold Rminus; rewrite (Rplus_comm (2 * PI)), ?(cos_2pi), ?(sin_2pi).
        - rewrite (Rplus_comm (2 * PI) (- b)), cos_2pi, !cos_neg. exact X.
        - rewrite (Rplus_comm (2 * PI) (- b)), sin_2pi, !sin_neg. now rewrite Y. }
      lra. }
    rewrite E0. unfold Rdiv. ring.
Qed.
Print Assumptions C151_values.
(** On the axis the first coordinate is 0 or 1. *)
Theorem C151_poles (w2t : transform) (g : dgeom) (d : R) : 0 < d ->
  (t_point w2t (dg_p g) = mkV 0 0 d -> st_s (spherical_map w2t g) = 0) /\ (t_point w2t (dg_p g) = mkV 0 0 (- d) -> st_s (spherical_map w2t g) = 1).
Proof.
  intros D. pose proof PI_RGT_0 as P.
  assert (G : forall k, k = 1 \/ k = -1 -> normalize (vsub (mkV 0 0 (d * k)) vzero) = mkV 0 0 k).
  { intros k K. replace (vsub (mkV 0 0 (d * k)) vzero) with (vscale d (mkV 0 0 k)) by (unfold vsub, vscale, vzero, vmap, vmap2; apply V3_eq; cbn; ring).
    apply normalize_pos_scale; [exact D|]. unfold unit; cbn. destruct K as [-> | ->]; ring. }
  split; intros H; unfold spherical_map, sphere_st; cbn [st_s]; rewrite H.
  - replace d with (d * 1) by ring. rewrite G by now left. unfold spherical_theta. cbn [vz]. rewrite clip_id by lra. rewrite acos_1. ring.
  - replace (- d) with (d * -1) by ring. rewrite G by now right. unfold spherical_theta. cbn [vz]. rewrite clip_id by lra.
    replace (-1) with (- (1)) by ring. rewrite acos_opp, acos_1. field. lra.
Qed.
Print Assumptions C151_poles.

(** C152: the y differential of the first coordinate is the forward difference too; the x differential of the second is
    the forward difference up to whole turns (and the sign, if it is taken across the seam). *)
Theorem C152_y_difference_partial (w2t : transform) (g : dgeom) :
  let a := sphere_st w2t (dg_p g) in let b := sphere_st w2t (vadd (dg_p g) (vscale (1 / 10) (dg_dpdy g))) in
  st_dsdy (spherical_map w2t g) = 10 * (fst b - fst a).
Proof.
  cbv zeta. unfold spherical_map. destruct (sphere_st w2t (dg_p g)) as [s t]. destruct (sphere_st w2t (vadd _ (vscale _ (dg_dpdx g)))) as [sx tx].
  destruct (sphere_st w2t (vadd _ (vscale _ (dg_dpdy g)))) as [sy ty]. cbn [st_dsdy fst]. field.
Qed.
Print Assumptions C152_y_difference_partial.
Theorem C152_x_seam_partial (w2t : transform) (g : dgeom) :
  let a := sphere_st w2t (dg_p g) in let b := sphere_st w2t (vadd (dg_p g) (vscale (1 / 10) (dg_dpdx g))) in
  let d := 10 * (snd b - snd a) in
  (1 / 2 < d -> st_dtdx (spherical_map w2t g) = - (d - 1)) /\ (d < - (1 / 2) -> st_dtdx (spherical_map w2t g) = - (d + 1)).
Proof.
  cbv zeta. unfold spherical_map. destruct (sphere_st w2t (dg_p g)) as [s t]. destruct (sphere_st w2t (vadd _ (vscale _ (dg_dpdx g)))) as [sx tx].
  destruct (sphere_st w2t (vadd _ (vscale _ (dg_dpdy g)))) as [sy ty]. cbn [st_dtdx snd].
  replace ((tx - t) / (1 / 10)) with (10 * (tx - t)) by field. unfold wrap_diff. set (d := 10 * (tx - t)). clearbody d. split; intros H.
  - destruct (Rltb (1 / 2) d) eqn:Q; [ring|apply Rltb_false in Q; lra].
  - destruct (Rltb (1 / 2) d) eqn:Q; [apply Rltb_true in Q; lra|]. destruct (Rltb d (- (1 / 2))) eqn:Q2; [reflexivity|apply Rltb_false in Q2; lra].
Qed.
Print Assumptions C152_x_seam_partial.
(** The hypotheses of C151_values hold for the point (0, 2, 0) under the identity: a quarter turn each way. *)
Example C151_ex (g : dgeom) : dg_p g = mkV 0 2 0 -> t_point t_identity (dg_p g) = vscale 2 (mkV (sin (PI/2) * cos (PI/2)) (sin (PI/2) * sin (PI/2)) (cos (PI/2))) /\
  0 < PI/2 < PI /\ 0 < PI/2 <= 2 * PI.
Proof.
  intros ->. pose proof PI_RGT_0. split; [|lra]. rewrite sin_PI2, cos_PI2. change t_identity with (mkT I4 I4). rewrite P_ShapesMore.t_point_I.
  unfold vscale, vmap. apply V3_eq; cbn; ring.
Qed.
