(** Theorems added after testing against wrong programs (second round): C63, C167, C171 *)
From Coq Require Import Reals Lra Lia List Bool ZArith.
From Verif Require Import Base M_Geometry M_Transform M_Utility M_MonteCarlo M_Sampler M_Camera S_Geometry P_Geometry.
Import ListNotations.
Open Scope R_scope.

(** ** C63: the reported densities of the uniform samplers.  The zone a <= z <= b of the unit sphere has area 2 pi (b - a)
    (Archimedes); the variates u1 whose sample lies in it form an interval of length density times area, and the azimuth
    is 2 pi u2 *)
Definition zone_area (a b : R) : R := 2 * PI * (b - a).
Theorem C63_hemisphere_density (a b : R) : 0 <= a <= b -> b <= 1 ->
  exists lo, (forall u1 u2, a <= vz (uniform_sample_hemisphere u1 u2) <= b <-> lo <= u1 <= lo + uniform_hemisphere_pdf * zone_area a b) /\
    0 <= lo /\ lo + uniform_hemisphere_pdf * zone_area a b <= 1.
Proof.
  intros A B. pose proof PI_RGT_0. exists a. unfold uniform_hemisphere_pdf, zone_area. replace (1 / (2 * PI) * (2 * PI * (b - a))) with (b - a) by (field; lra).
  split; [|lra]. intros. unfold uniform_sample_hemisphere. cbn [vz]. lra.
Qed.
Theorem C63_sphere_density (a b : R) : -1 <= a <= b -> b <= 1 ->
  exists lo, (forall u1 u2, a <= vz (uniform_sample_sphere u1 u2) <= b <-> lo <= u1 <= lo + uniform_sphere_pdf * zone_area a b) /\
    0 <= lo /\ lo + uniform_sphere_pdf * zone_area a b <= 1.
Proof.
  intros A B. pose proof PI_RGT_0. exists ((1 - b) / 2). unfold uniform_sphere_pdf, zone_area. replace (1 / (4 * PI) * (2 * PI * (b - a))) with ((b - a) / 2) by (field; lra).
  split; [|lra]. intros. unfold uniform_sample_sphere. cbn [vz]. lra.
Qed.
Theorem C63_azimuth (u1 u2 : R) : let s := uniform_sample_sphere u1 u2 in let h := uniform_sample_hemisphere u1 u2 in
  (vx s = sqrt (vx s * vx s + vy s * vy s) * cos (2 * PI * u2) /\ vy s = sqrt (vx s * vx s + vy s * vy s) * sin (2 * PI * u2)) /\
  (vx h = sqrt (vx h * vx h + vy h * vy h) * cos (2 * PI * u2) /\ vy h = sqrt (vx h * vx h + vy h * vy h) * sin (2 * PI * u2)).
Proof.
  assert (G : forall r phi, 0 <= r -> sqrt (r * cos phi * (r * cos phi) + r * sin phi * (r * sin phi)) = r).
  { intros r phi Hr. pose proof (sin2_cos2 phi) as Q. unfold Rsqr in Q.
    replace (r * cos phi * (r * cos phi) + r * sin phi * (r * sin phi)) with (r * r * (sin phi * sin phi + cos phi * cos phi)) by ring.
    rewrite Q, Rmult_1_r. apply sqrt_square. exact Hr. }
  cbv zeta. unfold uniform_sample_sphere, uniform_sample_hemisphere. cbn [vx vy]. rewrite !G by apply sqrt_pos. auto.
Qed.

(** ** C167: what the offset rays are, exactly *)
Theorem C167_offset_positions_partial (gen : sample -> res (R * ray)) (s : sample) g : generic_raydiff gen s = Ok g ->
  let at_ X Y := mkS X Y 0 0 0 (n1D s) (n2D s) (repeat [] (length (n1D s))) (repeat [] (length (n2D s))) in
  exists wx rx wy ry, gen (at_ (0 + 1) 0) = Ok (wx, rx) /\ gen (at_ 0 (0 + 1)) = Ok (wy, ry) /\
    rd_rxo (snd g) = ro rx /\ rd_rxd (snd g) = rd rx /\ rd_ryo (snd g) = ro ry /\ rd_ryd (snd g) = rd ry.
Proof.
  unfold generic_raydiff. destruct (gen s) as [[w r]|]; [cbn [bind]|discriminate]. cbv beta iota zeta.
  unfold sample_dup. cbn [imageX imageY lens_u lens_v stime n1D n2D oneD twoD].
  match goal with |- context [gen ?a] => destruct (gen a) as [[wx rx]|] eqn:GX; [cbn [bind]|discriminate] end.
  match goal with |- context [bind (gen ?a)] => destruct (gen a) as [[wy ry]|] eqn:GY; [cbn [bind]|discriminate] end.
  intros H. exists wx, rx, wy, ry. split; [first [exact GX|reflexivity]|]. split; [first [exact GY|reflexivity]|]. destruct (Reqb wx 0 || Reqb wy 0); injection H as <-; cbn; auto.
Qed.

(** ** C171: clip and the black test of numbers and spectra *)
Theorem C171_clip (x : R) : 0 <= clip0 x /\ (0 <= x -> clip0 x = x) /\ (x < 0 -> clip0 x = 0).
Proof. unfold clip0. split; [apply Rmax_r|]. split; intros H; [apply Rmax_left|apply Rmax_right]; lra. Qed.
Theorem C171_black (s : vec) : is_black s = true <-> (forall i, (i < 3)%nat -> Rabs (vnth s i) < 1 / 100000).
Proof.
  unfold is_black. rewrite !andb_true_iff. split.
  - intros ((A & B) & C) i Hi. Rb. unfold EPS in *. destruct i as [|[|[|i]]]; cbn; try lra; lia.
  - intros H. pose proof (H 0%nat ltac:(lia)). pose proof (H 1%nat ltac:(lia)). pose proof (H 2%nat ltac:(lia)). cbn in *. unfold EPS. repeat split; apply Rltb_true; lra.
Qed.
Example C171_near_black : is_black (mkV 0 (1 / 1000000) 0) = true /\ is_black (mkV 0 0 (1 / 100)) = false.
Proof.
  split.
  - apply C171_black. intros [|[|[|i]]] H; cbn; try lia; rewrite ?Rabs_R0; try lra. rewrite Rabs_right; lra.
  - apply not_true_is_false. intros H. pose proof (proj1 (C171_black _) H 2%nat ltac:(lia)) as K. cbn in K. rewrite Rabs_right in K; lra.
Qed.

Print Assumptions C63_hemisphere_density.
Print Assumptions C63_sphere_density.
Print Assumptions C63_azimuth.
Print Assumptions C167_offset_positions_partial.
Print Assumptions C171_clip.
Print Assumptions C171_black.
