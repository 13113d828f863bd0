(** Property theorems C158-C169 (cameras) *)
From Coq Require Import Reals Lra Lia List Bool ZArith.
From Verif Require Import Base M_Geometry M_Transform M_MonteCarlo M_Sampler M_Camera S_Geometry S_Transform S_Camera P_Geometry P_Transform2 P_Camera.
Import ListNotations.
Open Scope R_scope.
Ltac v3 := unfold vadd, vsub, vneg, vscale, vzero, vmap2, vmap; cbn [vx vy vz].

(** ** C158: perspective camera without a lens.  [window]: [x0, x1] x [y0, y1] *)
Theorem C158_perspective_pixel (c2w : animated) (x0 x1 y0 y1 op cl lens foc fov xres yres : R) (s : sample) :
  0 < xres -> 0 < yres -> x0 < x1 -> y0 < y1 -> 0 < fov < 180 -> lens <= 0 ->
  exists c d, persp_make c2w x0 x1 y0 y1 op cl lens foc fov xres yres = Ok c /\ unit d /\
    (exists l, 0 < l /\
      mkV (half_tan fov * screen_x xres x0 x1 (imageX s)) (half_tan fov * screen_y yres y0 y1 (imageY s)) 1 = vscale l d) /\
    persp_ray c s = a_ray c2w (camera_space_ray vzero d (shutter_time s op cl)).
Proof. apply persp_nolens_ray. Qed.
(** a camera that does not move: the ray leaves the image of the origin, in the image of d, at the shutter time *)
Theorem C158_static (c2w : animated) (t : transform) (o d : vec) (time : R) : static c2w t ->
  a_ray c2w (camera_space_ray o d time) = Ok (camera_space_ray (t_point t o) (t_vector t d) time).
Proof. intros (A & T). unfold a_ray. rewrite A, T. reflexivity. Qed.
(** different raster positions give different rays (t: any placement that does not collapse directions) *)
Theorem C158_injective (c2w : animated) (t : transform) (x0 x1 y0 y1 op cl lens foc fov xres yres : R) (s s' : sample) (c : projcam) (r r' : ray) :
  0 < xres -> 0 < yres -> x0 < x1 -> y0 < y1 -> 0 < fov < 180 -> lens <= 0 -> static c2w t ->
  (forall v w, t_vector t v = t_vector t w -> v = w) ->
  persp_make c2w x0 x1 y0 y1 op cl lens foc fov xres yres = Ok c -> persp_ray c s = Ok r -> persp_ray c s' = Ok r' ->
  rd r = rd r' -> imageX s = imageX s' /\ imageY s = imageY s'.
Proof.
  intros A B C D F LN ST INJ MK PR PR' RR.
  destruct (C158_perspective_pixel c2w x0 x1 y0 y1 op cl lens foc fov xres yres s A B C D F LN) as (c1 & d & K1 & _ & (l & L & E) & P1).
  destruct (C158_perspective_pixel c2w x0 x1 y0 y1 op cl lens foc fov xres yres s' A B C D F LN) as (c2 & d' & K2 & _ & (l' & L' & E') & P2).
  assert (c1 = c) by congruence. assert (c2 = c) by congruence. subst c1 c2. rewrite (C158_static _ _ _ _ _ ST) in P1. rewrite (C158_static _ _ _ _ _ ST) in P2.
  rewrite P1 in PR. injection PR as <-. rewrite P2 in PR'. injection PR' as <-. cbn [camera_space_ray rd] in RR. apply INJ in RR. subst d'.
  destruct d as [dx dy dz]. unfold vscale, vmap in E, E'; cbn in E, E'. injection E as E1 E2 E3. injection E' as F1 F2 F3.
  assert (l = l') by (assert (dz <> 0) by nra; apply Rmult_eq_reg_r with dz; lra). subst l'.
  assert (HT : 0 < half_tan fov) by (unfold half_tan; apply tan_gt_0; pose proof PI_RGT_0; nra).
  assert (SX : screen_x xres x0 x1 (imageX s) = screen_x xres x0 x1 (imageX s')) by (apply Rmult_eq_reg_l with (half_tan fov); lra).
  assert (SY : screen_y yres y0 y1 (imageY s) = screen_y yres y0 y1 (imageY s')) by (apply Rmult_eq_reg_l with (half_tan fov); lra).
  unfold screen_x in SX. unfold screen_y in SY. split.
  - assert (G : imageX s / xres * (x1 - x0) = imageX s' / xres * (x1 - x0)) by lra. apply Rmult_eq_reg_r in G; [|lra].
    apply Rmult_eq_reg_r with (/ xres); [exact G|apply Rinv_neq_0_compat; lra].
  - assert (G : imageY s / yres * (y1 - y0) = imageY s' / yres * (y1 - y0)) by lra. apply Rmult_eq_reg_r in G; [|lra].
    apply Rmult_eq_reg_r with (/ yres); [exact G|apply Rinv_neq_0_compat; lra].
Qed.

(** ** C159: depth of field.  With a lens of positive radius every ray starts in the lens disk, has a unit direction and
    passes through the point in focus of its pixel, whatever the lens sample *)
Theorem C159_perspective_focus (c2w : animated) (x0 x1 y0 y1 op cl lens foc fov xres yres : R) (s : sample) :
  0 < xres -> 0 < yres -> x0 < x1 -> y0 < y1 -> 0 < fov < 180 -> 0 < lens -> 0 < foc -> 0 <= lens_u s <= 1 -> 0 <= lens_v s <= 1 ->
  exists c o d, persp_make c2w x0 x1 y0 y1 op cl lens foc fov xres yres = Ok c /\
    vz o = 0 /\ vx o * vx o + vy o * vy o <= lens * lens /\ unit d /\
    (exists k, 0 < k /\ vadd o (vscale k d) =
       vscale foc (mkV (half_tan fov * screen_x xres x0 x1 (imageX s)) (half_tan fov * screen_y yres y0 y1 (imageY s)) 1)) /\
    persp_ray c s = a_ray c2w (camera_space_ray o d (shutter_time s op cl)).
Proof. apply persp_lens_ray. Qed.
Theorem C159_ortho_focus (c2w : animated) (x0 x1 y0 y1 op cl lens foc xres yres : R) (s : sample) :
  0 < xres -> 0 < yres -> x0 < x1 -> y0 < y1 -> 0 < lens -> 0 < foc -> 0 <= lens_u s <= 1 -> 0 <= lens_v s <= 1 ->
  exists o d, vz o = 0 /\ vx o * vx o + vy o * vy o <= lens * lens /\ unit d /\
    (exists k, 0 < k /\ vadd o (vscale k d) = mkV (screen_x xres x0 x1 (imageX s)) (screen_y yres y0 y1 (imageY s)) foc) /\
    ortho_ray (ortho_make c2w x0 x1 y0 y1 op cl lens foc xres yres) s = a_ray c2w (camera_space_ray o d (shutter_time s op cl)).
Proof. apply ortho_lens. Qed.

(** ** C160: orthographic camera without a lens: parallel rays, one per raster position *)
Theorem C160_ortho_pixel (c2w : animated) (x0 x1 y0 y1 op cl lens foc xres yres : R) (s : sample) :
  0 < xres -> 0 < yres -> x0 < x1 -> y0 < y1 -> lens <= 0 ->
  ortho_ray (ortho_make c2w x0 x1 y0 y1 op cl lens foc xres yres) s =
  a_ray c2w (camera_space_ray (mkV (screen_x xres x0 x1 (imageX s)) (screen_y yres y0 y1 (imageY s)) 0) (mkV 0 0 1) (shutter_time s op cl)).
Proof. apply ortho_nolens. Qed.

(** ** C161: orthographic camera with a lens: the expected origin (lens offset added to the pixel's point) fails: the
    pixel position has no influence on the origin *)
Theorem C161_ortho_lens_origin_refuted (c2w : animated) (t : transform) (x0 x1 y0 y1 op cl lens foc xres yres : R) (s s' : sample) (r r' : ray) :
  0 < lens -> static c2w t -> lens_u s' = lens_u s -> lens_v s' = lens_v s ->
  ortho_ray (ortho_make c2w x0 x1 y0 y1 op cl lens foc xres yres) s = Ok r ->
  ortho_ray (ortho_make c2w x0 x1 y0 y1 op cl lens foc xres yres) s' = Ok r' -> ro r' = ro r.
Proof. apply ortho_lens_origin. Qed.

(** ** C162: perspective ray differentials.  What holds for a camera that does not move: the main ray is the ray of
    generate_ray, and carrying the reported offset rays to world space gives the rays of the neighbouring raster positions *)
Theorem C162_perspective_differential_partial (c2w : animated) (t : transform) (x0 x1 y0 y1 op cl lens foc fov xres yres : R) (s : sample) :
  0 < xres -> 0 < yres -> x0 < x1 -> y0 < y1 -> 0 < fov < 180 -> static c2w t ->
  exists c g r rx ry, persp_make c2w x0 x1 y0 y1 op cl lens foc fov xres yres = Ok c /\
    persp_raydiff c s = Ok g /\ persp_ray c s = Ok r /\ persp_ray c (shifted 1 0 s) = Ok rx /\ persp_ray c (shifted 0 1 s) = Ok ry /\
    rd_has g = true /\ ro (rd_ray g) = ro r /\ rd (rd_ray g) = rd r /\
    ro rx = t_point t (rd_rxo g) /\ rd rx = t_vector t (rd_rxd g) /\ ro ry = t_point t (rd_ryo g) /\ rd ry = t_vector t (rd_ryd g).
Proof.
  intros A B C D F ST. destruct (persp_diff c2w x0 x1 y0 y1 op cl lens foc fov xres yres s t A B C D F ST) as (c & g & r & rx & ry & H).
  exists c, g, r, rx, ry. tauto.
Qed.
(** but the reported offset rays themselves stay in camera space: wrong as soon as the camera is moved *)
Theorem C162_offsets_in_camera_space_refuted (c2w : animated) (x0 x1 y0 y1 op cl foc fov xres yres : R) (s : sample) (delta : vec) :
  0 < xres -> 0 < yres -> x0 < x1 -> y0 < y1 -> 0 < fov < 180 -> static c2w (t_translate delta) -> delta <> vzero ->
  exists c g rx, persp_make c2w x0 x1 y0 y1 op cl 0 foc fov xres yres = Ok c /\
    persp_raydiff c s = Ok g /\ persp_ray c (shifted 1 0 s) = Ok rx /\ ro rx = delta /\ rd_rxo g = vzero /\ rd_rxo g <> ro rx.
Proof.
  intros A B C D F ST N. destruct (persp_diff c2w x0 x1 y0 y1 op cl 0 foc fov xres yres s _ A B C D F ST) as (c & g & r & rx & ry & H).
  decompose [and] H. exists c, g, rx. assert (G : rd_rxo g = vzero) by (match goal with K : 0 <= 0 -> _ |- _ => apply K; lra end).
  assert (P : ro rx = delta).
  { match goal with K : ro rx = t_point _ _ |- _ => rewrite K, G end. rewrite t_point_affine by reflexivity. unfold apt, t_translate, dot4; destruct delta; cbn. f_equal; ring. }
  repeat (split; [assumption|]). rewrite G, P. intros K. now apply N.
Qed.

(** ** C163: the time of a differential ray is the sample's time itself, not a time within the shutter interval, so with an
    animated camera the two generators disagree *)
Theorem C163_differential_time_refuted (c2w : animated) (t : transform) (x0 x1 y0 y1 op cl lens foc fov xres yres : R) (s : sample) :
  0 < xres -> 0 < yres -> x0 < x1 -> y0 < y1 -> 0 < fov < 180 -> static c2w t ->
  exists c g r, persp_make c2w x0 x1 y0 y1 op cl lens foc fov xres yres = Ok c /\ persp_raydiff c s = Ok g /\ persp_ray c s = Ok r /\
    rtime (rd_ray g) = stime s /\ rtime r = shutter_time s op cl.
Proof.
  intros A B C D F ST. destruct (persp_diff c2w x0 x1 y0 y1 op cl lens foc fov xres yres s t A B C D F ST) as (c & g & r & rx & ry & H).
  decompose [and] H. exists c, g, r. repeat (split; [assumption|]).
  destruct (persp_closed c2w x0 x1 y0 y1 op cl lens foc fov xres yres A B C D F) as (c' & E & E1 & E2 & E3 & E4 & E5 & PT).
  assert (c' = c) by congruence. subst c'. match goal with K : persp_ray c s = Ok r |- _ => revert K end. unfold persp_ray. rewrite E1, E2, E3, lerp_shutter.
  destruct (lens_ray _ _ _ _ _ _) as [o d]. destruct ST as (SA & _). unfold a_ray. rewrite SA. cbn [negb orb]. intros K. injection K as <-. reflexivity.
Qed.
(** the sample times 1/2 of a shutter open during [10, 11] *)
Example C163_differs (s : sample) : stime s = 1 / 2 -> shutter_time s 10 11 <> stime s.
Proof. intros H. unfold shutter_time. rewrite H. lra. Qed.

(** ** C164: orthographic ray differentials.  For the identity placement all is well *)
Theorem C164_identity_partial (c2w : animated) (x0 x1 y0 y1 op cl foc xres yres : R) (s : sample) :
  0 < xres -> 0 < yres -> x0 < x1 -> y0 < y1 -> static c2w (mkT I4 I4) ->
  let c := ortho_make c2w x0 x1 y0 y1 op cl 0 foc xres yres in
  exists g r rx ry, ortho_raydiff c s = Ok g /\ ortho_ray c s = Ok r /\ ortho_ray c (shifted 1 0 s) = Ok rx /\ ortho_ray c (shifted 0 1 s) = Ok ry /\
    rd_has g = true /\ ro (rd_ray g) = ro r /\ rd (rd_ray g) = rd r /\ rd_rxo g = ro rx /\ rd_rxd g = rd rx /\ rd_ryo g = ro ry /\ rd_ryd g = rd ry.
Proof.
  intros A B C D ST c. destruct (ortho_diff c2w x0 x1 y0 y1 op cl foc xres yres s _ A B C D ST) as (g & r & rx & ry & H). exists g, r, rx, ry.
  assert (IP : forall p, t_point (mkT I4 I4) p = p) by (intros [a b z]; rewrite t_point_affine by reflexivity; unfold apt, I4, dot4; cbn; f_equal; ring).
  assert (IV : forall p, t_vector (mkT I4 I4) p = p) by (intros [a b z]; unfold t_vector, I4, dot4; cbn; f_equal; ring).
  rewrite !IP, !IV in H. fold c in H. destruct H as (H1 & H2 & H3 & H4 & H5 & H6 & H7 & H8 & H9 & H10 & H11 & H12 & H13 & H14 & H15 & H16 & H17 & _).
  repeat (split; [assumption|]). split; [rewrite H10, H12, H13; v3; f_equal; ring|]. split; [congruence|]. split; [rewrite H11, H12, H14; v3; f_equal; ring|congruence].
Qed.
(** otherwise the camera's placement is applied twice to the main ray *)
Theorem C164_placed_twice_refuted (c2w : animated) (x0 x1 y0 y1 op cl foc xres yres : R) (s : sample) (delta : vec) :
  0 < xres -> 0 < yres -> x0 < x1 -> y0 < y1 -> static c2w (t_translate delta) ->
  let c := ortho_make c2w x0 x1 y0 y1 op cl 0 foc xres yres in
  exists g r, ortho_raydiff c s = Ok g /\ ortho_ray c s = Ok r /\ ro (rd_ray g) = vadd (ro r) delta.
Proof.
  intros A B C D ST c. destruct (ortho_diff c2w x0 x1 y0 y1 op cl foc xres yres s _ A B C D ST) as (g & r & rx & ry & H). exists g, r.
  fold c in H. destruct H as (H1 & H2 & _ & _ & H5 & _). repeat (split; [assumption|]). rewrite H5. rewrite t_point_affine by reflexivity.
  unfold apt, t_translate, dot4. destruct (ro r), delta; v3; cbn. f_equal; ring.
Qed.

(** ** C165: the environment camera covers the whole sphere of directions with unit vectors *)
Theorem C165_unit (xres yres : R) (s : sample) : 0 < xres -> 0 < yres -> unit (env_dir xres yres s).
Proof.
  intros _ _. unfold unit, env_dir; cbn. pose proof (sin2_cos2 (PI * imageY s / yres)) as P. pose proof (sin2_cos2 (2 * PI * imageX s / xres)) as Q. unfold Rsqr in P, Q.
  set (st := sin (PI * imageY s / yres)) in *. set (ct := cos (PI * imageY s / yres)) in *.
  set (sp := sin (2 * PI * imageX s / xres)) in *. set (cp := cos (2 * PI * imageX s / xres)) in *.
  replace (st * cp * (st * cp) + ct * ct + st * sp * (st * sp)) with (st * st * (sp * sp + cp * cp) + ct * ct) by ring. rewrite Q. lra.
Qed.
Theorem C165_covers_sphere (xres yres : R) (s : sample) (d : vec) : 0 < xres -> 0 < yres -> unit d ->
  exists X Y, 0 <= X <= xres /\ 0 <= Y <= yres /\
    env_dir xres yres (mkS X Y (lens_u s) (lens_v s) (stime s) (n1D s) (n2D s) (oneD s) (twoD s)) = d.
Proof.
  intros XR YR U. pose proof PI_RGT_0 as PP. set (v := mkV (vx d) (vz d) (vy d)).
  assert (UV : unit v) by (unfold unit in *; cbn; lra). pose proof (spherical_round_trip v UV) as RT.
  pose proof (spherical_phi_range v) as RP. pose proof (spherical_theta_range v) as RTh.
  exists (spherical_phi v / (2 * PI) * xres), (spherical_theta v / PI * yres). 
  assert (HP : 0 <= spherical_phi v / (2 * PI) <= 1) by (split; [apply Rmult_le_pos; [lra|left; apply Rinv_0_lt_compat; lra]|apply Rmult_le_reg_r with (2 * PI); [lra|]; unfold Rdiv; rewrite Rmult_assoc, Rinv_l by lra; lra]).
  assert (HT : 0 <= spherical_theta v / PI <= 1) by (split; [apply Rmult_le_pos; [lra|left; apply Rinv_0_lt_compat; lra]|apply Rmult_le_reg_r with PI; [lra|]; unfold Rdiv; rewrite Rmult_assoc, Rinv_l by lra; lra]).
  split; [nra|]. split; [nra|]. unfold env_dir; cbn [imageX imageY].
  replace (PI * (spherical_theta v / PI * yres) / yres) with (spherical_theta v) by (field; lra).
  replace (2 * PI * (spherical_phi v / (2 * PI) * xres) / xres) with (spherical_phi v) by (field; lra).
  unfold spherical_direction in RT. subst v. cbn [vx vy vz] in *. set (v := mkV (vx d) (vz d) (vy d)) in *. injection RT as R1 R2 R3. destruct d; cbn in *. f_equal; assumption.
Qed.
(** no two raster positions in the interior show the same direction *)
Theorem C165_injective (xres yres : R) (s s' : sample) : 0 < xres -> 0 < yres ->
  0 < imageY s < yres -> 0 < imageY s' < yres -> 0 <= imageX s < xres -> 0 <= imageX s' < xres ->
  env_dir xres yres s = env_dir xres yres s' -> imageX s = imageX s' /\ imageY s = imageY s'.
Proof.
  intros XR YR Y1 Y2 X1 X2 E. pose proof PI_RGT_0 as PP. unfold env_dir in E. injection E as E1 E2 E3.
  assert (TB : forall y, 0 < y < yres -> 0 < PI * y / yres < PI).
  { intros y [H1 H2]. split; [apply Rmult_lt_0_compat; [nra|apply Rinv_0_lt_compat; lra]|]. apply Rmult_lt_reg_r with yres; [lra|]. unfold Rdiv. rewrite Rmult_assoc, Rinv_l by lra. nra. }
  assert (TE : PI * imageY s / yres = PI * imageY s' / yres).
  { pose proof (TB _ Y1). pose proof (TB _ Y2). rewrite <- (acos_cos (PI * imageY s / yres)), <- (acos_cos (PI * imageY s' / yres)) by lra. now rewrite E2. }
  assert (YE : imageY s = imageY s').
  { apply Rmult_eq_reg_l with (PI / yres); [unfold Rdiv in *; lra|]. apply Rgt_not_eq. apply Rmult_lt_0_compat; [lra|apply Rinv_0_lt_compat; lra]. }
  split; [|exact YE]. rewrite <- TE in E1, E3. assert (SP : 0 < sin (PI * imageY s / yres)) by (apply sin_gt_0; apply (TB _ Y1)).
  apply Rmult_eq_reg_l in E1; [|lra]. apply Rmult_eq_reg_l in E3; [|lra].
  set (a := 2 * PI * imageX s / xres) in *. set (b := 2 * PI * imageX s' / xres) in *.
  assert (PB : forall x, 0 <= x < xres -> 0 <= 2 * PI * x / xres < 2 * PI).
  { intros x [H1 H2]. split; [apply Rmult_le_pos; [nra|left; apply Rinv_0_lt_compat; lra]|]. apply Rmult_lt_reg_r with xres; [lra|]. unfold Rdiv. rewrite Rmult_assoc, Rinv_l by lra. nra. }
  assert (AB : a = b).
  { pose proof (PB _ X1) as PA. pose proof (PB _ X2) as PBb. fold a in PA. fold b in PBb.
    assert (HC : cos (a - b) = 1) by (rewrite cos_minus, E1, E3; pose proof (sin2_cos2 b) as Q; unfold Rsqr in Q; lra).
    assert (HH : sin ((a - b) / 2) = 0).
    { assert (Q : cos (2 * ((a - b) / 2)) = 1) by (replace (2 * ((a - b) / 2)) with (a - b) by field; exact HC). rewrite cos_2a_sin in Q. nra. }
    destruct (Rtotal_order ((a - b) / 2) 0) as [L|[Z0|G]]; [|lra|].
    - assert (0 < sin (- ((a - b) / 2))) by (apply sin_gt_0; lra). rewrite sin_neg in *. lra.
    - assert (0 < sin ((a - b) / 2)) by (apply sin_gt_0; lra). lra. }
  unfold a, b in AB. apply Rmult_eq_reg_l with (2 * PI / xres); [unfold Rdiv in *; lra|]. apply Rgt_not_eq. apply Rmult_lt_0_compat; [lra|apply Rinv_0_lt_compat; lra].
Qed.

(** ** C166: the environment camera's rays have time 0: the shutter time becomes the recursion depth *)
Theorem C166_environment_time_refuted (c2w : animated) (t : transform) (op cl xres yres : R) (s : sample) : static c2w t ->
  exists r, env_ray c2w op cl xres yres s = Ok (r, shutter_time s op cl) /\ rtime r = 0.
Proof. intros (SA & ST). unfold env_ray, a_ray. rewrite SA. cbn [negb orb bind]. rewrite lerp_shutter. eexists. split; reflexivity. Qed.
(** even when the camera moves, every ray is placed by the transform at time 0 *)
Theorem C166_motion_refuted (c2w : animated) (op cl op' cl' xres yres : R) (s : sample) r z r' z' :
  env_ray c2w op cl xres yres s = Ok (r, z) -> env_ray c2w op' cl' xres yres s = Ok (r', z') -> r = r'.
Proof. unfold env_ray. destruct (a_ray c2w _); cbn [bind]; [|discriminate]. intros Q Q'. congruence. Qed.

(** ** C167: the inherited ray differentials (environment and pinhole cameras) do not depend on the sample: the offset rays
    are always those of raster positions (1, 0) and (0, 1) *)
Theorem C167_offsets_ignore_sample_refuted (gen : sample -> res (R * ray)) (s s' : sample) g g' :
  n1D s = n1D s' -> n2D s = n2D s' -> generic_raydiff gen s = Ok g -> generic_raydiff gen s' = Ok g' ->
  rd_rxo (snd g) = rd_rxo (snd g') /\ rd_rxd (snd g) = rd_rxd (snd g') /\ rd_ryo (snd g) = rd_ryo (snd g') /\ rd_ryd (snd g) = rd_ryd (snd g').
Proof.
  intros N1 N2. unfold generic_raydiff, sample_dup; cbn [imageX imageY lens_u lens_v stime n1D n2D oneD twoD]. rewrite N1, N2.
  destruct (gen s) as [[w r]|]; [cbn [bind]|discriminate]. destruct (gen s') as [[w' r']|]; [cbn [bind]|cbn [bind]; discriminate].
  destruct (gen (mkS (0 + 1) 0 0 0 0 _ _ _ _)) as [[wx rx]|]; [cbn [bind]|discriminate].
  destruct (gen (mkS 0 (0 + 1) 0 0 0 _ _ _ _)) as [[wy ry]|]; [cbn [bind]|discriminate].
  destruct (Reqb wx 0 || Reqb wy 0) eqn:W; cbv beta iota zeta; rewrite ?W; intros Q Q'; injection Q as <-; injection Q' as <-; repeat split; reflexivity.
Qed.
(** what holds: the main ray is the camera's ray, the weight is the camera's when both neighbours have weight, else 0 *)
Theorem C167_main_ray_partial (gen : sample -> res (R * ray)) (s : sample) w r g : gen s = Ok (w, r) -> generic_raydiff gen s = Ok g ->
  rd_ray (snd g) = r /\ (rd_has (snd g) = true -> fst g = w) /\ (rd_has (snd g) = false -> fst g = 0).
Proof.
  intros G. unfold generic_raydiff. rewrite G. cbn [bind]. cbv beta iota zeta.
  set (sx := mkS (imageX (sample_dup s) + 1) _ _ _ _ _ _ _ _). set (sy := mkS _ (imageY (sample_dup s) + 1) _ _ _ _ _ _ _).
  destruct (gen sx) as [[wx rx]|]; [cbn [bind]; cbv beta iota|discriminate]. destruct (gen sy) as [[wy ry]|]; [cbn [bind]; cbv beta iota|discriminate].
  destruct (Reqb wx 0 || Reqb wy 0); intros Q; injection Q as <-; cbn; repeat split; congruence.
Qed.
Example C167_env_sees_it (c2w : animated) (t : transform) (s : sample) : static c2w t ->
  exists g, generic_raydiff (fun s' => do r <- env_ray c2w 0 1 640 480 s'; Ok (1, fst r)) s = Ok g /\ rd_has (snd g) = true.
Proof.
  intros (SA & ST). unfold generic_raydiff, env_ray, a_ray. rewrite SA. cbn [negb orb bind fst].
  destruct (Reqb 1 0 || Reqb 1 0) eqn:Q; [apply orb_true_iff in Q; destruct Q as [Q|Q]; apply Reqb_true in Q; lra|]. eexists; split; reflexivity.
Qed.

(** ** C168: all rays of the pinhole camera meet in one point, the image of (0, 0, focal), at parameter 1 *)
Theorem C168_pinhole (c2w : animated) (focal : R) (s : sample) : affine (tm (a_t1 c2w)) ->
  vadd (ro (pinhole_ray c2w focal s)) (rd (pinhole_ray c2w focal s)) = t_point (a_t1 c2w) (mkV 0 0 focal).
Proof.
  intros A. unfold pinhole_ray; cbn [ro rd]. rewrite !t_point_affine by assumption. unfold t_vector, apt, dot4. unfold vadd, vsub, vmap2. cbn [vx vy vz q0 q1 q2 q3]. f_equal; ring.
Qed.
(** ** C169: directions of generated rays are unit vectors: not for the pinhole camera *)
Theorem C169_pinhole_unnormalised_refuted (c2w : animated) (s : sample) (focal : R) : a_t1 c2w = mkT I4 I4 -> imageX s = 3 -> imageY s = 4 ->
  ~ unit (rd (pinhole_ray c2w focal s)).
Proof.
  intros T X Y. unfold unit, pinhole_ray; cbn [rd]. rewrite T, X, Y. unfold t_vector, dot4, vsub, vmap2; cbn. intros H.
  assert (0 <= focal * focal) by nra. assert (focal * focal + 25 = 1) by lra. lra.
Qed.

(** what holds: a rigid placement keeps the unit directions of the projective and environment cameras *)
Theorem C169_placed_unit_partial (c2w : animated) (t : transform) (o d : vec) (time : R) : static c2w t -> unit d ->
  (forall v, unit v -> unit (t_vector t v)) ->
  exists r, a_ray c2w (camera_space_ray o d time) = Ok r /\ unit (rd r).
Proof. intros ST U R. rewrite (C158_static _ _ _ _ _ ST). eexists. split; [reflexivity|]. cbn. now apply R. Qed.

(** the hypotheses are met: a camera of 640 x 480 pixels, field of view 60, lens radius 1/4 *)
Definition s0 : sample := mkS 100 50 (1 / 4) (3 / 4) (1 / 2) nil nil nil nil.
Definition still : animated := mkA 0 1 (t_translate (mkV 1 2 3)) (t_translate (mkV 1 2 3)) false no_decomp no_decomp.
Example still_static : static still (t_translate (mkV 1 2 3)). Proof. split; reflexivity. Qed.
Example C158_meets : exists c r, persp_make still (-4/3) (4/3) (-1) 1 0 1 0 1 60 640 480 = Ok c /\ persp_ray c s0 = Ok r /\ rtime r = 1 / 2.
Proof.
  destruct (C158_perspective_pixel still (-4/3) (4/3) (-1) 1 0 1 0 1 60 640 480 s0) as (c & d & E & U & _ & R); try lra.
  exists c. rewrite R, (C158_static _ _ _ _ _ still_static). eexists. split; [exact E|]. split; [reflexivity|]. cbn. unfold shutter_time; cbn. lra.
Qed.
Example C159_meets : exists c o d, persp_make still (-4/3) (4/3) (-1) 1 0 1 (1/4) 10 60 640 480 = Ok c /\
  persp_ray c s0 = Ok (camera_space_ray (t_point (t_translate (mkV 1 2 3)) o) (t_vector (t_translate (mkV 1 2 3)) d) (shutter_time s0 0 1)) /\ unit d.
Proof.
  destruct (C159_perspective_focus still (-4/3) (4/3) (-1) 1 0 1 (1/4) 10 60 640 480 s0) as (c & o & d & E & _ & _ & U & _ & R); try lra; try (cbn; lra).
  exists c, o, d. rewrite R, (C158_static _ _ _ _ _ still_static). auto.
Qed.

Print Assumptions C158_perspective_pixel.
Print Assumptions C158_static.
Print Assumptions C158_injective.
Print Assumptions C159_perspective_focus.
Print Assumptions C159_ortho_focus.
Print Assumptions C160_ortho_pixel.
Print Assumptions C161_ortho_lens_origin_refuted.
Print Assumptions C162_perspective_differential_partial.
Print Assumptions C162_offsets_in_camera_space_refuted.
Print Assumptions C163_differential_time_refuted.
Print Assumptions C164_identity_partial.
Print Assumptions C164_placed_twice_refuted.
Print Assumptions C165_unit.
Print Assumptions C165_covers_sphere.
Print Assumptions C165_injective.
Print Assumptions C166_environment_time_refuted.
Print Assumptions C166_motion_refuted.
Print Assumptions C167_offsets_ignore_sample_refuted.
Print Assumptions C167_main_ray_partial.
Print Assumptions C169_placed_unit_partial.
Print Assumptions C168_pinhole.
Print Assumptions C169_pinhole_unnormalised_refuted.
