(** Proofs about cameras *)
From Coq Require Import Reals Lra Lia List Bool ZArith.
From Verif Require Import Base M_Geometry M_Transform M_MonteCarlo M_Sampler M_Camera S_Geometry S_Transform S_Camera P_Geometry P_Transform P_Transform2 P_MonteCarlo.
Open Scope R_scope.

Section Window.
Variables (xres yres x0 x1 y0 y1 : R).
Hypotheses (XR : 0 < xres) (YR : 0 < yres) (XW : x0 < x1) (YW : y0 < y1).
Notation sx := (screen_x xres x0 x1). Notation sy := (screen_y yres y0 y1).

Lemma s2r_inv : tinv (proj_s2r xres yres x0 x1 y0 y1) =
  mkM (mkV4 ((x1 - x0) / xres) 0 0 x0) (mkV4 0 ((y0 - y1) / yres) 0 y1) (mkV4 0 0 1 0) (mkV4 0 0 0 1).
Proof. unfold proj_s2r. cbn [t_mul tinv t_translate t_scale]. unfold mmul, dot4, col0, col1, col2, col3; cbn. f_equal; f_equal; field; lra. Qed.
Lemma ortho_pt X Y : t_point (proj_r2c (t_orthographic 0 1) xres yres x0 x1 y0 y1) (mkV X Y 0) = mkV (sx X) (sy Y) 0.
Proof.
  assert (E : tm (proj_r2c (t_orthographic 0 1) xres yres x0 x1 y0 y1) = tinv (proj_s2r xres yres x0 x1 y0 y1)).
  { unfold proj_r2c. cbn [t_mul t_inverse tm]. rewrite s2r_inv. unfold t_orthographic. cbn [t_mul tinv t_translate t_scale].
    unfold mmul, dot4, col0, col1, col2, col3; cbn. f_equal; f_equal; field; lra. }
  rewrite t_point_affine by (unfold affine; rewrite E, s2r_inv; reflexivity). unfold apt. rewrite E, s2r_inv. unfold dot4, screen_x, screen_y; cbn. f_equal; field; lra.
Qed.
Lemma ortho_vec v : t_vector (proj_r2c (t_orthographic 0 1) xres yres x0 x1 y0 y1) v = mkV (vx v * (x1 - x0) / xres) (vy v * (y0 - y1) / yres) (vz v).
Proof.
  assert (E : tm (proj_r2c (t_orthographic 0 1) xres yres x0 x1 y0 y1) = tinv (proj_s2r xres yres x0 x1 y0 y1)).
  { unfold proj_r2c. cbn [t_mul t_inverse tm]. rewrite s2r_inv. unfold t_orthographic. cbn [t_mul tinv t_translate t_scale].
    unfold mmul, dot4, col0, col1, col2, col3; cbn. f_equal; f_equal; field; lra. }
  unfold t_vector. rewrite E, s2r_inv. unfold dot4; cbn. f_equal; field; lra.
Qed.
Lemma persp_ok fov : 0 < fov < 180 -> exists p, t_perspective fov (1 / 1000) 1000 = Ok p /\
  forall X Y, t_point (proj_r2c p xres yres x0 x1 y0 y1) (mkV X Y 0) = vscale (1 / 1000) (mkV (half_tan fov * sx X) (half_tan fov * sy Y) 1).
Proof.
  intros F. unfold t_perspective, t_of_matrix, minv.
  assert (D : det4 (persp_matrix (1 / 1000) 1000) <> 0).
  { unfold det4, persp_matrix; cbn. lra. }
  destruct (Reqb _ 0) eqn:Q; [apply Reqb_true in Q; contradiction|]. cbn [bind]. eexists. split; [reflexivity|]. intros X Y.
  assert (HT : 0 < half_tan fov).
  { unfold half_tan. apply tan_gt_0; pose proof PI_RGT_0; nra. }
  assert (E0 : deg2rad fov / 2 = fov / 2 * (PI / 180)) by (unfold deg2rad; field). rewrite E0. fold (half_tan fov).
  set (T := half_tan fov) in *.
  assert (CI : cofinv (persp_matrix (1 / 1000) 1000) = mkM (mkV4 1 0 0 0) (mkV4 0 1 0 0) (mkV4 0 0 0 1) (mkV4 0 0 (- (999999 / 1000)) 1000)).
  { unfold cofinv, persp_matrix, det4; cbn. f_equal; f_equal; field; lra. }
  assert (E : tm (proj_r2c (t_mul (t_scale (1 / T) (1 / T) 1) (mkT (persp_matrix (1 / 1000) 1000) (cofinv (persp_matrix (1 / 1000) 1000)))) xres yres x0 x1 y0 y1) =
    mkM (mkV4 (T * ((x1 - x0) / xres)) 0 0 (T * x0)) (mkV4 0 (T * ((y0 - y1) / yres)) 0 (T * y1)) (mkV4 0 0 0 1) (mkV4 0 0 (- (999999 / 1000)) 1000)).
  { unfold proj_r2c. cbn [t_mul t_inverse tm tinv]. rewrite s2r_inv, CI. cbn [t_scale tinv]. unfold mmul, dot4, col0, col1, col2, col3; cbn. f_equal; f_equal; field; lra. }
  unfold t_point. rewrite E. cbn [row0 row1 row2 row3 vx vy vz]. unfold dot4; cbn [q0 q1 q2 q3].
  replace (0 * X + 0 * Y + - (999999 / 1000) * 0 + 1000 * 1) with 1000 by ring.
  unfold ne_unity. replace (Rltb (1 + EPS) 1000) with true by (symmetry; apply Rltb_true; unfold EPS; lra). rewrite orb_true_r.
  unfold vscale, vmap, screen_x, screen_y; cbn. f_equal; field; lra.
Qed.
End Window.

Lemma normalize_scale k v : 0 < k -> normalize (vscale k v) = normalize v.
Proof.
  intros K. unfold normalize.
  assert (L : vlength (vscale k v) = k * vlength v).
  { unfold vlength, sq_length, vscale, vmap; cbn. replace (k * vx v * (k * vx v) + k * vy v * (k * vy v) + k * vz v * (k * vz v)) with (k * k * (vx v * vx v + vy v * vy v + vz v * vz v)) by ring.
    rewrite sqrt_mult_alt by nra. rewrite sqrt_square by lra. reflexivity. }
  rewrite L. destruct (Reqb (vlength v) 0) eqn:Q; Rb.
  - rewrite Q, Rmult_0_r. destruct (Reqb 0 0) eqn:Q2; Rb; [|lra]. unfold vlength in Q. apply sqrt_eq_0 in Q; [|unfold sq_length; nra].
    unfold sq_length in Q. destruct v as [a b c]; cbn in Q |- *. unfold vscale, vmap; cbn. assert (a = 0 /\ b = 0 /\ c = 0) by (repeat split; nra). destruct H as (-> & -> & ->). f_equal; ring.
  - destruct (Reqb (k * vlength v) 0) eqn:Q2; Rb; [exfalso; nra|]. unfold vscale, vmap; cbn. f_equal; field; nra.
Qed.
Lemma normalize_unit_pos v : 0 < vz v -> unit (normalize v) /\ exists l, 0 < l /\ v = vscale l (normalize v).
Proof.
  intros H. assert (L : 0 < vlength v) by (unfold vlength; apply sqrt_lt_R0; unfold sq_length; nra).
  unfold normalize. destruct (Reqb _ 0) eqn:Q; Rb; [lra|]. split.
  - unfold unit; cbn. assert (LL : vlength v * vlength v = vx v * vx v + vy v * vy v + vz v * vz v) by (unfold vlength; rewrite sqrt_sqrt; [reflexivity|unfold sq_length; nra]).
    set (l := vlength v) in *. field_simplify; [|lra]. apply Rmult_eq_reg_r with (l ^ 2); [|apply pow_nonzero; lra]. field_simplify; [|lra]. nra.
  - exists (vlength v). split; [exact L|]. destruct v; unfold vscale, vmap; cbn. cbn in L. f_equal; field; lra.
Qed.
(** the lens: origin in the disk, direction a unit vector leading to the focal point *)
Lemma lens_main lens focal u v o d : 0 <= u <= 1 -> 0 <= v <= 1 -> 0 < lens -> 0 < focal -> 0 < vz d -> vz o = 0 ->
  let F := vadd o (vscale (focal / vz d) d) in let r := lens_ray lens focal u v o d in
  vz F = focal /\ vz (fst r) = 0 /\ vx (fst r) * vx (fst r) + vy (fst r) * vy (fst r) <= lens * lens /\
  unit (snd r) /\ exists k, 0 < k /\ vadd (fst r) (vscale k (snd r)) = F.
Proof.
  intros U V L FO D O F r. unfold r, lens_ray. replace (Rltb 0 lens) with true by (symmetry; now apply Rltb_true).
  pose proof (concentric_main u v) as CM. destruct (concentric_sample_disk u v) as [a b] eqn:Q.
  assert (FZ : vz F = focal) by (unfold F, vadd, vscale, vmap2, vmap; cbn; rewrite O; field; lra).
  fold F. cbn [fst snd vx vy vz]. split; [exact FZ|]. split; [reflexivity|]. split.
  { assert (B : a * a + b * b <= 1).
    { cbn [fst snd] in CM. cbv zeta in CM. set (r0 := Rmax (Rabs (2 * u - 1)) (Rabs (2 * v - 1))) in *.
      assert (R1 : r0 <= 1) by (apply Rmax_lub; apply Rabs_le; lra).
      assert (R0 : 0 <= r0) by (apply Rle_trans with (Rabs (2 * u - 1)); [apply Rabs_pos|apply Rmax_l]).
      rewrite CM. nra. }
    replace (a * lens * (a * lens) + b * lens * (b * lens)) with ((a * a + b * b) * (lens * lens)) by ring. nra. }
  destruct (normalize_unit_pos (vsub F (mkV (a * lens) (b * lens) 0))) as (UN & k & K & E).
  { change (0 < vz F - 0). lra. }
  split; [exact UN|]. exists k. split; [exact K|]. rewrite <- E. destruct F; unfold vadd, vsub, vmap2; cbn. f_equal; ring.
Qed.

Lemma lerp_shutter s a b : lerp (stime s) a b = shutter_time s a b.
Proof. unfold lerp, shutter_time. ring. Qed.
(** the perspective camera in closed form *)
Lemma persp_closed c2w x0 x1 y0 y1 op cl lens foc fov xres yres :
  0 < xres -> 0 < yres -> x0 < x1 -> y0 < y1 -> 0 < fov < 180 ->
  exists c, persp_make c2w x0 x1 y0 y1 op cl lens foc fov xres yres = Ok c /\ pc_c2w c = c2w /\ pc_open c = op /\ pc_close c = cl /\
    pc_lens c = lens /\ pc_focal c = foc /\
    forall X Y, t_point (pc_r2c c) (mkV X Y 0) = vscale (1 / 1000) (mkV (half_tan fov * screen_x xres x0 x1 X) (half_tan fov * screen_y yres y0 y1 Y) 1).
Proof.
  intros A B C D F. destruct (persp_ok xres yres x0 x1 y0 y1 A B C D fov F) as (p & P & Q). unfold persp_make. rewrite P. cbn [bind].
  eexists. split; [reflexivity|]. repeat split; try reflexivity. exact Q.
Qed.
Lemma persp_nolens_ray c2w x0 x1 y0 y1 op cl lens foc fov xres yres s :
  0 < xres -> 0 < yres -> x0 < x1 -> y0 < y1 -> 0 < fov < 180 -> lens <= 0 ->
  exists c d, persp_make c2w x0 x1 y0 y1 op cl lens foc fov xres yres = Ok c /\ unit d /\
    (exists l, 0 < l /\ mkV (half_tan fov * screen_x xres x0 x1 (imageX s)) (half_tan fov * screen_y yres y0 y1 (imageY s)) 1 = vscale l d) /\
    persp_ray c s = a_ray c2w (camera_space_ray vzero d (shutter_time s op cl)).
Proof.
  intros A B C D F L. destruct (persp_closed c2w x0 x1 y0 y1 op cl lens foc fov xres yres A B C D F) as (c & E & E1 & E2 & E3 & E4 & E5 & PT).
  exists c. set (q := mkV (half_tan fov * screen_x xres x0 x1 (imageX s)) (half_tan fov * screen_y yres y0 y1 (imageY s)) 1).
  exists (normalize q). destruct (normalize_unit_pos q) as (U & l & Lp & Ls); [unfold q; cbn; lra|].
  split; [exact E|]. split; [exact U|]. split; [exists l; now split|].
  unfold persp_ray. rewrite PT. fold q. rewrite normalize_scale by lra. unfold lens_ray. rewrite E4. replace (Rltb 0 lens) with false by (symmetry; apply Rltb_false; lra).
  rewrite E1, E2, E3, lerp_shutter. reflexivity.
Qed.
Lemma normalize_z v : 0 < vz v -> 0 < vz (normalize v) /\ vscale (/ vz (normalize v)) (normalize v) = vscale (/ vz v) v.
Proof.
  intros H. destruct (normalize_unit_pos v H) as (_ & l & L & E). remember (normalize v) as w. subst v. destruct w as [a b c]; unfold vscale, vmap in *; cbn in *.
  assert (0 < c) by nra. split; [assumption|]. f_equal; field; lra.
Qed.
Lemma persp_lens_ray c2w x0 x1 y0 y1 op cl lens foc fov xres yres s :
  0 < xres -> 0 < yres -> x0 < x1 -> y0 < y1 -> 0 < fov < 180 -> 0 < lens -> 0 < foc -> 0 <= lens_u s <= 1 -> 0 <= lens_v s <= 1 ->
  exists c o d, persp_make c2w x0 x1 y0 y1 op cl lens foc fov xres yres = Ok c /\
    vz o = 0 /\ vx o * vx o + vy o * vy o <= lens * lens /\ unit d /\
    (exists k, 0 < k /\ vadd o (vscale k d) = vscale foc (mkV (half_tan fov * screen_x xres x0 x1 (imageX s)) (half_tan fov * screen_y yres y0 y1 (imageY s)) 1)) /\
    persp_ray c s = a_ray c2w (camera_space_ray o d (shutter_time s op cl)).
Proof.
  intros A B C D F L FO U V. destruct (persp_closed c2w x0 x1 y0 y1 op cl lens foc fov xres yres A B C D F) as (c & E & E1 & E2 & E3 & E4 & E5 & PT).
  exists c. set (q := mkV (half_tan fov * screen_x xres x0 x1 (imageX s)) (half_tan fov * screen_y yres y0 y1 (imageY s)) 1).
  destruct (normalize_z q) as (NZ & NS); [unfold q; cbn; lra|].
  pose proof (lens_main lens foc (lens_u s) (lens_v s) vzero (normalize q) U V L FO NZ eq_refl) as M. cbv zeta in M.
  unfold persp_ray. rewrite PT. fold q. rewrite normalize_scale by lra. rewrite E1, E2, E3, E4, E5, lerp_shutter.
  destruct (lens_ray lens foc (lens_u s) (lens_v s) vzero (normalize q)) as [o d]. cbn [fst snd] in M. destruct M as (M1 & M2 & M3 & M4 & k & K & M5).
  exists o, d. split; [exact E|]. repeat (split; [assumption|]). split; [|reflexivity].
  exists k. split; [exact K|]. rewrite M5. change (vz q) with 1 in NS.
  transitivity (vscale foc (vscale (/ vz (normalize q)) (normalize q))).
  - destruct (normalize q) as [a b z]; unfold vadd, vscale, vmap2, vmap, vzero; cbn. unfold Rdiv. f_equal; ring.
  - rewrite NS. unfold vscale, vmap; cbn. f_equal; field.
Qed.
(** orthographic *)
Lemma ortho_nolens c2w x0 x1 y0 y1 op cl lens foc xres yres s :
  0 < xres -> 0 < yres -> x0 < x1 -> y0 < y1 -> lens <= 0 ->
  ortho_ray (ortho_make c2w x0 x1 y0 y1 op cl lens foc xres yres) s =
  a_ray c2w (camera_space_ray (mkV (screen_x xres x0 x1 (imageX s)) (screen_y yres y0 y1 (imageY s)) 0) (mkV 0 0 1) (shutter_time s op cl)).
Proof.
  intros A B C D L. unfold ortho_ray, ortho_make; cbn [pc_r2c pc_lens pc_focal pc_c2w pc_open pc_close]. rewrite ortho_pt by assumption. unfold lens_ray.
  replace (Rltb 0 lens) with false by (symmetry; apply Rltb_false; lra). rewrite lerp_shutter. reflexivity.
Qed.
Lemma ortho_lens c2w x0 x1 y0 y1 op cl lens foc xres yres s :
  0 < xres -> 0 < yres -> x0 < x1 -> y0 < y1 -> 0 < lens -> 0 < foc -> 0 <= lens_u s <= 1 -> 0 <= lens_v s <= 1 ->
  exists o d, vz o = 0 /\ vx o * vx o + vy o * vy o <= lens * lens /\ unit d /\
    (exists k, 0 < k /\ vadd o (vscale k d) = mkV (screen_x xres x0 x1 (imageX s)) (screen_y yres y0 y1 (imageY s)) foc) /\
    ortho_ray (ortho_make c2w x0 x1 y0 y1 op cl lens foc xres yres) s = a_ray c2w (camera_space_ray o d (shutter_time s op cl)).
Proof.
  intros A B C D L FO U V. set (p := mkV (screen_x xres x0 x1 (imageX s)) (screen_y yres y0 y1 (imageY s)) 0).
  pose proof (lens_main lens foc (lens_u s) (lens_v s) p (mkV 0 0 1) U V L FO Rlt_0_1 eq_refl) as M. cbv zeta in M.
  unfold ortho_ray, ortho_make; cbn [pc_r2c pc_lens pc_focal pc_c2w pc_open pc_close]. rewrite ortho_pt by assumption. fold p. rewrite lerp_shutter.
  destruct (lens_ray lens foc (lens_u s) (lens_v s) p (mkV 0 0 1)) as [o d]. cbn [fst snd] in M. destruct M as (M1 & M2 & M3 & M4 & k & K & M5).
  exists o, d. repeat (split; [assumption|]). split; [|reflexivity]. exists k. split; [exact K|]. rewrite M5. unfold p, vadd, vscale, vmap2, vmap; cbn. f_equal; field.
Qed.
Lemma ortho_lens_origin c2w x0 x1 y0 y1 op cl lens foc xres yres s s' t r r' :
  0 < lens -> static c2w t -> lens_u s' = lens_u s -> lens_v s' = lens_v s ->
  ortho_ray (ortho_make c2w x0 x1 y0 y1 op cl lens foc xres yres) s = Ok r ->
  ortho_ray (ortho_make c2w x0 x1 y0 y1 op cl lens foc xres yres) s' = Ok r' -> ro r' = ro r.
Proof.
  intros L (SA & ST) EU EV. unfold ortho_ray, ortho_make; cbn [pc_r2c pc_lens pc_focal pc_c2w pc_open pc_close]. unfold lens_ray.
  replace (Rltb 0 lens) with true by (symmetry; now apply Rltb_true). rewrite EU, EV. destruct (concentric_sample_disk (lens_u s) (lens_v s)) as [a b].
  unfold a_ray. rewrite SA; cbn [negb orb]. intros Q Q'. injection Q as <-. injection Q' as <-. reflexivity.
Qed.
(** perspective differentials *)
Lemma persp_diff c2w x0 x1 y0 y1 op cl lens foc fov xres yres s t :
  0 < xres -> 0 < yres -> x0 < x1 -> y0 < y1 -> 0 < fov < 180 -> static c2w t ->
  exists c g r rx ry, persp_make c2w x0 x1 y0 y1 op cl lens foc fov xres yres = Ok c /\
    persp_raydiff c s = Ok g /\ persp_ray c s = Ok r /\ persp_ray c (shifted 1 0 s) = Ok rx /\ persp_ray c (shifted 0 1 s) = Ok ry /\
    rd_has g = true /\ ro (rd_ray g) = ro r /\ rd (rd_ray g) = rd r /\ rtime (rd_ray g) = stime s /\
    ro rx = t_point t (rd_rxo g) /\ rd rx = t_vector t (rd_rxd g) /\ ro ry = t_point t (rd_ryo g) /\ rd ry = t_vector t (rd_ryd g) /\
    (lens <= 0 -> rd_rxo g = vzero).
Proof.
  intros A B C D F (SA & ST). destruct (persp_closed c2w x0 x1 y0 y1 op cl lens foc fov xres yres A B C D F) as (c & E & E1 & E2 & E3 & E4 & E5 & PT).
  assert (DX : vadd (persp_dx c) (t_point (pc_r2c c) (mkV (imageX s) (imageY s) 0)) = t_point (pc_r2c c) (mkV (imageX s + 1) (imageY s + 0) 0)).
  { unfold persp_dx, vzero. rewrite !PT. unfold vadd, vsub, vscale, vmap2, vmap, screen_x, screen_y; cbn. f_equal; field; lra. }
  assert (DY : vadd (persp_dy c) (t_point (pc_r2c c) (mkV (imageX s) (imageY s) 0)) = t_point (pc_r2c c) (mkV (imageX s + 0) (imageY s + 1) 0)).
  { unfold persp_dy, vzero. rewrite !PT. unfold vadd, vsub, vscale, vmap2, vmap, screen_x, screen_y; cbn. f_equal; field; lra. }
  assert (DY' : vadd (t_point (pc_r2c c) (mkV (imageX s) (imageY s) 0)) (persp_dy c) = t_point (pc_r2c c) (mkV (imageX s + 0) (imageY s + 1) 0)).
  { rewrite <- DY. unfold vadd, vmap2. f_equal; ring. }
  exists c. unfold persp_raydiff, persp_ray. rewrite DX, DY, DY', E4, E5, E1, E2, E3. cbn [shifted imageX imageY lens_u lens_v stime].
  set (p := t_point (pc_r2c c) (mkV (imageX s) (imageY s) 0)). set (px := t_point (pc_r2c c) (mkV (imageX s + 1) (imageY s + 0) 0)).
  set (py := t_point (pc_r2c c) (mkV (imageX s + 0) (imageY s + 1) 0)). unfold lens_ray, lens_shift.
  assert (ZZ : forall v, vadd vzero v = v) by (intros [a b z]; unfold vadd, vmap2, vzero; cbn; f_equal; ring).
  destruct (Rltb 0 lens) eqn:Q.
  - destruct (concentric_sample_disk (lens_u s) (lens_v s)) as [a b]. rewrite !ZZ. unfold a_raydiff, a_ray. rewrite SA. cbn [negb orb bind]. rewrite ST.
    do 4 eexists. split; [exact E|]. repeat (split; [reflexivity|]). intros L. Rb. lra.
  - unfold a_raydiff, a_ray. rewrite SA. cbn [negb orb bind]. rewrite ST.
    do 4 eexists. split; [exact E|]. repeat (split; [reflexivity|]). reflexivity.
Qed.
(** orthographic differentials: the camera transform is applied twice to the ray, and not to the offsets *)
Lemma ortho_diff c2w x0 x1 y0 y1 op cl foc xres yres s t : 0 < xres -> 0 < yres -> x0 < x1 -> y0 < y1 -> static c2w t ->
  let c := ortho_make c2w x0 x1 y0 y1 op cl 0 foc xres yres in
  exists g r rx ry, ortho_raydiff c s = Ok g /\ ortho_ray c s = Ok r /\ ortho_ray c (shifted 1 0 s) = Ok rx /\ ortho_ray c (shifted 0 1 s) = Ok ry /\
    ro (rd_ray g) = t_point t (ro r) /\ rd (rd_ray g) = t_vector t (rd r) /\ rd_has g = true /\
    rd_rxd g = rd r /\ rd_ryd g = rd r /\ rd_rxo g = vadd (ro r) (mkV ((x1 - x0) / xres) 0 0) /\ rd_ryo g = vadd (ro r) (mkV 0 ((y0 - y1) / yres) 0) /\
    ro r = t_point t (mkV (screen_x xres x0 x1 (imageX s)) (screen_y yres y0 y1 (imageY s)) 0) /\
    ro rx = t_point t (mkV (screen_x xres x0 x1 (imageX s) + (x1 - x0) / xres) (screen_y yres y0 y1 (imageY s)) 0) /\
    ro ry = t_point t (mkV (screen_x xres x0 x1 (imageX s)) (screen_y yres y0 y1 (imageY s) + (y0 - y1) / yres) 0) /\
    rd r = t_vector t (mkV 0 0 1) /\ rd rx = t_vector t (mkV 0 0 1) /\ rd ry = t_vector t (mkV 0 0 1) /\ rtime (rd_ray g) = rtime r.
Proof.
  intros A B C D (SA & ST) c.
  assert (R0 : forall s', ortho_ray c s' = Ok (t_ray t (camera_space_ray (mkV (screen_x xres x0 x1 (imageX s')) (screen_y yres y0 y1 (imageY s')) 0) (mkV 0 0 1) (shutter_time s' op cl)))).
  { intros s'. unfold c. rewrite ortho_nolens by (try assumption; lra). unfold a_ray. rewrite SA. cbn [negb orb]. now rewrite ST. }
  unfold ortho_raydiff. rewrite !R0. cbn [bind]. unfold a_raydiff. change (pc_c2w c) with c2w. rewrite SA. cbn [negb orb]. rewrite ST.
  do 4 eexists. do 4 (split; [reflexivity|]). cbn [t_raydiff rd_ray rd_has rd_rxo rd_ryo rd_rxd rd_ryd raydiff_from_rd t_ray ro rd rtime ray_from_ray camera_space_ray].
  repeat (split; [reflexivity|]). unfold c; cbn [ortho_make pc_r2c]. rewrite !ortho_vec by assumption. cbn [vx vy vz].
  split; [f_equal; f_equal; field; lra|]. split; [f_equal; f_equal; field; lra|]. split; [reflexivity|].
  split; [f_equal; unfold screen_x, screen_y; cbn; f_equal; field; lra|]. split; [f_equal; unfold screen_x, screen_y; cbn; f_equal; field; lra|].
  repeat split; reflexivity.
Qed.
