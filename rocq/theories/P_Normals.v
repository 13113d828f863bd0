(** Proofs about differential geometry: normals, tangents, ray differentials. *)
From Coq Require Import Reals Lra Lia List ZArith Bool Psatz.
From Verif Require Import Base M_Geometry S_Geometry P_Geometry M_Transform S_Transform P_Transform P_Transform2
  M_MonteCarlo M_Film M_Shapes S_Shapes P_Quadrics P_Triangle.
Import ListNotations.
Open Scope R_scope.

Lemma det_cross t u v w : affine (tm t) ->
  vdot (vcross (t_vector t u) (t_vector t v)) (t_vector t w) = det3 (tm t) * vdot (vcross u v) w.
Proof.
  intros HA. destruct t as [[[a b c d] [e f g h] [i j k l] r3] ti]. unfold affine in HA; cbn in HA. subst r3.
  destruct u, v, w. unfold vdot, vcross, t_vector, dot4, det3; cbn. ring.
Qed.
Lemma cross_image_nonzero t u v : tvalid t -> vcross u v <> vzero -> vcross (t_vector t u) (t_vector t v) <> vzero.
Proof.
  intros V H E. pose proof (det_cross t u v (vcross u v)) as D. rewrite E in D.
  assert (affine (tm t)) by apply V. specialize (D H0).
  assert (vdot vzero (t_vector t (vcross u v)) = 0) as Z0 by (unfold vdot, vzero; cbn; ring).
  rewrite Z0 in D. symmetry in D. apply Rmult_integral in D. destruct D as [D|D].
  - now apply (tvalid_det t V).
  - change (vdot (vcross u v) (vcross u v)) with (sq_length (vcross u v)) in D.
    apply H. apply vlength_zero. unfold vlength. rewrite D. apply sqrt_0.
Qed.
Lemma normalize_dot0 n w : vdot n w = 0 -> vdot (normalize n) w = 0.
Proof.
  intros H. pose proof (normalize_parallel n) as Hp.
  destruct (Req_dec (vlength n) 0) as [E|E].
  - apply vlength_zero in E. subst n. rewrite normalize_zero. unfold vdot, vzero; cbn; ring.
  - assert (vlength n * vdot (normalize n) w = 0).
    { rewrite <- H. rewrite Hp at 3. unfold vdot, vscale, vmap; cbn. ring. }
    apply Rmult_integral in H0. destruct H0; [contradiction|auto].
Qed.
Lemma dg_make_normal flip p du dv a b u v : vcross du dv <> vzero ->
  unit (dg_nn (dg_make flip p du dv a b u v)) /\
  (forall w, vdot (vcross du dv) w = 0 -> vdot (dg_nn (dg_make flip p du dv a b u v)) w = 0).
Proof.
  intros H. cbn [dg_make dg_nn]. pose proof (normalize_unit _ H) as U.
  assert (forall w, vdot (vcross du dv) w = 0 -> vdot (normalize (vcross du dv)) w = 0) as W by (intros; now apply normalize_dot0).
  destruct flip; [|split; auto]. split.
  - unfold unit, vscale, vmap in *; cbn in *. lra.
  - intros w Hw. specialize (W w Hw). unfold vdot, vscale, vmap in *; cbn in *. lra.
Qed.
Lemma cross_orth_span u v q w : vdot u q = 0 -> vdot v q = 0 -> q <> vzero -> vdot w q = 0 -> vdot (vcross u v) w = 0.
Proof.
  intros Hu Hv Hq Hw.
  assert (S : 0 < sq_length q).
  { destruct (sq_length_nonneg q); auto. exfalso. apply Hq. apply vlength_zero. unfold vlength. rewrite <- H. apply sqrt_0. }
  assert (E : sq_length q * vdot (vcross u v) w = vdot q (vcross u v) * vdot w q).
  { assert (sq_length q * vdot (vcross u v) w - vdot q (vcross u v) * vdot w q =
      vdot v q * (vdot w u * 0) + (vdot u q * vdot (vcross q v) w - vdot v q * vdot (vcross q u) w)) as X.
    { unfold sq_length, vdot, vcross. destruct u, v, q, w; cbn. ring. }
    rewrite Hu, Hv in X. lra. }
  rewrite Hw in E. apply (Rmult_eq_reg_l (sq_length q)); lra.
Qed.
(** A surface normal built from two independent tangents at a point where the surface's object-space
    normal is [q] is a unit vector perpendicular to every world-space tangent. *)
Lemma dg_make_surface flip b p du dv a c u v q : base_ok b -> vdot du q = 0 -> vdot dv q = 0 -> q <> vzero ->
  vcross du dv <> vzero ->
  let g := dg_make flip p (t_vector (b_o2w b) du) (t_vector (b_o2w b) dv) a c u v in
  unit (dg_nn g) /\ forall w, vdot w q = 0 -> vdot (dg_nn g) (t_vector (b_o2w b) w) = 0.
Proof.
  intros [Hb _] Hu Hv Hq Hn g. pose proof (built_valid _ Hb) as V.
  destruct (dg_make_normal flip p (t_vector (b_o2w b) du) (t_vector (b_o2w b) dv) a c u v) as [U W].
  - now apply cross_image_nonzero.
  - split; [exact U|]. intros w Hw. apply W. rewrite det_cross by apply V.
    rewrite (cross_orth_span du dv q w Hu Hv Hq Hw). ring.
Qed.

(** *** Sphere normals *)
Lemma sphere_normal s r h : sphere_ok s -> base_ok (sp_base s) -> notnan (rmint r) -> notnan (rmaxt r) ->
  0 < sp_phimax s -> sp_tmin s <> sp_tmax s ->
  sphere_intersect s r = Some h ->
  let q := t_point (b_w2o (sp_base s)) (ray_at r (h_t h)) in
  vx q <> 0 \/ vy q <> 0 ->
  unit (dg_nn (h_dg h)) /\ forall w, vdot w q = 0 -> vdot (dg_nn (h_dg h)) (t_vector (b_o2w (sp_base s)) w) = 0.
Proof.
  intros Hok Hb Hm HM Hp Ht HI q Hn.
  pose proof (sphere_find_spec s r Hok Hm HM) as F. cbv zeta in F.
  unfold sphere_intersect in HI. destruct (sphere_find s r) as [[t p]|]; [|discriminate].
  injection HI as <-. cbn [h_t h_dg] in *. destruct F as (_ & F2 & F3 & _).
  assert (Ep : p = q).
  { rewrite F3. unfold sphere_phit, q. rewrite base_ray by auto. unfold q in Hn.
    destruct (Reqb _ 0 && Reqb _ 0) eqn:E; auto.
    apply andb_true_iff in E. destruct E as [E1 E2]. Rb. destruct Hn; contradiction. }
  rewrite base_ray in F2 by auto. fold q in F2. destruct F2 as [F2 _].
  destruct Hok as (HR & _).
  rewrite Ep. unfold sphere_dg. destruct (weingarten _ _ _ _ _) as [dndu dndv].
  set (zr := sqrt (vx q * vx q + vy q * vy q)).
  assert (Pq : 0 < vx q * vx q + vy q * vy q).
  { destruct Hn as [Hn|Hn].
    - pose proof (Rsqr_pos_lt _ Hn) as X. unfold Rsqr in X. nra.
    - pose proof (Rsqr_pos_lt _ Hn) as X. unfold Rsqr in X. nra. }
  assert (Hz : 0 < zr) by (apply sqrt_lt_R0; auto).
  assert (Hzz : zr * zr = vx q * vx q + vy q * vy q) by (apply sqrt_sqrt; lra).
  assert (Hb1 : -1 <= vz q / sp_r s <= 1).
  { split; [apply (Rmult_le_reg_r (sp_r s))|apply (Rmult_le_reg_r (sp_r s))]; auto;
    unfold Rdiv; rewrite Rmult_assoc, Rinv_l by lra; nra. }
  rewrite clip_id by exact Hb1.
  assert (Hst : sp_r s * sin (acos (vz q / sp_r s)) = zr).
  { rewrite sin_acos by exact Hb1.
    assert (1 - (vz q / sp_r s)² = (zr / sp_r s) * (zr / sp_r s)) as ->.
    { unfold Rsqr. unfold Rdiv. apply (Rmult_eq_reg_r (sp_r s * sp_r s)); [|nra].
      transitivity (sp_r s * sp_r s - vz q * vz q); [field; lra|].
      transitivity (zr * zr); [lra|field; lra]. }
    rewrite sqrt_square; [field; lra|]. apply Rlt_le, Rdiv_lt_0_compat; lra. }
  set (th := acos _) in *.
  set (du := mkV (- sp_phimax s * vy q) (sp_phimax s * vx q) 0).
  set (dv := vscale (sp_tmax s - sp_tmin s) _).
  assert (Ev : dv = vscale ((sp_tmax s - sp_tmin s) * / zr) (mkV (vz q * vx q) (vz q * vy q) (- zr * zr))).
  { unfold dv, vscale, vmap; cbn. apply V3_eq; cbn; try (field; lra).
    replace (- sp_r s * sin th) with (- zr) by lra. field. lra. }
  apply dg_make_surface with (q := q); auto.
  - unfold du, vdot; cbn. ring.
  - rewrite Ev. unfold vdot, vscale, vmap; cbn. rewrite <- Hzz || idtac.
    transitivity ((sp_tmax s - sp_tmin s) * / zr * vz q * (vx q * vx q + vy q * vy q - zr * zr)); [ring|rewrite Hzz; ring].
  - intros E. rewrite E in Pq. cbn in Pq. lra.
  - intros E. rewrite Ev in E. pose proof (f_equal vx E) as Ex. pose proof (f_equal vy E) as Ey.
    unfold du, vcross, vscale, vmap in Ex, Ey; cbn in Ex, Ey.
    assert (X : sp_phimax s * (sp_tmax s - sp_tmin s) * zr * vx q = 0).
    { transitivity (- (sp_phimax s * vx q * ((sp_tmax s - sp_tmin s) * / zr * (- zr * zr)) -
                    0 * ((sp_tmax s - sp_tmin s) * / zr * (vz q * vy q)))); [field; lra|lra]. }
    assert (Y : sp_phimax s * (sp_tmax s - sp_tmin s) * zr * vy q = 0).
    { transitivity (- (0 * ((sp_tmax s - sp_tmin s) * / zr * (vz q * vx q)) -
                    - sp_phimax s * vy q * ((sp_tmax s - sp_tmin s) * / zr * (- zr * zr)))); [field; lra|lra]. }
    assert (N0 : sp_phimax s * (sp_tmax s - sp_tmin s) * zr <> 0).
    { repeat apply Rmult_integral_contrapositive_currified; lra. }
    apply Rmult_integral in X, Y. destruct X, Y; try contradiction. destruct Hn; contradiction.
Qed.

(** *** Triangle normals and tangents *)
Lemma coordinate_system_parts v a b c : unit v -> coordinate_system v = (a, b, c) ->
  unit b /\ unit c /\ orth v b /\ orth v c /\ orth b c.
Proof.
  intros U E. pose proof (coordinate_system_ortho v U) as H. rewrite E in H. cbv zeta in H. destruct H as (H1 & H2 & H3 & H4 & H5 & H6). subst a. repeat split; auto.
Qed.
Lemma vsub_span p1 p2 p3 (w : vec) : vdot w (vsub p2 p1) = 0 -> vdot w (vsub p3 p1) = 0 ->
  vdot w (vsub p1 p3) = 0 /\ vdot w (vsub p2 p3) = 0.
Proof. destruct w, p1, p2, p3. unfold vdot, vsub, vmap2; cbn. intros; split; lra. Qed.
Lemma unit_cross_nonzero a b : unit a -> unit b -> orth a b -> vcross a b <> vzero.
Proof.
  intros A B O E. pose proof (cross_unit a b A B O) as U. rewrite E in U. unfold unit, vzero in U; cbn in U. lra.
Qed.
Lemma tri_dg_normal m p1 p2 p3 q u0 v0 u1 v1 u2 v2 b1 b2 : tri_normal p1 p2 p3 <> vzero ->
  let g := tri_dg m p1 p2 p3 q ((u0, v0), (u1, v1), (u2, v2)) b1 b2 in
  unit (dg_nn g) /\ vdot (dg_nn g) (vsub p2 p1) = 0 /\ vdot (dg_nn g) (vsub p3 p1) = 0.
Proof.
  intros HN. cbv zeta. unfold tri_dg. cbv zeta.
  set (det := (u0 - u2) * (v1 - v2) - (u1 - u2) * (v0 - v2)).
  assert (G : forall du dv a c u v, vcross du dv <> vzero ->
     (vdot (vcross du dv) (vsub p2 p1) = 0 /\ vdot (vcross du dv) (vsub p3 p1) = 0) ->
     let g := dg_make (b_flip (m_base m)) q du dv a c u v in
     unit (dg_nn g) /\ vdot (dg_nn g) (vsub p2 p1) = 0 /\ vdot (dg_nn g) (vsub p3 p1) = 0).
  { intros du dv a c u v X [Y1 Y2]. destruct (dg_make_normal (b_flip (m_base m)) q du dv a c u v X) as [U W].
    split; [exact U|]. split; apply W; assumption. }
  destruct (Reqb det 0) eqn:E; Rb.
  - set (n := normalize (vcross (vsub p3 p1) (vsub p2 p1))).
    assert (Hc : vcross (vsub p3 p1) (vsub p2 p1) <> vzero).
    { intros E0. apply HN. unfold tri_normal. destruct p1, p2, p3. unfold vcross, vsub, vmap2, vzero in *; cbn in *.
      injection E0 as X1 X2 X3. apply V3_eq; cbn; lra. }
    pose proof (normalize_unit _ Hc) as U. fold n in U.
    assert (N1 : vdot n (vsub p2 p1) = 0).
    { apply normalize_dot0. destruct p1, p2, p3; unfold vdot, vcross, vsub, vmap2; cbn; ring. }
    assert (N2 : vdot n (vsub p3 p1) = 0).
    { apply normalize_dot0. destruct p1, p2, p3; unfold vdot, vcross, vsub, vmap2; cbn; ring. }
    destruct (coordinate_system n) as [[z a] c] eqn:EC.
    apply coordinate_system_parts in EC; auto. destruct EC as (Ua & Uc & Oa & Oc & Oac).
    apply G; [now apply unit_cross_nonzero|].
    assert (n <> vzero) by (intros Z0; rewrite Z0 in U; unfold unit, vzero in U; cbn in U; lra).
    split; apply (cross_orth_span a c n); auto;
      unfold orth, vdot in *; lra.
  - set (di := 1 / det).
    assert (Hdi : di * det = 1) by (unfold di; field; auto).
    assert (K : forall k dpdu dpdv : vec, dpdu = vscale di (vsub (vscale (v1 - v2) (vsub p1 p3)) (vscale (v0 - v2) (vsub p2 p3))) ->
       dpdv = vscale di (vadd (vscale (- (u1 - u2)) (vsub p1 p3)) (vscale (u0 - u2) (vsub p2 p3))) ->
       vcross dpdu dpdv = vscale di (tri_normal p1 p2 p3)).
    { intros _ du dv -> ->.
      transitivity (vscale (di * (di * det)) (tri_normal p1 p2 p3)); [|rewrite Hdi; f_equal; ring].
      unfold det, tri_normal. destruct p1, p2, p3. unfold vcross, vscale, vadd, vsub, vmap2, vmap; cbn.
      apply V3_eq; cbn; ring. }
    assert (Hdi0 : di <> 0) by (intros Z0; rewrite Z0 in Hdi; lra).
    apply G; rewrite (K vzero _ _ eq_refl eq_refl).
    + intros Z0. apply HN. now apply (vscale_zero di).
    + unfold tri_normal. destruct p1, p2, p3; unfold vdot, vscale, vcross, vsub, vmap2, vmap; cbn. split; ring.
Qed.
(** The tangents explain the difference of corner positions by the difference of corner parameters. *)
Lemma tri_dg_tangents m p1 p2 p3 q u0 v0 u1 v1 u2 v2 b1 b2 :
  (u0 - u2) * (v1 - v2) - (u1 - u2) * (v0 - v2) <> 0 ->
  let g := tri_dg m p1 p2 p3 q ((u0, v0), (u1, v1), (u2, v2)) b1 b2 in
  vsub p1 p3 = vadd (vscale (u0 - u2) (dg_dpdu g)) (vscale (v0 - v2) (dg_dpdv g)) /\
  vsub p2 p3 = vadd (vscale (u1 - u2) (dg_dpdu g)) (vscale (v1 - v2) (dg_dpdv g)).
Proof.
  intros H. cbv zeta. unfold tri_dg. cbv zeta.
  destruct (Reqb _ 0) eqn:E; Rb; [contradiction|]. cbn [dg_make dg_dpdu dg_dpdv].
  destruct p1, p2, p3. unfold vscale, vadd, vsub, vmap2, vmap; cbn.
  split; apply V3_eq; cbn; field; auto.
Qed.

(** *** Ray differentials at a hit *)
Lemma plane_hit_plane nn p o d : vdot nn d <> 0 -> vdot nn (vsub (plane_hit nn p o d) p) = 0.
Proof.
  intros H. unfold plane_hit. set (k := - (vdot nn o + - vdot nn p) / vdot nn d).
  assert (k * vdot nn d = - (vdot nn o - vdot nn p)) by (unfold k; field; auto).
  transitivity (vdot nn o - vdot nn p + k * vdot nn d); [|lra].
  destruct nn, o, d, p; unfold vdot, vadd, vsub, vscale, vmap2, vmap; cbn. ring.
Qed.
Lemma plane_hit_ray nn p o d : exists t, plane_hit nn p o d = vadd o (vscale t d).
Proof. unfold plane_hit. eauto. Qed.
Lemma solve2_spec a b c d x y s t : solve2 a b c d x y = Some (s, t) -> a * s + b * t = x /\ c * s + d * t = y.
Proof.
  unfold solve2. destruct (Reqb _ 0) eqn:E; Rb; [discriminate|]. intros H; injection H as <- <-.
  split; field; auto.
Qed.
(** The normal is a non-zero multiple of the cross product of the tangents. *)
Definition nn_parallel (g : dgeom) : Prop :=
  exists k, k <> 0 /\ dg_nn g = vscale k (vcross (dg_dpdu g) (dg_dpdv g)).
Lemma dg_make_parallel flip p du dv a b u v : vcross du dv <> vzero -> nn_parallel (dg_make flip p du dv a b u v).
Proof.
  intros H. unfold nn_parallel. cbn [dg_make dg_nn dg_dpdu dg_dpdv].
  pose proof (vlength_pos _ H) as L. rewrite (normalize_scale _ H).
  destruct flip.
  - exists (- / vlength (vcross du dv)). split; [apply Ropp_neq_0_compat, Rinv_neq_0_compat; lra|].
    unfold vscale, vmap; cbn. apply V3_eq; cbn; ring.
  - exists (/ vlength (vcross du dv)). split; [apply Rinv_neq_0_compat; lra|reflexivity].
Qed.
Lemma dg_solve_spec g q a b : nn_parallel g -> vcross (dg_dpdu g) (dg_dpdv g) <> vzero ->
  vdot (dg_nn g) (vsub q (dg_p g)) = 0 -> dg_solve g q = (a, b) ->
  vsub q (dg_p g) = vadd (vscale a (dg_dpdu g)) (vscale b (dg_dpdv g)).
Proof.
  intros (k & Hk & Hn) Hc Hq. unfold dg_solve.
  destruct g as [p du dv dnu dnv nn u v ? ? ? ? ? ?]. cbn [dg_p dg_dpdu dg_dpdv dg_nn] in *.
  destruct du as [ux uy uz], dv as [wx wy wz], p as [px py pz], q as [qx qy qz].
  unfold vcross, vscale, vmap in Hn; cbn in Hn.
  unfold vcross in Hc; cbn in Hc.
  set (cx := uy * wz - uz * wy) in *. set (cy := uz * wx - ux * wz) in *. set (cz := ux * wy - uy * wx) in *.
  assert (Hq' : cx * (qx - px) + cy * (qy - py) + cz * (qz - pz) = 0).
  { rewrite Hn in Hq. unfold vdot, vsub, vmap2 in Hq; cbn in Hq.
    apply (Rmult_eq_reg_l k); auto. lra. }
  assert (Cu : cx * ux + cy * uy + cz * uz = 0) by (unfold cx, cy, cz; ring).
  assert (Cv : cx * wx + cy * wy + cz * wz = 0) by (unfold cx, cy, cz; ring).
  assert (Ab : forall c d : R, Rabs (k * c) < Rabs (k * d) -> d <> 0).
  { intros c d H E0. rewrite E0, Rmult_0_r, Rabs_R0 in H. pose proof (Rabs_pos (k * c)). lra. }
  unfold dg_axes. rewrite Hn. cbn [vx vy vz].
  assert (F : forall c X Y, c <> 0 -> c * X = c * Y -> X = Y) by (intros c X Y H1 H2; apply (Rmult_eq_reg_l c); auto).
  destruct (Rltb (Rabs (k * cy)) (Rabs (k * cx)) && Rltb (Rabs (k * cz)) (Rabs (k * cx))) eqn:E1.
  - apply andb_true_iff in E1. destruct E1 as [E1 _]. Rb. apply Ab in E1. cbn [vnth vx vy vz].
    unfold solve2. fold cx. replace (uy * wz - wy * uz) with cx by (unfold cx; ring).
    destruct (Reqb cx 0) eqn:E2; Rb; [contradiction|]. intros H; injection H as <- <-.
    set (a := _ / cx). set (b := _ / cx).
    assert (Y : uy * a + wy * b = qy - py) by (unfold a, b, cx in *; field; auto).
    assert (W : uz * a + wz * b = qz - pz) by (unfold a, b, cx in *; field; auto).
    clearbody a b. unfold vsub, vadd, vscale, vmap2, vmap; cbn. apply V3_eq; cbn; try lra.
    apply (F cx); auto. transitivity (- (cy * (uy * a + wy * b) + cz * (uz * a + wz * b))); [rewrite Y, W; lra|].
    transitivity (a * (cx * ux) + b * (cx * wx)); [|ring].
    replace (cx * ux) with (- (cy * uy + cz * uz)) by lra. replace (cx * wx) with (- (cy * wy + cz * wz)) by lra. ring.
  - destruct (Rltb (Rabs (k * cz)) (Rabs (k * cy))) eqn:E3; Rb.
    + apply Ab in E3. cbn [vnth vx vy vz]. unfold solve2.
      replace (ux * wz - wx * uz) with (- cy) by (unfold cy; ring).
      destruct (Reqb (- cy) 0) eqn:E2; Rb; [lra|]. intros H; injection H as <- <-.
      set (a := _ / - cy). set (b := _ / - cy).
      assert (X : ux * a + wx * b = qx - px) by (unfold a, b, cy in *; field; lra).
      assert (W : uz * a + wz * b = qz - pz) by (unfold a, b, cy in *; field; lra).
      clearbody a b. unfold vsub, vadd, vscale, vmap2, vmap; cbn. apply V3_eq; cbn; try lra.
      apply (F cy); auto. transitivity (- (cx * (ux * a + wx * b) + cz * (uz * a + wz * b))); [rewrite X, W; lra|].
      transitivity (a * (cy * uy) + b * (cy * wy)); [|ring].
      replace (cy * uy) with (- (cx * ux + cz * uz)) by lra. replace (cy * wy) with (- (cx * wx + cz * wz)) by lra. ring.
    + assert (Hz : cz <> 0).
      { intros E0. rewrite E0, Rmult_0_r, Rabs_R0 in *.
        assert (cy = 0).
        { destruct (Req_dec cy 0); auto. pose proof (Rabs_pos_lt (k * cy) ltac:(apply Rmult_integral_contrapositive_currified; auto)). lra. }
        apply Hc. apply V3_eq; cbn; auto.
        destruct (Req_dec cx 0); auto. exfalso.
        pose proof (Rabs_pos_lt (k * cx) ltac:(apply Rmult_integral_contrapositive_currified; auto)).
        apply andb_false_iff in E1. destruct E1; Rb; try lra. }
      cbn [vnth vx vy vz]. unfold solve2.
      replace (ux * wy - wx * uy) with cz by (unfold cz; ring).
      destruct (Reqb cz 0) eqn:E2; Rb; [contradiction|]. intros H; injection H as <- <-.
      set (a := _ / cz). set (b := _ / cz).
      assert (X : ux * a + wx * b = qx - px) by (unfold a, b, cz in *; field; auto).
      assert (Y : uy * a + wy * b = qy - py) by (unfold a, b, cz in *; field; auto).
      clearbody a b. unfold vsub, vadd, vscale, vmap2, vmap; cbn. apply V3_eq; cbn; try lra.
      apply (F cz); auto. transitivity (- (cx * (ux * a + wx * b) + cy * (uy * a + wy * b))); [rewrite X, Y; lra|].
      transitivity (a * (cz * uz) + b * (cz * wz)); [|ring].
      replace (cz * uz) with (- (cx * ux + cy * uy)) by lra. replace (cz * wz) with (- (cx * wx + cy * wy)) by lra. ring.
Qed.
Lemma compute_differential_spec flip p du dv a b u v r : vcross du dv <> vzero ->
  let g := dg_make flip p du dv a b u v in let g' := compute_differential g r in
  rd_has r = true -> vdot (dg_nn g) (rd_rxd r) <> 0 -> vdot (dg_nn g) (rd_ryd r) <> 0 ->
  (exists t, vadd p (dg_dpdx g') = vadd (rd_rxo r) (vscale t (rd_rxd r))) /\
  (exists t, vadd p (dg_dpdy g') = vadd (rd_ryo r) (vscale t (rd_ryd r))) /\
  vdot (dg_nn g) (dg_dpdx g') = 0 /\ vdot (dg_nn g) (dg_dpdy g') = 0 /\
  dg_dpdx g' = vadd (vscale (dg_dudx g') du) (vscale (dg_dvdx g') dv) /\
  dg_dpdy g' = vadd (vscale (dg_dudy g') du) (vscale (dg_dvdy g') dv).
Proof.
  intros Hc g g' Hr Hx Hy. unfold g', compute_differential. rewrite Hr.
  pose proof (dg_make_parallel flip p du dv a b u v Hc) as Hp. fold g in Hp.
  pose proof (plane_hit_plane (dg_nn g) p (rd_rxo r) (rd_rxd r) Hx) as Px.
  pose proof (plane_hit_plane (dg_nn g) p (rd_ryo r) (rd_ryd r) Hy) as Py.
  change (dg_p g) with p.
  destruct (plane_hit_ray (dg_nn g) p (rd_rxo r) (rd_rxd r)) as [tx Tx].
  destruct (plane_hit_ray (dg_nn g) p (rd_ryo r) (rd_ryd r)) as [ty Ty].
  set (qx := plane_hit _ _ (rd_rxo r) _) in *. set (qy := plane_hit _ _ (rd_ryo r) _) in *.
  destruct (dg_solve g qx) as [ux wx] eqn:Sx. destruct (dg_solve g qy) as [uy wy] eqn:Sy.
  pose proof (dg_solve_spec g qx ux wx Hp Hc Px Sx) as Ex.
  pose proof (dg_solve_spec g qy uy wy Hp Hc Py Sy) as Ey.
  cbn [dg_dpdx dg_dpdy dg_dudx dg_dvdx dg_dudy dg_dvdy].
  assert (A : forall x, vadd p (vsub x p) = x).
  { intros x. destruct x, p; unfold vadd, vsub, vmap2; cbn. apply V3_eq; cbn; ring. }
  split; [exists tx; rewrite A; exact Tx|]. split; [exists ty; rewrite A; exact Ty|].
  split; [exact Px|]. split; [exact Py|]. split; [exact Ex|exact Ey].
Qed.
Lemma compute_differential_none g r : rd_has r = false ->
  let g' := compute_differential g r in
  dg_dudx g' = 0 /\ dg_dvdx g' = 0 /\ dg_dudy g' = 0 /\ dg_dvdy g' = 0 /\ dg_dpdx g' = vzero /\ dg_dpdy g' = vzero.
Proof. intros H. cbv zeta. unfold compute_differential. rewrite H. cbn. tauto. Qed.
