(** Orientation of normals, derivatives of sphere normals, solid-angle densities. *)
From Coq Require Import Reals Lra Lia List ZArith Bool Psatz.
From Verif Require Import Base M_Geometry S_Geometry P_Geometry M_Transform S_Transform P_Transform P_Transform2
  M_MonteCarlo M_Film M_Shapes S_Shapes P_Quadrics P_Triangle P_Normals P_Mesh P_ShapesMore.
Import ListNotations.
Open Scope R_scope.

Lemma normalize_dot_sign n w : n <> vzero -> exists k, 0 < k /\ vdot (normalize n) w = k * vdot n w.
Proof.
  intros H. assert (L : 0 < vlength n).
  { destruct (sqrt_pos (sq_length n)) as [P|P]; [exact P|]. exfalso. apply H, vlength_zero. symmetry. exact P. }
  exists (/ vlength n). split; [now apply Rinv_0_lt_compat|]. pose proof (normalize_parallel n) as E.
  assert (Q : vdot n w = vlength n * vdot (normalize n) w).
  { rewrite E at 1. unfold vdot, vscale, vmap; cbn. ring. }
  rewrite Q. field. lra.
Qed.
(** the normal of a patch with tangents M du, M dv, where du x dv = k q, points to the side of M q unless the
    orientation is reversed *)
Lemma oriented b p du dv a c u v q k : base_ok b -> 0 < k -> vcross du dv = vscale k q -> q <> vzero ->
  let g := dg_make (b_flip b) p (t_vector (b_o2w b) du) (t_vector (b_o2w b) dv) a c u v in
  (b_ro b = false -> 0 < vdot (dg_nn g) (t_vector (b_o2w b) q)) /\
  (b_ro b = true -> vdot (dg_nn g) (t_vector (b_o2w b) q) < 0).
Proof.
  intros [Hb _] K X Q g. pose proof (built_valid _ Hb) as V.
  assert (Q2 : 0 < vdot q q).
  { destruct (sq_length_nonneg q) as [P|P]; [exact P|]. exfalso. apply Q, vlength_zero. unfold vlength. rewrite <- P. apply sqrt_0. }
  assert (N0 : vcross du dv <> vzero).
  { rewrite X. intros Z0. apply (f_equal (fun w => vdot w q)) in Z0. unfold vdot, vscale, vmap, vzero in Z0, Q2; cbn in Z0, Q2. nra. }
  pose proof (cross_image_nonzero _ _ _ V N0) as N1.
  destruct (normalize_dot_sign _ (t_vector (b_o2w b) q) N1) as (c0 & C & E).
  rewrite det_cross in E by apply V. rewrite X in E.
  assert (E2 : vdot (vscale k q) q = k * vdot q q) by (unfold vdot, vscale, vmap; cbn; ring). rewrite E2 in E.
  pose proof (tvalid_det _ V) as D. set (m := normalize _) in *. set (w := t_vector (b_o2w b) q) in *.
  assert (NN : vdot (dg_nn g) w = if b_flip b then - vdot m w else vdot m w).
  { unfold g. cbn [dg_make dg_nn]. fold m. destruct (b_flip b); [|reflexivity]. unfold vdot, vscale, vmap; cbn. ring. }
  assert (KQ : 0 < c0 * (k * vdot q q)) by (apply Rmult_lt_0_compat; [exact C|apply Rmult_lt_0_compat; assumption]).
  assert (E3 : vdot m w = det3 (tm (b_o2w b)) * (c0 * (k * vdot q q))) by (rewrite E; ring).
  rewrite NN. unfold b_flip, swaps_handedness. set (dt := det3 (tm (b_o2w b))) in *.
  destruct (Rltb dt 0) eqn:S0; Rb; split; intros ->; cbn [xorb]; rewrite E3; nra.
Qed.

(** object-space geometry of a sphere hit away from the poles *)
Lemma sphere_tangents s q : 0 < sp_r s -> 0 < sp_phimax s -> sp_tmax s < sp_tmin s ->
  vdot q q = sp_r s * sp_r s -> (vx q <> 0 \/ vy q <> 0) ->
  exists du dv k, 0 < k /\ vcross du dv = vscale k q /\ vdot du q = 0 /\ vdot dv q = 0 /\
    let g := sphere_dg s q in
    g = dg_make (b_flip (sp_base s)) (t_point (b_o2w (sp_base s)) q) (t_vector (b_o2w (sp_base s)) du) (t_vector (b_o2w (sp_base s)) dv)
          (t_normal (b_o2w (sp_base s)) (vscale (1 / sp_r s) du)) (t_normal (b_o2w (sp_base s)) (vscale (1 / sp_r s) dv))
          (dg_u g) (dg_v g).
Proof.
  intros HR HP HT HQ Hn. set (zr := sqrt (vx q * vx q + vy q * vy q)).
  assert (Pq : 0 < vx q * vx q + vy q * vy q).
  { destruct Hn as [Hn|Hn].
    - pose proof (Rsqr_pos_lt _ Hn) as X. unfold Rsqr in X. nra.
    - pose proof (Rsqr_pos_lt _ Hn) as X. unfold Rsqr in X. nra. }
  assert (Hz : 0 < zr) by (apply sqrt_lt_R0; auto).
  assert (Hzz : zr * zr = vx q * vx q + vy q * vy q) by (apply sqrt_sqrt; lra).
  assert (F2 : vx q * vx q + vy q * vy q + vz q * vz q = sp_r s * sp_r s) by (rewrite <- HQ; reflexivity).
  assert (Hb1 : -1 <= vz q / sp_r s <= 1).
  { split; [apply (Rmult_le_reg_r (sp_r s))|apply (Rmult_le_reg_r (sp_r s))]; auto;
    unfold Rdiv; rewrite Rmult_assoc, Rinv_l by lra; nra. }
  assert (Hst : sp_r s * sin (acos (vz q / sp_r s)) = zr).
  { rewrite sin_acos by exact Hb1.
    assert (1 - (vz q / sp_r s)² = (zr / sp_r s) * (zr / sp_r s)) as ->.
    { unfold Rsqr. unfold Rdiv. apply (Rmult_eq_reg_r (sp_r s * sp_r s)); [|nra].
      transitivity (sp_r s * sp_r s - vz q * vz q); [field; lra|].
      transitivity (zr * zr); [lra|field; lra]. }
    rewrite sqrt_square; [field; lra|]. apply Rlt_le, Rdiv_lt_0_compat; lra. }
  set (dt := sp_tmax s - sp_tmin s). assert (DT : dt < 0) by (unfold dt; lra).
  set (du := mkV (- sp_phimax s * vy q) (sp_phimax s * vx q) 0).
  set (dv := vscale (dt * / zr) (mkV (vz q * vx q) (vz q * vy q) (- (zr * zr)))).
  set (ph := sp_phimax s) in *. set (Rr := sp_r s) in *.
  assert (Hr2 : zr * zr = Rr * Rr - vz q * vz q) by (rewrite Hzz; lra).
  assert (XC : vcross du dv = vscale (- (ph * dt * zr)) q).
  { unfold du, dv, vcross, vscale, vmap. apply V3_eq; cbn.
    - field. lra.
    - field. lra.
    - transitivity (- (ph * dt * (vx q * vx q + vy q * vy q) / zr) * vz q); [field; lra|]. rewrite <- Hzz. field. lra. }
  assert (KP : 0 < - (ph * dt * zr)).
  { assert (ph * dt < 0) by nra. nra. }
  assert (LEN : vlength (vcross du dv) = - (ph * dt * zr) * Rr).
  { rewrite XC. unfold vlength, sq_length. rewrite <- (sqrt_square (- (ph * dt * zr) * Rr)) by nra. f_equal.
    unfold vdot, vscale, vmap; cbn.
    transitivity ((ph * dt * zr) * (ph * dt * zr) * (vx q * vx q + vy q * vy q + vz q * vz q)); [ring|]. rewrite F2. ring. }
  assert (NRM : normalize (vcross du dv) = vscale (/ Rr) q).
  { pose proof (normalize_parallel (vcross du dv)) as E. rewrite LEN, XC in E.
    assert (KR : - (ph * dt * zr) * Rr <> 0) by nra.
    rewrite XC. destruct (normalize (vscale (- (ph * dt * zr)) q)) as [a b c]. destruct q as [x y z].
    unfold vscale, vmap in *; cbn in *. injection E as E1 E2 E3. set (kk := - (ph * dt * zr)) in *.
    assert (KK : kk <> 0) by lra.
    f_equal; [apply (Rmult_eq_reg_l (kk * Rr)); [rewrite <- E1|exact KR]|apply (Rmult_eq_reg_l (kk * Rr)); [rewrite <- E2|exact KR]|
      apply (Rmult_eq_reg_l (kk * Rr)); [rewrite <- E3|exact KR]]; field; lra. }
  exists du, dv, (- (ph * dt * zr)). split; [exact KP|]. split; [exact XC|]. split; [unfold du, vdot; cbn; ring|]. split.
  { unfold dv, vdot, vscale, vmap; cbn. transitivity (dt * / zr * vz q * (vx q * vx q + vy q * vy q - zr * zr)); [ring|rewrite Hzz; ring]. }
  cbv zeta. unfold sphere_dg. fold ph Rr dt zr. rewrite clip_id by exact Hb1. set (th := acos (vz q / Rr)) in *.
  assert (Ev : vscale dt (mkV (vz q * (vx q * (1 / zr))) (vz q * (vy q * (1 / zr))) (- Rr * sin th)) = dv).
  { unfold dv, vscale, vmap; cbn. apply V3_eq; cbn; try (field; lra).
    replace (- Rr * sin th) with (- zr) by lra. field. lra. }
  rewrite Ev. fold du.
  set (d2uu := vscale (- ph * ph) (mkV (vx q) (vy q) 0)).
  set (d2uv := vscale (dt * vz q * ph) (mkV (- (vy q * (1 / zr))) (vx q * (1 / zr)) 0)).
  set (d2vv := vscale (- dt * dt) (mkV (vx q) (vy q) (vz q))).
  assert (W : weingarten du dv d2uu d2uv d2vv = (vscale (1 / Rr) du, vscale (1 / Rr) dv)).
  { assert (EE : vdot du du = ph * ph * (zr * zr)) by (rewrite Hzz; unfold du, vdot; cbn; ring).
    assert (FF : vdot du dv = 0) by (unfold du, dv, vdot, vscale, vmap; cbn; ring).
    assert (GG : vdot dv dv = dt * dt * (Rr * Rr)).
    { unfold dv, vdot, vscale, vmap; cbn.
      transitivity (dt * dt * / zr * / zr * (vz q * vz q * (vx q * vx q + vy q * vy q) + zr * zr * (zr * zr))); [ring|].
      rewrite <- Hzz. transitivity (dt * dt * (vz q * vz q + zr * zr)); [field; lra|]. rewrite Hr2. ring. }
    assert (e0 : vdot (vscale (/ Rr) q) d2uu = - (ph * ph * (zr * zr)) / Rr).
    { rewrite Hzz. unfold d2uu, vdot, vscale, vmap; cbn. field. lra. }
    assert (f0 : vdot (vscale (/ Rr) q) d2uv = 0) by (unfold d2uv, vdot, vscale, vmap; cbn; ring).
    assert (g0 : vdot (vscale (/ Rr) q) d2vv = - (dt * dt * (Rr * Rr)) / Rr).
    { unfold d2vv, vdot, vscale, vmap; cbn. transitivity (- (dt * dt) * / Rr * (vx q * vx q + vy q * vy q + vz q * vz q)); [ring|]. rewrite F2. field. lra. }
    unfold weingarten. cbv zeta. rewrite NRM, EE, FF, GG, e0, f0, g0.
    assert (P0 : ph <> 0) by lra. assert (D0 : dt <> 0) by lra. assert (Z0 : zr <> 0) by lra. assert (R0 : Rr <> 0) by lra.
    f_equal; unfold vadd, vscale, vmap2, vmap; apply V3_eq; cbn; field; auto. }
  rewrite W. cbn [dg_u dg_v dg_make]. reflexivity.
Qed.
Lemma sphere_hit_obj s r h : sphere_ok s -> base_ok (sp_base s) -> notnan (rmint r) -> notnan (rmaxt r) ->
  sphere_intersect s r = Some h ->
  let q := t_point (b_w2o (sp_base s)) (ray_at r (h_t h)) in (vx q <> 0 \/ vy q <> 0) ->
  h_dg h = sphere_dg s q /\ vdot q q = sp_r s * sp_r s.
Proof.
  intros Hok Hb Hm HM HI q Hn. pose proof (sphere_find_spec s r Hok Hm HM) as F. cbv zeta in F.
  unfold sphere_intersect in HI. destruct (sphere_find s r) as [[t p]|]; [|discriminate].
  injection HI as <-. cbn [h_t h_dg] in *. destruct F as (_ & F2 & F3 & _).
  assert (Ep : p = q).
  { rewrite F3. unfold sphere_phit, q. rewrite base_ray by auto. unfold q in Hn.
    destruct (Reqb _ 0 && Reqb _ 0) eqn:E; auto.
    apply andb_true_iff in E. destruct E as [E1 E2]. Rb. destruct Hn; contradiction. }
  rewrite base_ray in F2 by auto. fold q in F2. destruct F2 as [F2 _]. rewrite Ep. split; [reflexivity|].
  unfold vdot. lra.
Qed.
Lemma point_minus_center t q : tvalid t -> vsub (t_point t q) (t_point t vzero) = t_vector t q.
Proof.
  intros V. assert (A : affine (tm t)) by apply V. rewrite !t_point_affine by exact A.
  destruct t as [[[a b c d] [e f g h] [i j k l] r3] ti]. destruct q.
  unfold apt, t_vector, vsub, vmap2, vzero, dot4; cbn. apply V3_eq; cbn; ring.
Qed.
Lemma cross_image t u v : tvalid t -> vcross (t_vector t u) (t_vector t v) = vscale (det3 (tm t)) (t_normal t (vcross u v)).
Proof.
  intros V. set (x := vcross (t_vector t u) (t_vector t v)). set (y := vscale _ _).
  assert (E : forall w, vdot (vsub x y) (t_vector t w) = 0).
  { intros w. assert (X : vdot x (t_vector t w) = det3 (tm t) * vdot (vcross u v) w) by (apply det_cross, V).
    assert (Y : vdot y (t_vector t w) = det3 (tm t) * vdot (vcross u v) w).
    { rewrite <- (normal_perp t _ w V). unfold y, vdot, vscale, vmap; cbn. ring. }
    assert (D : forall p q z, vdot (vsub p q) z = vdot p z - vdot q z) by (intros [] [] []; unfold vdot, vsub, vmap2; cbn; ring).
    rewrite D, X, Y. ring. }
  assert (S0 : t_vector t (t_vector (t_inverse t) (vsub x y)) = vsub x y).
  { pose proof (inv_vector (t_inverse t) (vsub x y)) as I0. destruct t; cbn in *. apply I0. now apply tvalid_inv. }
  specialize (E (t_vector (t_inverse t) (vsub x y))). rewrite S0 in E.
  change (vdot (vsub x y) (vsub x y)) with (sq_length (vsub x y)) in E.
  assert (Z0 : vsub x y = vzero) by (apply vlength_zero; unfold vlength; rewrite E; apply sqrt_0).
  destruct x, y. unfold vsub, vmap2, vzero in Z0; cbn in Z0. injection Z0 as A B C. f_equal; lra.
Qed.

(** sphere hits: orientation *)
Lemma sphere_oriented s r h : sphere_ok s -> 0 < sp_phimax s -> sp_tmax s < sp_tmin s -> base_ok (sp_base s) ->
  notnan (rmint r) -> notnan (rmaxt r) -> sphere_intersect s r = Some h ->
  let q := t_point (b_w2o (sp_base s)) (ray_at r (h_t h)) in (vx q <> 0 \/ vy q <> 0) ->
  let c := t_point (b_o2w (sp_base s)) vzero in
  (b_ro (sp_base s) = false -> 0 < vdot (dg_nn (h_dg h)) (vsub (ray_at r (h_t h)) c)) /\
  (b_ro (sp_base s) = true -> vdot (dg_nn (h_dg h)) (vsub (ray_at r (h_t h)) c) < 0).
Proof.
  intros OK HP HT Hb Hm HM HI q Hn c. destruct (sphere_hit_obj s r h OK Hb Hm HM HI Hn) as [E Q]. fold q in E, Q.
  assert (HR : 0 < sp_r s) by apply OK.
  destruct (sphere_tangents s q HR HP HT Q Hn) as (du & dv & k & K & X & _ & _ & G). cbv zeta in G.
  assert (V : tvalid (b_o2w (sp_base s))) by (apply built_valid, Hb).
  assert (RT : ray_at r (h_t h) = t_point (b_o2w (sp_base s)) q) by (symmetry; now apply base_round).
  unfold c. rewrite RT, point_minus_center by exact V. rewrite E, G. apply oriented with (k := k); auto.
  intros Z0. rewrite Z0 in Q. unfold vdot, vzero in Q; cbn in Q. nra.
Qed.
(** placements that keep lengths and angles *)
Lemma sphere_curvature s r h : sphere_ok s -> 0 < sp_phimax s -> sp_tmax s < sp_tmin s -> base_ok (sp_base s) ->
  (forall v w, vdot (t_vector (b_o2w (sp_base s)) v) (t_vector (b_o2w (sp_base s)) w) = vdot v w) ->
  notnan (rmint r) -> notnan (rmaxt r) -> sphere_intersect s r = Some h ->
  let q := t_point (b_w2o (sp_base s)) (ray_at r (h_t h)) in (vx q <> 0 \/ vy q <> 0) ->
  let c := t_point (b_o2w (sp_base s)) vzero in
  vscale (sp_r s) (dg_nn (h_dg h)) = vscale (if b_ro (sp_base s) then -1 else 1) (vsub (ray_at r (h_t h)) c) /\
  vscale (sp_r s) (dg_dndu (h_dg h)) = dg_dpdu (h_dg h) /\ vscale (sp_r s) (dg_dndv (h_dg h)) = dg_dpdv (h_dg h).
Proof.
  intros OK HP HT Hb RIG Hm HM HI q Hn c. pose proof (sphere_oriented s r h OK HP HT Hb Hm HM HI Hn) as OR. cbv zeta in OR.
  destruct (sphere_normal s r h OK Hb Hm HM HP ltac:(lra) HI Hn) as [U PERP]. fold q in PERP.
  destruct (sphere_hit_obj s r h OK Hb Hm HM HI Hn) as [E Q]. fold q in E, Q.
  assert (HR : 0 < sp_r s) by apply OK.
  destruct (sphere_tangents s q HR HP HT Q Hn) as (du & dv & k & K & X & P1 & P2 & G). cbv zeta in G.
  set (o2w := b_o2w (sp_base s)) in *.
  assert (V : tvalid o2w) by (apply built_valid, Hb).
  assert (RT : ray_at r (h_t h) = t_point o2w q) by (symmetry; now apply base_round).
  assert (NV : forall v, t_normal o2w v = t_vector o2w v).
  { intros v. assert (D : forall w, vdot (vsub (t_normal o2w v) (t_vector o2w v)) (t_vector o2w w) = 0).
    { intros w. pose proof (normal_perp o2w v w V) as A. pose proof (RIG v w) as B.
      assert (D : forall p q z, vdot (vsub p q) z = vdot p z - vdot q z) by (intros [] [] []; unfold vdot, vsub, vmap2; cbn; ring).
      rewrite D, A, B. ring. }
    specialize (D (t_vector (t_inverse o2w) (vsub (t_normal o2w v) (t_vector o2w v)))).
    assert (S0 : forall w, t_vector o2w (t_vector (t_inverse o2w) w) = w).
    { intros w. pose proof (inv_vector (t_inverse o2w) w (tvalid_inv _ V)) as I0. destruct o2w; exact I0. }
    rewrite S0 in D. set (z := vsub _ _) in D. change (vdot z z) with (sq_length z) in D.
    assert (Z0 : z = vzero) by (apply vlength_zero; unfold vlength; rewrite D; apply sqrt_0).
    unfold z in Z0. destruct (t_normal o2w v), (t_vector o2w v). unfold vsub, vmap2, vzero in Z0; cbn in Z0. injection Z0 as A B C.
    f_equal; lra. }
  assert (SC : forall a v, vscale a (t_vector o2w (vscale (1 / a) v)) = t_vector o2w v \/ a = 0).
  { intros a v. destruct (Req_dec a 0) as [A|A]; [now right|left]. destruct v.
    unfold t_vector, vscale, vmap, dot4; cbn. f_equal; field; exact A. }
  split.
  - unfold c. rewrite RT, point_minus_center in * by exact V. set (n := dg_nn (h_dg h)) in *. set (w := t_vector o2w q) in *.
    assert (WW : vdot w w = sp_r s * sp_r s) by (unfold w; rewrite RIG; exact Q).
    (* n is parallel to w: the difference of n and its projection is an image of a tangent *)
    set (a := vdot n w / (sp_r s * sp_r s)).
    set (z := t_vector (t_inverse o2w) (vsub n (vscale a w))).
    assert (S0 : t_vector o2w z = vsub n (vscale a w)).
    { pose proof (inv_vector (t_inverse o2w) (vsub n (vscale a w)) (tvalid_inv _ V)) as I0. destruct o2w; exact I0. }
    assert (ZQ : vdot z q = 0).
    { rewrite <- RIG, S0. fold w. transitivity (vdot n w - a * vdot w w); [destruct n, w; unfold vdot, vsub, vscale, vmap2, vmap; cbn; ring|].
      rewrite WW. unfold a. field. lra. }
    pose proof (PERP z ZQ) as PZ. rewrite S0 in PZ.
    assert (LZ : vdot z z = 0).
    { rewrite <- RIG, S0. assert (ZW : vdot (vsub n (vscale a w)) w = 0) by (rewrite <- S0; unfold w; rewrite RIG; exact ZQ).
      transitivity (vdot n (vsub n (vscale a w)) - a * vdot (vsub n (vscale a w)) w);
        [destruct n, w; unfold vdot, vsub, vscale, vmap2, vmap; cbn; ring|]. rewrite PZ, ZW. ring. }
    assert (N1 : n = vscale a w).
    { assert (Z0 : vsub n (vscale a w) = vzero).
      { rewrite <- S0. assert (ZZ : z = vzero) by (apply vlength_zero; unfold vlength; change (sq_length z) with (vdot z z); rewrite LZ; apply sqrt_0).
        rewrite ZZ. unfold t_vector, vzero, dot4; cbn. f_equal; ring. }
      destruct n, w. unfold vsub, vscale, vmap2, vmap, vzero in *; cbn in *. injection Z0 as A B C. f_equal; lra. }
    assert (AA : a * a * (sp_r s * sp_r s) = 1).
    { rewrite <- WW. transitivity (vdot n n); [rewrite N1; destruct w; unfold vdot, vscale, vmap; cbn; ring|].
      unfold unit in U. unfold vdot. exact U. }
    assert (NW : vdot n w = a * (sp_r s * sp_r s)) by (unfold a; field; lra).
    assert (AR : a * sp_r s = if b_ro (sp_base s) then -1 else 1).
    { assert (F : (a * sp_r s - 1) * (a * sp_r s + 1) = 0) by (transitivity (a * a * (sp_r s * sp_r s) - 1); [ring|lra]).
      destruct OR as [O1 O2]. assert (R2 : 0 < sp_r s * sp_r s) by nra.
      destruct (b_ro (sp_base s)).
      - specialize (O2 eq_refl). rewrite NW in O2. assert (a < 0) by nra. assert (a * sp_r s < 0) by nra.
        apply Rmult_integral in F. destruct F; lra.
      - specialize (O1 eq_refl). rewrite NW in O1. assert (0 < a) by nra. assert (0 < a * sp_r s) by nra.
        apply Rmult_integral in F. destruct F; lra. }
    rewrite N1, <- AR. destruct w. unfold vscale, vmap; cbn. f_equal; ring.
  - rewrite E, G. cbn [dg_make dg_dndu dg_dndv dg_dpdu dg_dpdv]. fold o2w. rewrite !NV.
    destruct (SC (sp_r s) du) as [->|A]; [|lra]. destruct (SC (sp_r s) dv) as [->|A]; [|lra]. now split.
Qed.
(** disk hits *)
Lemma disk_oriented d r h : 0 < dk_phimax d <= 2 * PI -> 0 <= dk_ri d < dk_r d -> base_ok (dk_base d) -> notnan (rmint r) -> notnan (rmaxt r) ->
  disk_intersect d r = Ok (Some h) ->
  let up := t_vector (b_o2w (dk_base d)) (mkV 0 0 1) in
  unit (dg_nn (h_dg h)) /\
  (forall x y, vdot (dg_nn (h_dg h)) (t_vector (b_o2w (dk_base d)) (mkV x y 0)) = 0) /\
  (b_ro (dk_base d) = false -> 0 < vdot (dg_nn (h_dg h)) up) /\ (b_ro (dk_base d) = true -> vdot (dg_nn (h_dg h)) up < 0).
Proof.
  intros HP HR Hb Hm HM HI up. unfold disk_intersect in HI. destruct (disk_find d r) as [[t q]|]; [|discriminate].
  destruct (disk_dg d q) as [g|e] eqn:EG; [|discriminate]. cbn [bind] in HI. injection HI as <-. cbn [h_dg].
  unfold disk_dg in EG. cbv zeta in EG. destruct (Rleb _ _) eqn:E; [discriminate|]. injection EG as <-. Rb.
  set (v := 1 - sqrt _ / _). set (du := vscale _ (mkV (- dk_phimax d * vy q) _ _)). set (dv := vscale _ (mkV (- vx q / _) _ _)).
  set (z2 := vx q * vx q + vy q * vy q) in *.
  assert (V1 : 0 < 1 - v).
  { unfold v. replace (1 - (1 - sqrt (z2 - dk_ri d) / (dk_r d - dk_ri d))) with (sqrt (z2 - dk_ri d) / (dk_r d - dk_ri d)) by ring.
    apply Rdiv_lt_0_compat; [apply sqrt_lt_R0; lra|lra]. }
  pose proof PI_RGT_0 as PP.
  set (kk := dk_phimax d * (1 / (2 * PI)) * dk_phimax d * ((dk_r d - dk_ri d) / dk_r d) * / (1 - v) * z2).
  assert (X : vcross du dv = vscale kk (mkV 0 0 1)).
  { unfold du, dv, kk, z2, vcross, vscale, vmap. apply V3_eq; cbn; field; repeat split; lra. }
  assert (K : 0 < kk).
  { unfold kk. repeat apply Rmult_lt_0_compat; try lra.
    all: apply Rinv_0_lt_compat; lra. }
  assert (N0 : mkV 0 0 1 <> vzero) by (unfold vzero; intros Z0; injection Z0; lra).
  assert (NX : vcross du dv <> vzero).
  { rewrite X. unfold vscale, vmap, vzero; cbn. intros Z0. injection Z0. lra. }
  destruct (dg_make_surface (b_flip (dk_base d)) (dk_base d) (t_point (b_o2w (dk_base d)) q) du dv
     (t_normal (b_o2w (dk_base d)) vzero) (t_normal (b_o2w (dk_base d)) vzero) (hit_phi q / dk_phimax d) v (mkV 0 0 1) Hb) as [U W]; auto.
  - unfold du, vdot, vscale, vmap; cbn. ring.
  - unfold dv, vdot, vscale, vmap; cbn. ring.
  - split; [exact U|]. split; [|apply oriented with (k := kk); auto].
    intros x y. apply W. unfold vdot; cbn. ring.
Qed.
(** solid-angle density of a triangle *)
Lemma vdot_comm0 a b : vdot a b = vdot b a. Proof. destruct a, b; unfold vdot; cbn; ring. Qed.
Lemma Rabs0 x : Rabs x = 0 -> x = 0. Proof. intros H. destruct (Req_dec x 0); [assumption|]. now apply Rabs_no_R0 in H0. Qed.
Lemma tri_normal_of_hit b nt nv vi P N S uv al f r h : faces_ok vi (length P) -> (3 * f + 2 < length vi)%nat ->
  tri_intersect (mesh_make b nt nv vi P N S uv al) (3 * Z.of_nat f) r = Ok (Some h) ->
  let a := corner (b_o2w b) vi P f 0 in let c := corner (b_o2w b) vi P f 1 in let d := corner (b_o2w b) vi P f 2 in
  unit (dg_nn (h_dg h)) /\ vdot (dg_nn (h_dg h)) (vsub c a) = 0 /\ vdot (dg_nn (h_dg h)) (vsub d a) = 0.
Proof.
  intros HF Hl HI a c d. rewrite (tri_intersect_unfold b nt nv vi P N S uv al f r HF Hl) in HI. fold a c d in HI.
  destruct (Reqb _ _) eqn:ED; [discriminate|]. apply Reqb_false in ED. rewrite mt_div_normal in ED.
  assert (HN : tri_normal a c d <> vzero).
  { intros Z0. apply ED. rewrite Z0. unfold vdot, vzero; cbn. ring. }
  revert HI. cbv zeta.
  repeat (match goal with |- (if ?x then _ else _) = _ -> _ => destruct x; [discriminate|] end).
  destruct (tri_uvs _ _) as [[[[u0 v0] [u1 v1]] [u2 v2]]|]; [|discriminate]. cbn [bind].
  match goal with |- (if ?x then _ else _) = _ -> _ => destruct x; [discriminate|] end.
  intros HI. match type of HI with Ok (Some ?x) = _ => assert (HX : h = x) by congruence end. rewrite HX. cbn [h_dg]. apply tri_dg_normal. exact HN.
Qed.
Lemma tri_pdf_hit b nt nv vi P N S uv f pnt wi t : faces_ok vi (length P) -> (3 * f + 2 < length vi)%nat ->
  (forall l, uv = Some l -> (6 * f + 6 <= length l)%nat) -> unit wi ->
  let a := corner (b_o2w b) vi P f 0 in let c := corner (b_o2w b) vi P f 1 in let d := corner (b_o2w b) vi P f 2 in
  vdot wi (tri_normal a c d) <> 0 -> EPS <= t -> in_triangle a c d (vadd pnt (vscale t wi)) ->
  exists A dns, tri_area (mesh_make b nt nv vi P N S uv None) (3 * Z.of_nat f) = Ok A /\
    shape_pdf_p (tri_intersect (mesh_make b nt nv vi P N S uv None) (3 * Z.of_nat f)) A pnt wi = Ok dns /\
    dns * Rabs (vdot wi (tri_normal a c d)) = 2 * (t * t).
Proof.
  intros HF Hl Hu U a c d HN HT IN. set (m := mesh_make b nt nv vi P N S uv None).
  destruct (tri_area_spec b nt nv vi P N S uv None f HF Hl) as (A & EA & A0 & A4). fold m a c d in EA, A4.
  destruct (tri_hit_complete b nt nv vi P N S uv None f (ray_new pnt wi EPS) HF Hl t eq_refl) as (h & HI & TH);
    [destruct uv; cbn; auto|discriminate|discriminate|exact HN|split; [apply Rleb_true; exact HT|reflexivity]|exact IN|].
  exists A. unfold shape_pdf_p. fold m in HI. rewrite HI. cbn [bind]. eexists. split; [exact EA|]. split; [reflexivity|].
  assert (LEN : sq_length (vsub pnt (ray_at (ray_new pnt wi EPS) (h_t h))) = t * t).
  { rewrite TH. unfold unit in U. unfold sq_length, ray_at, ray_new, vdot, vsub, vadd, vscale, vmap2, vmap; cbn.
    destruct wi; cbn in *. transitivity (t * t * (vx * vx + vy * vy + vz * vz)); [ring|]. rewrite U. ring. }
  rewrite LEN. destruct (tri_normal_of_hit b nt nv vi P N S uv None f (ray_new pnt wi EPS) h HF Hl HI) as (U2 & N1 & N2). fold a c d in N1, N2.
  (* the unit normal is parallel to the cross product of the edges *)
  set (n := dg_nn (h_dg h)) in *. set (T := tri_normal a c d) in *.
  assert (TT : vdot T T = 4 * (A * A)).
  { rewrite A4. unfold T, tri_normal. destruct a, c, d. unfold vdot, vcross, vsub, vmap2; cbn. ring. }
  assert (PAR : forall w, vdot n w * vdot n T = vdot T w).
  { intros w. unfold T, tri_normal. set (e1 := vsub c a) in *. set (e2 := vsub d a) in *. unfold unit in U2.
    assert (X : vdot n w * vdot n (vcross e1 e2) - vdot (vcross e1 e2) w * vdot n n =
       vdot n e1 * (vdot w (vcross e2 n) * 1) + vdot n e2 * vdot w (vcross n e1)).
    { destruct n, w, e1, e2. unfold vdot, vcross; cbn. ring. }
    rewrite N1, N2 in X. assert (UU : vdot n n = 1) by exact U2. rewrite UU in X. lra. }
  assert (NT : vdot n T * vdot n T = 4 * (A * A)) by (rewrite <- TT; apply PAR).
  assert (AP : 0 < A).
  { destruct A0 as [A0|A0]; [exact A0|]. exfalso. apply HN. rewrite <- A0 in NT. rewrite vdot_comm0. rewrite <- PAR. 
    assert (NZ : vdot n T = 0) by nra. rewrite NZ. ring. }
  assert (ABS : Rabs (vdot n T) = 2 * A).
  { rewrite <- (Rabs_pos_eq (2 * A)) by lra. apply Rsqr_eq_abs_0. unfold Rsqr. lra. }
  assert (CS : Rabs (vdot wi T) = abs_dot n (vneg wi) * (2 * A)).
  { rewrite (vdot_comm0 wi T), <- PAR, Rabs_mult, ABS. f_equal. unfold abs_dot.
    replace (vdot n (vneg wi)) with (- vdot n wi) by (destruct n, wi; unfold vdot, vneg, vmap; cbn; ring). now rewrite Rabs_Ropp. }
  assert (CP : abs_dot n (vneg wi) <> 0).
  { intros Z0. rewrite Z0 in CS. rewrite Rmult_0_l in CS. apply HN. now apply Rabs0. }
  rewrite CS. field. split; [lra|exact CP].
Qed.
