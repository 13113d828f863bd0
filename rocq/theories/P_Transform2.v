(** Proofs about applying transforms, quaternions and animated transforms. *)
From Coq Require Import Reals Lra Lia List Bool ZArith Psatz Nsatz.
From Verif Require Import Base M_Geometry S_Geometry P_Geometry M_Transform S_Transform P_Transform.
Import ListNotations.
Open Scope R_scope.

Lemma ne_unity_1 : ne_unity 1 = false.
Proof. unfold ne_unity, EPS. apply orb_false_iff. split; apply Rltb_false; lra. Qed.

(** affine matrices act without perspective division *)
Definition apt (m : M4) (p : vec) : vec :=
  let h := mkV4 (vx p) (vy p) (vz p) 1 in mkV (dot4 (row0 m) h) (dot4 (row1 m) h) (dot4 (row2 m) h).
Lemma t_point_affine t p : affine (tm t) -> t_point t p = apt (tm t) p.
Proof.
  intros A. unfold t_point, apt, affine in *. rewrite A.
  replace (dot4 (mkV4 0 0 0 1) (mkV4 (vx p) (vy p) (vz p) 1)) with 1 by (unfold dot4; cbn; ring).
  rewrite ne_unity_1. reflexivity.
Qed.
Lemma apt_mul a b p : affine b -> apt (mmul a b) p = apt a (apt b p).
Proof.
  unfold affine, apt. intros B. destruct a as [[] [] [] []], b as [[] [] [] []]; cbn in *.
  injection B as -> -> -> ->. unfold dot4; cbn. apply V3_eq; cbn; ring.
Qed.
Lemma apt_I p : apt I4 p = p.
Proof. unfold apt, I4, dot4; cbn. apply V3_eq; cbn; ring. Qed.

Lemma mul_point a b p : affine (tm a) -> affine (tm b) -> t_point (t_mul a b) p = t_point a (t_point b p).
Proof.
  intros A B. rewrite (t_point_affine (t_mul a b)) by (now apply affine_mul).
  rewrite !t_point_affine by auto. cbn [t_mul tm]. now apply apt_mul.
Qed.
Lemma mul_vector a b v : affine (tm b) -> t_vector (t_mul a b) v = t_vector a (t_vector b v).
Proof.
  unfold affine, t_vector. intros B. cbn [t_mul tm].
  destruct (tm a) as [[] [] [] []], (tm b) as [[] [] [] []]; cbn in *.
  injection B as -> -> -> ->. unfold dot4; cbn. apply V3_eq; cbn; ring.
Qed.
Lemma mul_normal a b n : affine (tinv a) -> t_normal (t_mul a b) n = t_normal a (t_normal b n).
Proof.
  unfold affine, t_normal. intros B. cbn [t_mul tinv].
  destruct (tinv a) as [[] [] [] []], (tinv b) as [[] [] [] []]; cbn in *.
  injection B as -> -> -> ->. unfold mmul, dot4, col0, col1, col2, col3; cbn. apply V3_eq; cbn; ring.
Qed.

Lemma inv_point t p : tvalid t -> t_point (t_inverse t) (t_point t p) = p.
Proof.
  intros (A&B&C&D). rewrite (t_point_affine t), t_point_affine by auto. cbn [t_inverse tm].
  rewrite <- apt_mul by auto. rewrite D. apply apt_I.
Qed.
Lemma t_vector_I v : t_vector t_identity v = v.
Proof. unfold t_vector, t_identity, I4, dot4; cbn. apply V3_eq; cbn; ring. Qed.
Lemma t_normal_I v : t_normal t_identity v = v.
Proof. unfold t_normal, t_identity, I4, dot4, col0, col1, col2; cbn. apply V3_eq; cbn; ring. Qed.
Lemma inv_vector t v : tvalid t -> t_vector (t_inverse t) (t_vector t v) = v.
Proof.
  intros (A&B&C&D). rewrite <- mul_vector by auto.
  transitivity (t_vector t_identity v); [|apply t_vector_I].
  unfold t_vector. cbn [t_mul t_inverse tm t_identity]. now rewrite D.
Qed.
Lemma inv_normal t v : tvalid t -> t_normal (t_inverse t) (t_normal t v) = v.
Proof.
  intros (A&B&C&D). rewrite <- mul_normal by auto.
  transitivity (t_normal t_identity v); [|apply t_normal_I].
  unfold t_normal. cbn [t_mul t_inverse tinv t_identity]. now rewrite D.
Qed.

Lemma built_round_trip t : built t ->
  (forall p, t_point (t_inverse t) (t_point t p) = p) /\
  (forall v, t_vector (t_inverse t) (t_vector t v) = v) /\
  (forall n, t_normal (t_inverse t) (t_normal t n) = n) /\
  (forall r, let r' := t_ray (t_inverse t) (t_ray t r) in
     ro r' = ro r /\ rd r' = rd r /\ rmint r' = rmint r /\ rmaxt r' = rmaxt r /\
     rdepth r' = rdepth r /\ rtime r' = rtime r).
Proof.
  intros H. apply built_valid in H. repeat split; cbn; intros;
    auto using inv_point, inv_vector, inv_normal.
Qed.
Lemma inverse_involution t : t_inverse (t_inverse t) = t.
Proof. destruct t; reflexivity. Qed.

(** moving along a transformed ray is transforming the moved point *)
Lemma ray_at_transform t r s : affine (tm t) -> ray_at (t_ray t r) s = t_point t (ray_at r s).
Proof.
  intros A. rewrite t_point_affine by auto. unfold ray_at, t_ray; cbn [ro rd].
  rewrite t_point_affine by auto. unfold apt, t_vector, dot4; cbn. apply V3_eq; cbn; ring.
Qed.

(** ** handedness *)
Lemma det3_mul a b : affine b -> det3 (mmul a b) = det3 a * det3 b.
Proof.
  unfold affine, det3. intros B. destruct a as [[] [] [] []], b as [[] [] [] []]; cbn in *.
  injection B as -> -> -> ->. unfold dot4; cbn. ring.
Qed.
Lemma det3_I : det3 I4 = 1. Proof. unfold det3, I4; cbn. ring. Qed.
Lemma tvalid_det t : tvalid t -> det3 (tm t) <> 0.
Proof.
  intros (A&B&C&D) Z. pose proof (det3_mul (tm t) (tinv t) B) as Q. rewrite C, det3_I, Z in Q. lra.
Qed.
Lemma swaps_mul a b : tvalid a -> tvalid b ->
  swaps_handedness (t_mul a b) = xorb (swaps_handedness a) (swaps_handedness b).
Proof.
  intros HA HB. pose proof (tvalid_det a HA). pose proof (tvalid_det b HB).
  unfold swaps_handedness. cbn [t_mul tm]. rewrite det3_mul by apply HB.
  destruct (Rltb (det3 (tm a)) 0) eqn:E1; destruct (Rltb (det3 (tm b)) 0) eqn:E2; cbn; Rb.
  - apply Rltb_false. nra.
  - apply Rltb_true. nra.
  - apply Rltb_true. nra.
  - apply Rltb_false. nra.
Qed.

(** ** normals *)
Lemma normal_perp t n v : tvalid t -> vdot (t_normal t n) (t_vector t v) = vdot n v.
Proof.
  intros (A&B&C&D). unfold affine in *.
  destruct t as [[[a0 a1 a2 a3] [b0 b1 b2 b3] [c0 c1 c2 c3] [d0 d1 d2 d3]]
                 [[e0 e1 e2 e3] [f0 f1 f2 f3] [g0 g1 g2 g3] [h0 h1 h2 h3]]].
  cbn in A, B. injection A as -> -> -> ->. injection B as -> -> -> ->.
  cbn [tm tinv] in *. clear C. unfold mmul, I4, dot4, col0, col1, col2, col3 in D.
  cbn [row0 row1 row2 row3 q0 q1 q2 q3] in D.
  injection D as D1 D2 D3 _ D4 D5 D6 _ D7 D8 D9 _.
  unfold vdot, t_normal, t_vector, dot4, col0, col1, col2; cbn.
  destruct n as [n1 n2 n3], v as [v1 v2 v3]; cbn. nsatz.
Qed.

(** ** boxes *)
Lemma bbox_image_in t lo hi : affine (tm t) -> vle lo hi ->
  (nonneg_linear (tm t) -> forall p, between lo p hi ->
     between (fst (t_bbox t lo hi)) (t_point t p) (snd (t_bbox t lo hi))).
Proof.
  intros A Hl N p Hp. unfold t_bbox; cbn [fst snd].
  rewrite !t_point_affine by auto.
  destruct (N _ (or_introl eq_refl)) as (N1&N2&N3).
  destruct (N _ (or_intror (or_introl eq_refl))) as (N4&N5&N6).
  destruct (N _ (or_intror (or_intror eq_refl))) as (N7&N8&N9).
  unfold between, vle, apt, t_vector, vadd, vmap2, dot4 in *; cbn in *.
  destruct Hp as ((P1&P2&P3)&(P4&P5&P6)).
  repeat split; nra.
Qed.
Lemma bbox_image_only t lo hi : affine (tm t) -> vx lo < vx hi -> vy lo < vy hi -> vz lo < vz hi ->
  (forall p, between lo p hi -> between (fst (t_bbox t lo hi)) (t_point t p) (snd (t_bbox t lo hi))) ->
  nonneg_linear (tm t).
Proof.
  intros A H1 H2 H3 HC.
  pose proof (HC (mkV (vx hi) (vy lo) (vz lo))) as X.
  pose proof (HC (mkV (vx lo) (vy hi) (vz lo))) as Y.
  pose proof (HC (mkV (vx lo) (vy lo) (vz hi))) as Z.
  unfold t_bbox in *; cbn [fst snd] in *. rewrite !t_point_affine in * by auto.
  unfold between, vle, apt, t_vector, vadd, vmap2, dot4 in *; cbn in *.
  specialize (X ltac:(repeat split; lra)). specialize (Y ltac:(repeat split; lra)).
  specialize (Z ltac:(repeat split; lra)).
  destruct X as ((X1&X2&X3)&_). destruct Y as ((Y1&Y2&Y3)&_). destruct Z as ((Z1&Z2&Z3)&_).
  intros r [ -> | [ -> | -> ]]; repeat split;
  match goal with |- 0 <= ?e => destruct (Rle_dec 0 e) as [|Hneg]; auto; exfalso end; nra.
Qed.
Lemma bbox_image_iff t lo hi : affine (tm t) -> vx lo < vx hi -> vy lo < vy hi -> vz lo < vz hi ->
  ((forall p, between lo p hi -> between (fst (t_bbox t lo hi)) (t_point t p) (snd (t_bbox t lo hi))) <->
   nonneg_linear (tm t)).
Proof.
  intros A H1 H2 H3. split.
  - now apply bbox_image_only.
  - intros N p. apply bbox_image_in; auto. unfold vle; lra.
Qed.
Lemma rotate_180_bad : exists t lo hi p, built t /\ vle lo hi /\ between lo p hi /\
  ~ between (fst (t_bbox t lo hi)) (t_point t p) (snd (t_bbox t lo hi)).
Proof.
  exists (t_rotate_z 90), vzero, (mkV 1 1 1), (mkV 1 1 1).
  split; [constructor|]. split; [unfold vle; cbn; lra|]. split; [unfold between, vle; cbn; lra|].
  unfold t_bbox; cbn [fst snd]. rewrite !t_point_affine by apply tvalid_rz.
  assert (E : deg2rad 90 = PI / 2) by (unfold deg2rad; field).
  unfold t_rotate_z, apt, t_vector, between, vle; cbn. rewrite E, sin_PI2, cos_PI2.
  unfold dot4; cbn. lra.
Qed.

(** ** look_at *)
Lemma look_origin pos look up : t_point (t_look_at pos look up) vzero = pos.
Proof.
  unfold t_look_at. destruct (look_axes pos look up) as [[x y] z].
  rewrite t_point_affine by reflexivity. unfold apt, dot4; cbn. apply V3_eq; cbn; ring.
Qed.
(** camera-space +z goes to the third column, not to the viewing direction *)
Lemma look_z_wrong : exists pos look up, look <> pos /\ vcross up (vsub look pos) <> vzero /\
  t_vector (t_look_at pos look up) (mkV 0 0 1) <> normalize (vsub look pos).
Proof.
  exists vzero, (mkV 1 0 0), (mkV 0 1 0).
  split; [intros H; inversion H; lra|].
  split; [intros H; inversion H; lra|].
  assert (N : forall a b c, a*a+b*b+c*c = 1 -> normalize (mkV a b c) = mkV a b c).
  { intros a b c H. unfold normalize, vlength, sq_length; cbn. rewrite H, sqrt_1.
    assert (Reqb 1 0 = false) as -> by (apply Reqb_false; lra). apply V3_eq; cbn; field. }
  assert (A1 : normalize (mkV 0 1 0) = mkV 0 1 0) by (apply N; ring).
  assert (A2 : normalize (vsub (mkV 1 0 0) vzero) = mkV 1 0 0).
  { replace (vsub (mkV 1 0 0) vzero) with (mkV 1 0 0) by (apply V3_eq; cbn; ring). apply N; ring. }
  assert (A3 : normalize (vcross (mkV 0 1 0) (mkV 1 0 0)) = mkV 0 0 (-1)).
  { replace (vcross (mkV 0 1 0) (mkV 1 0 0)) with (mkV 0 0 (-1)) by (apply V3_eq; cbn; ring). apply N; ring. }
  unfold t_look_at, look_axes. rewrite A1, A2, A3. cbn.
  unfold t_vector, dot4; cbn. intros H. injection H as H _ _. lra.
Qed.
(** what does hold: the inverse takes world +z to the viewing direction, so the two agree when the
    viewing frame is the world frame *)
Lemma look_inverse_z pos look up :
  t_vector (t_inverse (t_look_at pos look up)) (mkV 0 0 1) = normalize (vsub look pos).
Proof.
  unfold t_look_at, look_axes. cbn. unfold t_vector, dot4; cbn. apply V3_eq; cbn; ring.
Qed.

(** ** quaternions *)
Lemma to_transform_rotation q : qunit q ->
  let t := to_transform q in tvalid t /\ tinv t = mT (tm t) /\ det3 (tm t) = 1.
Proof.
  destruct q as [x y z w]. unfold qunit; cbn [qx qy qz qw]. intros H. cbn zeta.
  unfold tvalid, affine, to_transform; cbn [tm tinv].
  split; [|split].
  - repeat split; mcompute; m4; try ring; nsatz.
  - reflexivity.
  - unfold det3, mT, col0, col1, col2; cbn. nsatz.
Qed.

Lemma qdot_self_pos a : 0 <= qdot a a. Proof. unfold qdot. nra. Qed.
Lemma qnormalized_unit a : 0 < qdot a a -> qunit (qnormalized a).
Proof.
  intros H. unfold qunit, qnormalized, qscale; cbn.
  pose proof (sqrt_sqrt (qdot a a) ltac:(lra)) as Q. pose proof (sqrt_lt_R0 _ H) as P.
  set (s := sqrt (qdot a a)) in *.
  transitivity (/ s * / s * qdot a a); [unfold qdot; ring|]. rewrite <- Q. field. lra.
Qed.
Lemma qnormalized_id a : qdot a a = 1 -> qnormalized a = a.
Proof.
  intros H. unfold qnormalized. rewrite H, sqrt_1, Rinv_1. destruct a; unfold qscale; cbn. f_equal; ring.
Qed.
Lemma qunit_dot q : qunit q <-> qdot q q = 1. Proof. reflexivity. Qed.

Lemma sqr_sum_0 x y z w : x*x+y*y+z*z+w*w = 0 -> x = 0 /\ y = 0 /\ z = 0 /\ w = 0.
Proof.
  intros H. pose proof (Rle_0_sqr x). pose proof (Rle_0_sqr y). pose proof (Rle_0_sqr z). pose proof (Rle_0_sqr w).
  unfold Rsqr in *. repeat split; apply Rsqr_0_uniq; unfold Rsqr; lra.
Qed.
Lemma qdot_bound a b : qdot a a = 1 -> qdot b b = 1 -> -1 <= qdot a b <= 1.
Proof.
  intros A B. unfold qdot in *. destruct a as [a1 a2 a3 a4], b as [b1 b2 b3 b4]; cbn in *.
  split.
  - pose proof (Rle_0_sqr (a1+b1)). pose proof (Rle_0_sqr (a2+b2)). pose proof (Rle_0_sqr (a3+b3)).
    pose proof (Rle_0_sqr (a4+b4)). unfold Rsqr in *. lra.
  - pose proof (Rle_0_sqr (a1-b1)). pose proof (Rle_0_sqr (a2-b2)). pose proof (Rle_0_sqr (a3-b3)).
    pose proof (Rle_0_sqr (a4-b4)). unfold Rsqr in *. lra.
Qed.
Lemma qdot_m1 a b : qdot a a = 1 -> qdot b b = 1 -> qdot a b = -1 -> b = qscale (-1) a.
Proof.
  intros A B C. destruct a as [a1 a2 a3 a4], b as [b1 b2 b3 b4]; unfold qdot, qscale in *; cbn in *.
  destruct (sqr_sum_0 (a1+b1) (a2+b2) (a3+b3) (a4+b4)) as (X&Y&Z&W); [lra|].
  f_equal; lra.
Qed.
Lemma qdot_1 a b : qdot a a = 1 -> qdot b b = 1 -> qdot a b = 1 -> b = a.
Proof.
  intros A B C. destruct a as [a1 a2 a3 a4], b as [b1 b2 b3 b4]; unfold qdot in *; cbn in *.
  destruct (sqr_sum_0 (a1-b1) (a2-b2) (a3-b3) (a4-b4)) as (X&Y&Z&W); [lra|].
  f_equal; lra.
Qed.

Section Slerp.
  Variables (a b : quat).
  Hypothesis Ha : qdot a a = 1.
  Hypothesis Hb : qdot b b = 1.
  Hypothesis Hne : b <> qscale (-1) a.

  Lemma slerp_near_unit t : 0 <= t <= 1 -> 1 - EPS < qdot a b ->
    0 < qdot (qadd (qscale (1 - t) a) (qscale t b)) (qadd (qscale (1 - t) a) (qscale t b)).
  Proof.
    intros Ht Hc.
    replace (qdot (qadd (qscale (1 - t) a) (qscale t b)) (qadd (qscale (1 - t) a) (qscale t b)))
      with ((1-t)*(1-t) * qdot a a + 2 * t * (1 - t) * qdot a b + t * t * qdot b b)
      by (unfold qdot, qadd, qscale; cbn; ring).
    rewrite Ha, Hb. unfold EPS in Hc.
    assert (0 <= 2 * t * (1 - t) * qdot a b) by (apply Rmult_le_pos; [nra|lra]). nra.
  Qed.
  Lemma slerp_far : qdot a b <= 1 - EPS ->
    let c := qdot a b in let p := qadd b (qscale (-1) (qscale c a)) in
    0 < qdot p p /\ qdot p p = 1 - c * c /\ qdot a p = 0.
  Proof.
    intros Hc. cbn zeta. set (c := qdot a b).
    assert (E : qdot (qadd b (qscale (-1) (qscale c a))) (qadd b (qscale (-1) (qscale c a))) = 1 - c * c).
    { transitivity (qdot b b - 2 * c * qdot a b + c * c * qdot a a).
      - unfold qdot, qadd, qscale; cbn; ring.
      - rewrite Ha, Hb. fold c. ring. }
    rewrite E. pose proof (qdot_bound a b Ha Hb) as [L U]. fold c in L, U, Hc.
    assert (c <> -1) by (intros X; apply Hne; now apply qdot_m1).
    unfold EPS in Hc. split; [nra|]. split; auto.
    transitivity (qdot a b - c * qdot a a); [unfold qdot, qadd, qscale; cbn; ring|].
    rewrite Ha. fold c. ring.
  Qed.
  Lemma slerp_unit t : 0 <= t <= 1 -> qunit (slerp t a b).
  Proof.
    intros Ht. unfold slerp. destruct (Rltb (1 - EPS) (qdot a b)) eqn:C; Rb.
    - apply qnormalized_unit. now apply slerp_near_unit.
    - destruct (slerp_far C) as (P&_&O). set (p := qadd b _) in *.
      assert (U : qdot (qnormalized p) (qnormalized p) = 1) by exact (qnormalized_unit p P).
      assert (O' : qdot a (qnormalized p) = 0).
      { unfold qnormalized. transitivity (/ sqrt (qdot p p) * qdot a p); [unfold qdot, qscale; cbn; ring|].
        rewrite O. ring. }
      set (n := qnormalized p) in *. set (th := acos _ * t).
      change (qdot (qadd (qscale (cos th) a) (qscale (sin th) n)) (qadd (qscale (cos th) a) (qscale (sin th) n)) = 1).
      transitivity (cos th * cos th * qdot a a + 2 * cos th * sin th * qdot a n + sin th * sin th * qdot n n).
      + unfold qdot, qadd, qscale; cbn. ring.
      + rewrite Ha, O', U. pose proof (sc1 th). lra.
  Qed.
  Lemma slerp_0 : slerp 0 a b = a.
  Proof.
    unfold slerp. destruct (Rltb (1 - EPS) (qdot a b)) eqn:C; Rb.
    - replace (qadd (qscale (1 - 0) a) (qscale 0 b)) with a; [now apply qnormalized_id|].
      destruct a, b; unfold qadd, qscale; cbn. f_equal; ring.
    - rewrite Rmult_0_r, cos_0, sin_0. destruct a; unfold qadd, qscale; cbn. f_equal; ring.
  Qed.
  Lemma slerp_1 : slerp 1 a b = b.
  Proof.
    unfold slerp. destruct (Rltb (1 - EPS) (qdot a b)) eqn:C; Rb.
    - replace (qadd (qscale (1 - 1) a) (qscale 1 b)) with b; [now apply qnormalized_id|].
      destruct a, b; unfold qadd, qscale; cbn. f_equal; ring.
    - destruct (slerp_far C) as (P&E&O). pose proof (qdot_bound a b Ha Hb) as [L U].
      rewrite clip_id by lra. rewrite Rmult_1_r.
      rewrite cos_acos by lra. rewrite sin_acos by lra.
      unfold qnormalized. rewrite E.
      replace (1 - (qdot a b)²) with (1 - qdot a b * qdot a b) by (unfold Rsqr; ring).
      set (c := qdot a b) in *. rewrite E in P.
      pose proof (sqrt_lt_R0 _ P) as S0. set (s := sqrt (1 - c * c)) in *.
      assert (X : forall u v, c * u + s * (/ s * (v + -1 * (c * u))) = v) by (intros; field; lra).
      destruct a as [a1 a2 a3 a4], b as [b1 b2 b3 b4]; unfold qadd, qscale; cbn.
      f_equal; apply X.
  Qed.
End Slerp.

(** the 4x4 trace: converting a quarter turn and back does not give it back *)
Lemma from_arr_bad : exists t, built t /\ det3 (tm t) = 1 /\ tinv t = mT (tm t) /\
  tm (to_transform (from_arr (tm t))) <> tm t /\ ~ qunit (from_arr (tm t)).
Proof.
  exists (t_rotate_z 90). split; [constructor|].
  assert (E : deg2rad 90 = PI / 2) by (unfold deg2rad; field).
  assert (M : tm (t_rotate_z 90) = mkM (mkV4 0 (-1) 0 0) (mkV4 1 0 0 0) (mkV4 0 0 1 0) (mkV4 0 0 0 1)).
  { unfold t_rotate_z; cbn [tm]. rewrite E, sin_PI2, cos_PI2. m4; ring. }
  split; [rewrite M; unfold det3; cbn; ring|]. split; [reflexivity|]. rewrite M.
  assert (Q : from_arr (mkM (mkV4 0 (-1) 0 0) (mkV4 1 0 0 0) (mkV4 0 0 1 0) (mkV4 0 0 0 1)) =
    mkQ 0 0 (/ sqrt 3) (sqrt 3 / 2)).
  { unfold from_arr, trace4, mget; cbn.
    assert (Rltb 0 (0 + 0 + 1 + 1) = true) as -> by (apply Rltb_true; lra).
    replace (0 + 0 + 1 + 1 + 1) with 3 by ring.
    assert (0 < sqrt 3) by (apply sqrt_lt_R0; lra).
    f_equal; field; lra. }
  rewrite Q.
  assert (S3 : sqrt 3 * sqrt 3 = 3) by (apply sqrt_sqrt; lra).
  assert (0 < sqrt 3) by (apply sqrt_lt_R0; lra).
  assert (I3 : / sqrt 3 * / sqrt 3 = / 3) by (rewrite <- Rinv_mult, S3; reflexivity).
  split.
  - cbn. unfold mT, col0; cbn. intros H0. injection H0 as H0 _. nra.
  - unfold qunit; cbn. rewrite I3. nra.
Qed.

(** ** animated transforms *)
Lemma M4_eqb_true a b : M4_eqb a b = true <-> a = b.
Proof.
  assert (V : forall u v, V4_eqb u v = true <-> u = v).
  { intros [] []; unfold V4_eqb; cbn. rewrite !andb_true_iff, !Reqb_true. split; [intros [[[-> ->] ->] ->]; auto|].
    intros [= -> -> -> ->]; auto. }
  destruct a, b; unfold M4_eqb; cbn. rewrite !andb_true_iff, !V. split; [intros [[[-> ->] ->] ->]; auto|].
  intros [= -> -> -> ->]; auto.
Qed.

Lemma a_make_fields t1 s t2 e a : a_make t1 s t2 e = Ok a ->
  a_start a = s /\ a_end a = e /\ a_t1 a = t1 /\ a_t2 a = t2 /\
  (a_animated a = false <-> tm t1 = tm t2).
Proof.
  unfold a_make. destruct (M4_eqb (tm t1) (tm t2)) eqn:E.
  - intros [= <-]; cbn. apply M4_eqb_true in E. tauto.
  - destruct (decompose (tm t1)) as [d1|]; [|discriminate]. cbn.
    destruct (decompose (tm t2)) as [d2|]; [|discriminate]. cbn. intros [= <-]; cbn.
    repeat split; auto; try discriminate. intros H. apply M4_eqb_true in H. congruence.
Qed.

Lemma polar_never_breaks : forall n norm r c r' c', 2 * EPS <= norm ->
  polar_loop n norm r c = Ok (r', c') -> c' = (c + n)%nat.
Proof.
  induction n as [|n IH]; intros norm r c r' c' Hn H; cbn in H.
  - injection H as <- <-. lia.
  - assert (Rltb norm EPS = false) as E by (apply Rltb_false; pose proof EPS_pos; lra). rewrite E in H.
    destruct (minv (mT r)) as [rit|]; [|discriminate]. cbn in H.
    apply IH in H; [lia|]. pose proof (pmax_ge_l norm (polar_norm (mzip (fun a b => / 2 * (a + b)) rit r) rit)). lra.
Qed.
