(** Proofs about animated transforms: clamping in time and pure translations. *)
From Coq Require Import Reals Lra Lia List Bool ZArith Psatz.
From Verif Require Import Base M_Geometry S_Geometry P_Geometry M_Transform S_Transform P_Transform P_Transform2 P_BVH.
Import ListNotations.
Open Scope R_scope.

Lemma t_point_ext a b p : tm a = tm b -> t_point a p = t_point b p.
Proof. intros E. unfold t_point. now rewrite E. Qed.
Lemma t_vector_ext a b p : tm a = tm b -> t_vector a p = t_vector b p.
Proof. intros E. unfold t_vector. now rewrite E. Qed.
Lemma t_ray_ext a b p : tm a = tm b -> t_ray a p = t_ray b p.
Proof. intros E. unfold t_ray. now rewrite (t_point_ext a b), (t_vector_ext a b). Qed.

Lemma anim_before t1 s t2 e a : a_make t1 s t2 e = Ok a -> s <= e ->
  forall time, time < s \/ (time = s /\ s < e) ->
     (forall p, a_point a time p = Ok (t_point t1 p)) /\ (forall v, a_vector a time v = Ok (t_vector t1 v)) /\
     (forall r, rtime r = time -> a_ray a r = Ok (t_ray t1 r)).
Proof.
  intros M Hse time Ht. destruct (a_make_fields _ _ _ _ _ M) as (E1&E2&E3&E4&_).
  assert (I : a_interpolate a time = Ok t1).
  { unfold a_interpolate. rewrite E1, E3.
    replace (Rleb time s) with true by (symmetry; apply Rleb_true; lra). now rewrite orb_true_r. }
  unfold a_point, a_vector, a_ray. rewrite I, E1, E2, E3. cbn [bind].
  split; [|split].
  - intros p. destruct (negb (a_animated a)); auto. cbn [orb]. destruct (Rltb time s) eqn:A; auto. Rb.
    replace (Rltb e time) with false; auto. symmetry; apply Rltb_false; lra.
  - intros p. destruct (negb (a_animated a)); auto. cbn [orb]. destruct (Rltb time s) eqn:A; auto. Rb.
    replace (Rltb e time) with false; auto. symmetry; apply Rltb_false; lra.
  - intros r Hr. rewrite Hr, I. destruct (negb (a_animated a)); auto. cbn [orb]. destruct (Rltb time s) eqn:A; auto. Rb.
    replace (Rleb e time) with false; auto. symmetry; apply Rleb_false; lra.
Qed.
Lemma anim_after t1 s t2 e a : a_make t1 s t2 e = Ok a -> s < e ->
  forall time, e <= time ->
     (forall p, a_point a time p = Ok (t_point t2 p)) /\ (forall v, a_vector a time v = Ok (t_vector t2 v)) /\
     (forall r, rtime r = time -> a_ray a r = Ok (t_ray t2 r)).
Proof.
  intros M Hse time Ht. destruct (a_make_fields _ _ _ _ _ M) as (E1&E2&E3&E4&EA).
  destruct (a_animated a) eqn:AN.
  - assert (I : a_interpolate a time = Ok t2).
    { unfold a_interpolate. rewrite E1, E2, E4, AN. cbn [negb orb].
      replace (Rleb time s) with false by (symmetry; apply Rleb_false; lra).
      now replace (Rleb e time) with true by (symmetry; apply Rleb_true; lra). }
    unfold a_point, a_vector, a_ray. rewrite AN, I, E1, E2, E4. cbn [bind negb orb].
    replace (Rltb time s) with false by (symmetry; apply Rltb_false; lra).
    split; [|split].
    + intros p. destruct (Rltb e time); auto.
    + intros p. destruct (Rltb e time); auto.
    + intros r ->. replace (Rltb time s) with false by (symmetry; apply Rltb_false; lra).
      now replace (Rleb e time) with true by (symmetry; apply Rleb_true; lra).
  - pose proof (proj1 EA eq_refl) as Em. unfold a_point, a_vector, a_ray. rewrite AN, E3. cbn [negb orb].
    split; [|split]; intros; f_equal; [now apply t_point_ext|now apply t_vector_ext|now apply t_ray_ext].
Qed.
Lemma anim_static t1 s t2 e a : a_make t1 s t2 e = Ok a -> tm t1 = tm t2 ->
  forall time, (forall p, a_point a time p = Ok (t_point t1 p)) /\ (forall v, a_vector a time v = Ok (t_vector t1 v)) /\
     (forall r, a_ray a r = Ok (t_ray t1 r)).
Proof.
  intros M Em time. destruct (a_make_fields _ _ _ _ _ M) as (E1&E2&E3&E4&EA).
  unfold a_point, a_vector, a_ray. rewrite (proj2 EA Em), E3. cbn [negb orb]. auto.
Qed.

(** ** pure translations *)
Lemma cofinv_I : minv I4 = Ok I4.
Proof.
  unfold minv. assert (D : det4 I4 = 1) by (unfold det4, I4; cbn; ring).
  rewrite D. assert (Reqb 1 0 = false) as -> by (apply Reqb_false; lra). f_equal.
  unfold cofinv. rewrite D. unfold I4; cbn. m4; field.
Qed.
Lemma mT_I : mT I4 = I4. Proof. reflexivity. Qed.
Lemma mzip_half_I : mzip (fun a b => / 2 * (a + b)) I4 I4 = I4.
Proof. unfold mzip, I4; cbn. m4; field. Qed.
Lemma polar_I : forall n norm c, 2 * EPS <= norm -> polar_loop n norm I4 c = Ok (I4, (c + n)%nat).
Proof.
  induction n as [|n IH]; intros norm c Hn.
  - cbn. now rewrite Nat.add_0_r.
  - cbn [polar_loop].
    assert (Rltb norm EPS = false) as -> by (apply Rltb_false; pose proof EPS_pos; lra).
    rewrite mT_I, cofinv_I. cbn [bind]. rewrite mzip_half_I.
    rewrite IH; [f_equal; f_equal; lia|].
    pose proof (pmax_ge_l norm (polar_norm I4 I4)). lra.
Qed.
Definition q_id : quat := mkQ 0 0 0 (sqrt 5 / 2).
Lemma from_arr_I : from_arr I4 = q_id.
Proof.
  unfold from_arr, trace4, mget, I4, q_id; cbn.
  assert (Rltb 0 (1 + 1 + 1 + 1) = true) as -> by (apply Rltb_true; lra).
  replace (1 + 1 + 1 + 1 + 1) with 5 by ring. f_equal; ring.
Qed.
Lemma decompose_translate d : decompose (tm (t_translate d)) = Ok (d, q_id, I4).
Proof.
  unfold decompose. replace (linear_part (tm (t_translate d))) with I4 by reflexivity.
  rewrite polar_I by lra. cbn [bind]. rewrite cofinv_I. cbn [bind].
  rewrite from_arr_I, mmul_I_l. destruct d; reflexivity.
Qed.
Lemma slerp_q_id t : slerp t q_id q_id = mkQ 0 0 0 1.
Proof.
  assert (S5 : sqrt 5 * sqrt 5 = 5) by (apply sqrt_sqrt; lra).
  assert (0 < sqrt 5) by (apply sqrt_lt_R0; lra).
  assert (D : qdot q_id q_id = 5 / 4) by (unfold qdot, q_id; cbn; nra).
  unfold slerp. rewrite D. assert (Rltb (1 - EPS) (5 / 4) = true) as -> by (apply Rltb_true; unfold EPS; lra).
  replace (qadd (qscale (1 - t) q_id) (qscale t q_id)) with q_id
    by (unfold qadd, qscale, q_id; cbn; f_equal; ring).
  unfold qnormalized. rewrite D.
  assert (SQ : sqrt (5 / 4) = sqrt 5 / 2).
  { apply sqrt_lem_1; lra. }
  rewrite SQ. unfold qscale, q_id; cbn. f_equal; field; lra.
Qed.
Lemma to_transform_id : to_transform (mkQ 0 0 0 1) = t_identity.
Proof. unfold to_transform, t_identity, mT, I4, col0, col1, col2, col3; cbn. f_equal; m4; ring. Qed.
Lemma lerp_I dt : mzip (lerp dt) I4 I4 = I4.
Proof. unfold mzip, lerp, I4; cbn. m4; ring. Qed.

Definition anim_shift (d1 d2 : vec) (s e time : R) : vec :=
  if Rleb time s then d1 else if Rleb e time then d2
  else let dt := (time - s) / (e - s) in vadd (vscale (1 - dt) d1) (vscale dt d2).

Lemma anim_translate_make d1 d2 s e : d1 <> d2 ->
  a_make (t_translate d1) s (t_translate d2) e =
  Ok (mkA s e (t_translate d1) (t_translate d2) true (d1, q_id, I4) (d2, q_id, I4)).
Proof.
  intros Hd. unfold a_make.
  destruct (M4_eqb _ _) eqn:E.
  { apply M4_eqb_true in E. exfalso. apply Hd. cbn in E. injection E as A B C. now apply V3_eq. }
  rewrite !decompose_translate. reflexivity.
Qed.
Lemma anim_translate_interp d1 d2 s e a time : d1 <> d2 ->
  a_make (t_translate d1) s (t_translate d2) e = Ok a ->
  a_interpolate a time = Ok (t_translate (anim_shift d1 d2 s e time)).
Proof.
  intros Hd M. rewrite anim_translate_make in M by auto. injection M as <-.
  unfold a_interpolate, anim_shift. cbn [a_animated a_start a_end a_t1 a_t2 a_d1 a_d2 negb orb].
  destruct (Rleb time s); auto. destruct (Rleb e time); auto.
  rewrite slerp_q_id, to_transform_id, lerp_I. unfold t_of_matrix. rewrite cofinv_I. cbn [bind].
  f_equal. unfold t_mul, t_identity; cbn [tm tinv]. rewrite !mmul_I_l, !mmul_I_r. reflexivity.
Qed.
Lemma anim_shift_between d1 d2 s e time : s < e ->
  vle (vmap2 Rmin d1 d2) (anim_shift d1 d2 s e time) /\ vle (anim_shift d1 d2 s e time) (vmap2 Rmax d1 d2).
Proof.
  intros H. unfold anim_shift. 
  destruct (Rleb time s) eqn:A; Rb.
  { unfold vle; cbn. repeat split; try apply Rmin_l; apply Rmax_l. }
  destruct (Rleb e time) eqn:B; Rb.
  { unfold vle; cbn. repeat split; try apply Rmin_r; apply Rmax_r. }
  set (dt := (time - s) / (e - s)).
  assert (0 <= dt <= 1).
  { unfold dt. split; [apply Rmult_le_pos; [lra|left; apply Rinv_0_lt_compat; lra]|].
    apply Rmult_le_reg_r with (e - s); [lra|]. unfold Rdiv. rewrite Rmult_assoc, Rinv_l by lra. lra. }
  assert (G : forall x y, Rmin x y <= (1 - dt) * x + dt * y <= Rmax x y).
  { intros x y. pose proof (Rmin_l x y). pose proof (Rmin_r x y). pose proof (Rmax_l x y). pose proof (Rmax_r x y).
    split; nra. }
  unfold vle; cbn. repeat split; apply G.
Qed.

Lemma t_bbox_translate d lo hi : t_bbox (t_translate d) lo hi = (vadd lo d, vadd hi d).
Proof.
  unfold t_bbox. rewrite t_point_affine by reflexivity. f_equal.
  - unfold apt, dot4; cbn. apply V3_eq; cbn; ring.
  - unfold apt, dot4, t_vector, dot4; cbn. apply V3_eq; cbn; ring.
Qed.

Lemma motion_loop_covers a lo hi : forall is acc b, box_ok acc ->
  motion_loop a false lo hi is acc = Ok b ->
  box_ok b /\ box_le acc b /\ forall i, In i is -> exists t, a_interpolate a (step_time a i) = Ok t /\
    box_le (fbox (fst (t_bbox t lo hi)) (snd (t_bbox t lo hi))) b.
Proof.
  induction is as [|i is IH]; intros acc b Hacc H; cbn [motion_loop] in H.
  - injection H as <-. split; auto. split; [now apply box_le_refl|]. contradiction.
  - destruct (a_interpolate a (step_time a i)) as [t|] eqn:E; [|discriminate]. cbn [bind] in H.
    destruct (t_bbox t lo hi) as [lo' hi'] eqn:EB.
    assert (F : box_ok (fbox lo' hi')) by (repeat split; discriminate).
    apply IH in H; [|now apply union_bb_ok].
    destruct H as (B1&B2&B3). split; auto.
    apply union_bb_lub in B2; auto. destruct B2 as [B2 B2']. split; auto.
    intros j [<-|Hj]; auto. exists t. rewrite EB. auto.
Qed.
Lemma motion_loop_total a lo hi inv : (forall time, exists t, a_interpolate a time = Ok t) ->
  forall is acc, exists b, motion_loop a inv lo hi is acc = Ok b.
Proof.
  intros H. induction is as [|i is IH]; intros acc; cbn [motion_loop]; [eauto|].
  destruct (H (step_time a i)) as (t&E). rewrite E. cbn [bind]. destruct (t_bbox _ lo hi). apply IH.
Qed.

Lemma anim_translate_bounds d1 d2 s e a lo hi : d1 <> d2 -> s < e -> vle lo hi ->
  a_make (t_translate d1) s (t_translate d2) e = Ok a ->
  exists b, motion_bounds a lo hi false = Ok b /\
    forall time p, between lo p hi -> exists p', a_point a time p = Ok p' /\ in_box b p'.
Proof.
  intros Hd Hse Hl M.
  assert (INT := fun time => anim_translate_interp d1 d2 s e a time Hd M).
  assert (FL := a_make_fields _ _ _ _ _ M). destruct FL as (E1&E2&E3&E4&EA).
  assert (AN : a_animated a = true).
  { destruct (a_animated a) eqn:X; auto. exfalso. apply Hd. pose proof (proj1 EA eq_refl) as Q. cbn in Q.
    injection Q as A B C. now apply V3_eq. }
  destruct (motion_loop_total a lo hi false (fun t => ex_intro _ _ (INT t)) (seq 0 128) bbox_empty) as (b&MB).
  exists b. unfold motion_bounds. rewrite AN. cbn [negb]. split; [exact MB|].
  destruct (motion_loop_covers a lo hi _ _ _ empty_ok MB) as (OKb&_&COV).
  assert (S0 : step_time a 0 = s).
  { unfold step_time, lerp. rewrite E1, E2. cbn [INR]. field. }
  assert (S127 : step_time a 127 = e).
  { unfold step_time, lerp. rewrite E1, E2. replace (INR 127) with 127 by (rewrite INR_IZR_INZ; reflexivity). field. }
  destruct (COV 0%nat ltac:(apply in_seq; lia)) as (t0&I0&C0).
  destruct (COV 127%nat ltac:(apply in_seq; lia)) as (t1&I1&C1).
  rewrite S0, INT in I0. rewrite S127, INT in I1.
  assert (A0 : anim_shift d1 d2 s e s = d1).
  { unfold anim_shift. now replace (Rleb s s) with true by (symmetry; apply Rleb_true; lra). }
  assert (A1 : anim_shift d1 d2 s e e = d2).
  { unfold anim_shift. replace (Rleb e s) with false by (symmetry; apply Rleb_false; lra).
    now replace (Rleb e e) with true by (symmetry; apply Rleb_true; lra). }
  rewrite A0 in I0. rewrite A1 in I1. injection I0 as <-. injection I1 as <-.
  rewrite t_bbox_translate in C0, C1. cbn [fst snd] in C0, C1.
  intros time p Hp.
  assert (PT : a_point a time p = Ok (vadd p (anim_shift d1 d2 s e time))).
  { unfold a_point. rewrite INT, AN, E1, E2, E3, E4. cbn [negb orb bind].
    assert (TR : forall d, t_point (t_translate d) p = vadd p d).
    { intros d. rewrite t_point_affine by reflexivity. unfold apt, dot4; cbn. apply V3_eq; cbn; ring. }
    destruct (Rltb time s) eqn:X; Rb.
    - rewrite TR. unfold anim_shift. now replace (Rleb time s) with true by (symmetry; apply Rleb_true; lra).
    - destruct (Rltb e time) eqn:Y; Rb; rewrite TR; auto. unfold anim_shift.
      replace (Rleb time s) with false by (symmetry; apply Rleb_false; lra).
      now replace (Rleb e time) with true by (symmetry; apply Rleb_true; lra). }
  exists (vadd p (anim_shift d1 d2 s e time)). split; auto.
  destruct (anim_shift_between d1 d2 s e time Hse) as [(L1&L2&L3) (U1&U2&U3)].
  set (d := anim_shift d1 d2 s e time) in *. clearbody d. clear - Hp C0 C1 L1 L2 L3 U1 U2 U3.
  destruct Hp as ((P1&P2&P3)&(P4&P5&P6)).
  destruct C0 as ((a1&a2&a3)&(a4&a5&a6)), C1 as ((b1&b2&b3)&(b4&b5&b6)).
  cbn in *.
  assert (GL : forall x l u v w q, ele x (Fin (l + u)) -> ele x (Fin (l + v)) -> Rmin u v <= w -> l <= q -> ele x (Fin (q + w))).
  { intros x l u v w q X Y Z W. unfold Rmin in Z. destruct (Rle_dec u v);
    [eapply ele_trans; [exact X|]|eapply ele_trans; [exact Y|]]; apply ele_Fin; lra. }
  assert (GU : forall x l u v w q, ele (Fin (l + u)) x -> ele (Fin (l + v)) x -> w <= Rmax u v -> q <= l -> ele (Fin (q + w)) x).
  { intros x l u v w q X Y Z W. unfold Rmax in Z. destruct (Rle_dec u v);
    [eapply ele_trans; [|exact Y]|eapply ele_trans; [|exact X]]; apply ele_Fin; lra. }
  unfold in_box; cbn [vadd vmap2 vx vy vz].
  split; [exact (GL _ _ _ _ _ _ a1 b1 L1 P1)|]. split; [exact (GU _ _ _ _ _ _ a4 b4 U1 P4)|].
  split; [exact (GL _ _ _ _ _ _ a2 b2 L2 P2)|]. split; [exact (GU _ _ _ _ _ _ a5 b5 U2 P5)|].
  split; [exact (GL _ _ _ _ _ _ a3 b3 L3 P3)|exact (GU _ _ _ _ _ _ a6 b6 U3 P6)].
Qed.

Lemma motion_static_bad : exists t a lo hi b p p', built t /\ a_make t 0 t 1 = Ok a /\ vle lo hi /\
  motion_bounds a lo hi false = Ok b /\ between lo p hi /\ a_point a 0 p = Ok p' /\ ~ in_box b p'.
Proof.
  set (t := t_translate (mkV 3 0 0)).
  assert (M : a_make t 0 t 1 = Ok (mkA 0 1 t t false no_decomp no_decomp)).
  { unfold a_make. replace (M4_eqb (tm t) (tm t)) with true; auto. symmetry. now apply M4_eqb_true. }
  eexists t, _, vzero, (mkV 1 1 1), _, vzero, _.
  split; [constructor|]. split; [exact M|]. split; [unfold vle; cbn; lra|]. split; [reflexivity|].
  split; [unfold between, vle; cbn; lra|]. split; [reflexivity|].
  assert (P : t_point t vzero = mkV 3 0 0).
  { rewrite t_point_affine by reflexivity. unfold apt, dot4; cbn. apply V3_eq; cbn; ring. }
  assert (P2 : t_point (t_inverse t) vzero = mkV (-3) 0 0).
  { rewrite t_point_affine by reflexivity. unfold apt, dot4; cbn. apply V3_eq; cbn; ring. }
  intros (_&H&_). revert H. cbn [a_t1]. unfold t_bbox. rewrite P, P2.
  cbn. unfold dot4; cbn. rewrite ele_Fin. lra.
Qed.

(** ** statements assembled for the property file *)
Lemma composition_main a b : built a -> built b ->
  (forall p, t_point (t_mul a b) p = t_point a (t_point b p)) /\
  (forall v, t_vector (t_mul a b) v = t_vector a (t_vector b v)) /\
  (forall n, t_normal (t_mul a b) n = t_normal a (t_normal b n)) /\
  swaps_handedness (t_mul a b) = xorb (swaps_handedness a) (swaps_handedness b).
Proof.
  intros HA HB. apply built_valid in HA, HB. repeat split; intros.
  - now apply mul_point; [apply HA|apply HB].
  - now apply mul_vector; apply HB.
  - now apply mul_normal; apply HA.
  - now apply swaps_mul.
Qed.
Lemma translate_main d :
  (forall p, t_point (t_translate d) p = vadd p d) /\ (forall v, t_vector (t_translate d) v = v) /\
  (forall n, t_normal (t_translate d) n = n).
Proof.
  repeat split; intros.
  - rewrite t_point_affine by reflexivity. unfold apt, dot4; cbn. apply V3_eq; cbn; ring.
  - unfold t_vector, dot4; cbn. apply V3_eq; cbn; ring.
  - unfold t_normal, dot4, col0, col1, col2; cbn. apply V3_eq; cbn; ring.
Qed.
Lemma swaps_examples : swaps_handedness (t_scale (-1) 2 3) = true /\ swaps_handedness (t_rotate_x 10) = false.
Proof.
  unfold swaps_handedness, t_scale, t_rotate_x, det3; cbn. split; [apply Rltb_true; lra|apply Rltb_false].
  pose proof (sin2_cos2 (deg2rad 10)) as H. unfold Rsqr in H. lra.
Qed.
Lemma normal_stays_perp t n v : built t -> orth n v -> orth (t_normal t n) (t_vector t v).
Proof. intros H. apply built_valid in H. pose proof (normal_perp t n v H) as Q. unfold vdot, orth in *. lra. Qed.
Lemma look_main pos look up : look <> pos -> vcross up (vsub look pos) <> vzero ->
  let t := t_look_at pos look up in
  t_point t vzero = pos /\ t_point (t_inverse t) pos = vzero /\
  t_vector (t_inverse t) (mkV 0 0 1) = normalize (vsub look pos).
Proof.
  intros H1 H2. cbn zeta. split; [apply look_origin|]. split; [|apply look_inverse_z].
  rewrite <- (look_origin pos look up) at 2. apply inv_point, built_valid. now constructor.
Qed.
Lemma quat_rotation_main q : qunit q ->
  let t := to_transform q in
  (forall u v, vdot (t_vector t u) (t_vector t v) = vdot u v) /\ det3 (tm t) = 1 /\
  (forall p, t_point (t_inverse t) (t_point t p) = p).
Proof.
  intros H. pose proof (to_transform_rotation q H) as (V&I&D). cbn zeta. split; [|split; [exact D|]].
  - intros u v. rewrite <- (normal_perp (to_transform q) u v V). f_equal.
    unfold t_normal, t_vector. rewrite I. reflexivity.
  - intros p. now apply inv_point.
Qed.
Lemma slerp_main a b : qunit a -> qunit b -> b <> mkQ (- qx a) (- qy a) (- qz a) (- qw a) ->
  (forall t, 0 <= t <= 1 -> qunit (slerp t a b)) /\ slerp 0 a b = a /\ slerp 1 a b = b.
Proof.
  intros A B N. assert (N' : b <> qscale (-1) a).
  { intros E. apply N. rewrite E. unfold qscale. f_equal; ring. }
  split; [intros; now apply slerp_unit|]. split; [now apply slerp_0|now apply slerp_1].
Qed.
Lemma raydiff_main t r : built t -> forall s, ray_at (rd_ray (t_raydiff t r)) s = t_point t (ray_at (rd_ray r) s).
Proof.
  intros H s. unfold t_raydiff. cbn [rd_ray]. rewrite ray_at_transform by apply (built_valid t H).
  unfold raydiff_from_rd, ray_from_ray, ray_at. reflexivity.
Qed.
Lemma raydiff_bad : exists t r, built t /\ rd_has r = true /\ rd_rxo (t_raydiff t r) <> t_point t (rd_rxo r).
Proof.
  exists (t_translate (mkV 1 0 0)), (mkRD (mkRay vzero (mkV 0 0 1) (mkV false false false) (Fin 0) PInf 0 0) true vzero vzero vzero vzero).
  split; [constructor|]. split; [reflexivity|]. cbn. rewrite (proj1 (translate_main _)). cbn.
  unfold vadd; cbn. intros E. inversion E. lra.
Qed.
