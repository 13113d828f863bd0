(** Proofs about spheres, cylinders and disks. *)
From Coq Require Import Reals Lra Lia List ZArith Bool Psatz.
From Verif Require Import Base M_Geometry S_Geometry P_Geometry M_Transform S_Transform P_Transform P_Transform2
  M_MonteCarlo M_Film M_Shapes S_Shapes.
Import ListNotations.
Open Scope R_scope.

(** *** The angle test *)
Lemma arctan2_zero : arctan2 0 0 = 0.
Proof. unfold arctan2. Rcase; lra. Qed.
Lemma hit_phi_range p : 0 <= hit_phi p < 2 * PI.
Proof.
  unfold hit_phi. pose proof (arctan2_range (vy p) (vx p)). pose proof PI_RGT_0.
  Rcase; lra.
Qed.
Lemma hit_phi_cs p : let q := sqrt (vx p * vx p + vy p * vy p) in
  vx p = q * cos (hit_phi p) /\ vy p = q * sin (hit_phi p).
Proof.
  pose proof (arctan2_cs (vy p) (vx p)) as H. cbv zeta in *. unfold hit_phi.
  Rcase; rewrite ?cos_2pi, ?sin_2pi; destruct H; split; lra.
Qed.
Lemma cs_unique a b : 0 <= a < 2 * PI -> 0 <= b < 2 * PI -> cos a = cos b -> sin a = sin b -> a = b.
Proof.
  intros Ha Hb Hc Hs.
  assert (C1 : cos (a - b) = 1).
  { rewrite cos_minus, Hc, Hs. pose proof (sin2_cos2 b). unfold Rsqr in *. lra. }
  assert (S0 : sin (a - b) = 0) by (rewrite sin_minus, Hc, Hs; ring).
  destruct (Rtotal_order a b) as [L|[L|L]]; auto; exfalso.
  - assert (cos (b - a) = 1) by (rewrite <- C1, <- (cos_neg (b - a)); f_equal; ring).
    destruct (Rlt_dec (b - a) PI).
    + assert (cos (b - a) < cos 0) by (apply cos_decreasing_1; lra). rewrite cos_0 in *. lra.
    + assert (cos (2 * PI - (b - a)) < cos 0 \/ b - a = 2 * PI).
      { left. apply cos_decreasing_1; lra. }
      destruct H0 as [H0|H0]; [|lra]. rewrite cos_0 in H0.
      replace (2 * PI - (b - a)) with (- (b - a) + 2 * PI) in H0 by ring.
      rewrite cos_2pi, cos_neg in H0. lra.
  - destruct (Rlt_dec (a - b) PI).
    + assert (cos (a - b) < cos 0) by (apply cos_decreasing_1; lra). rewrite cos_0 in *. lra.
    + assert (cos (2 * PI - (a - b)) < cos 0) by (apply cos_decreasing_1; lra).
      rewrite cos_0 in H.
      replace (2 * PI - (a - b)) with (- (a - b) + 2 * PI) in H by ring.
      rewrite cos_2pi, cos_neg in H. lra.
Qed.
Lemma angle_within_iff pm p : 0 <= pm <= 2 * PI -> (vx p <> 0 \/ vy p <> 0) ->
  (angle_within pm p <-> hit_phi p <= pm).
Proof.
  intros Hpm Hn. destruct (hit_phi_cs p) as [Hx Hy]. pose proof (hit_phi_range p) as Hr.
  set (q := sqrt (vx p * vx p + vy p * vy p)) in *.
  assert (Hq : q <> 0).
  { intro E. rewrite E in *. destruct Hn; lra. }
  split.
  - intros (phi & Hp & Ax & Ay). fold q in Ax, Ay.
    assert (Ec : cos phi = cos (hit_phi p)) by (apply (Rmult_eq_reg_l q); lra).
    assert (Es : sin phi = sin (hit_phi p)) by (apply (Rmult_eq_reg_l q); lra).
    destruct (Req_dec phi (2 * PI)) as [E|E].
    + assert (hit_phi p = 0).
      { apply cs_unique; try lra; rewrite <- ?Ec, <- ?Es, E, ?cos_0, ?sin_0.
        apply cos_2PI. apply sin_2PI. }
      lra.
    + rewrite <- (cs_unique phi (hit_phi p)); try lra.
  - intros H. exists (hit_phi p). split; [lra|]. fold q. split; lra.
Qed.
Lemma angle_within_axis pm p : 0 <= pm -> vx p = 0 -> vy p = 0 -> angle_within pm p.
Proof.
  intros. exists 0. split; [lra|]. rewrite H0, H1. replace (0*0+0*0) with 0 by ring. rewrite sqrt_0. lra.
Qed.
Lemma phi_max_range pm : 0 <= phi_max_of pm <= 2 * PI.
Proof.
  unfold phi_max_of, deg2rad. pose proof (clip_range pm 0 360 ltac:(lra)). pose proof PI_RGT_0.
  assert (0 < PI / 180) by lra. split; [nra|].
  replace (2 * PI) with (360 * (PI / 180)) by field. nra.
Qed.

(** *** Root finding *)
Lemma quad_roots_spec A B C D t0 t1 : 0 < A -> D = B * B - 4 * A * C -> 0 < D ->
  quad_roots A B D = (t0, t1) ->
  t0 < t1 /\ forall t, A * t * t + B * t + C = 0 <-> t = t0 \/ t = t1.
Proof.
  intros HA HD Hp. unfold quad_roots. pose proof (sqrt_lt_R0 D Hp) as Hs.
  pose proof (sqrt_sqrt D ltac:(lra)) as Hss. set (q := sqrt D) in *.
  assert (L : (- B - q) / (2 * A) < (- B + q) / (2 * A)).
  { unfold Rdiv. apply Rmult_lt_compat_r; [apply Rinv_0_lt_compat; lra|lra]. }
  destruct (Rltb ((- B - q) / (2 * A)) ((- B + q) / (2 * A))) eqn:E; Rb; [|lra].
  intros H; injection H as <- <-. split; [exact L|]. intros t.
  assert (F : A * t * t + B * t + C = A * (t - (- B - q) / (2 * A)) * (t - (- B + q) / (2 * A))).
  { replace C with ((B * B - q * q) / (4 * A)) by (rewrite Hss, HD; field; lra). field. lra. }
  rewrite F. split.
  - intros H. apply Rmult_integral in H. destruct H as [H|H]; [apply Rmult_integral in H; destruct H; [lra|left; lra]|right; lra].
  - intros [->| ->]; ring.
Qed.

(** The common search: the first root in range that passes the clipping test. *)
Definition search (mint maxt : E) (clipped : R -> bool) (t0 t1 : R) : option R :=
  if eltb maxt (Fin t0) || eltb (Fin t1) mint then None else
  let in1 := eltb (Fin t0) mint in
  let thit := if in1 then t1 else t0 in
  if in1 && eltb maxt (Fin thit) then None else
  if clipped thit then
    if Reqb thit t1 || eltb maxt (Fin t1) then None else
    if clipped t1 then None else Some t1
  else Some thit.
Lemma notnan_Fin t : notnan (Fin t). Proof. discriminate. Qed.
#[global] Hint Resolve notnan_Fin : core.
Lemma eltb_ele a b : notnan a -> notnan b -> eltb a b = false <-> ele b a.
Proof.
  unfold ele, notnan; destruct a, b; cbn; intros; try congruence; try tauto; try (split; congruence).
  rewrite Rltb_false, Rleb_true. tauto.
Qed.
Lemma eltb_true_not a b : notnan a -> notnan b -> eltb a b = true -> ~ ele b a.
Proof. intros Ha Hb H1 H2. apply eltb_ele in H2; auto. congruence. Qed.
Lemma search_spec mint maxt clipped t0 t1 : notnan mint -> notnan maxt -> t0 < t1 ->
  match search mint maxt clipped t0 t1 with
  | Some t => (t = t0 \/ t = t1) /\ ele mint (Fin t) /\ ele (Fin t) maxt /\ clipped t = false /\
      (forall t', t' = t0 \/ t' = t1 -> ele mint (Fin t') -> ele (Fin t') maxt -> clipped t' = false -> t <= t')
  | None => forall t', t' = t0 \/ t' = t1 -> ele mint (Fin t') -> ele (Fin t') maxt -> clipped t' = true
  end.
Proof.
  intros Hm HM L. unfold search.
  assert (M : forall a b e, notnan e -> a <= b -> ele e (Fin a) -> ele e (Fin b)).
  { intros a b e He Hab H. destruct e; unfold ele in *; cbn in *; auto; try discriminate. Rb. apply Rleb_true. lra. }
  assert (M' : forall a b e, notnan e -> a <= b -> ele (Fin b) e -> ele (Fin a) e).
  { intros a b e He Hab H. destruct e; unfold ele in *; cbn in *; auto; try discriminate. Rb. apply Rleb_true. lra. }
  destruct (eltb maxt (Fin t0)) eqn:E1; cbn [orb].
  { apply eltb_true_not in E1; auto; intros t' [->| ->] _ H; exfalso; [now apply E1|apply E1].
    apply (M' t0 t1); auto; lra. }
  apply eltb_ele in E1; auto.
  destruct (eltb (Fin t1) mint) eqn:E2.
  { apply eltb_true_not in E2; auto; intros t' [->| ->] H _; exfalso; [apply E2|now apply E2].
    apply (M t0 t1); auto; lra. }
  apply eltb_ele in E2; auto.
  destruct (eltb (Fin t0) mint) eqn:E3; cbn [andb].
  - apply eltb_true_not in E3; auto.
    destruct (eltb maxt (Fin t1)) eqn:E4.
    { apply eltb_true_not in E4; auto. intros t' [->| ->]; tauto. }
    apply eltb_ele in E4; auto.
    destruct (clipped t1) eqn:E5.
    + assert (Reqb t1 t1 = true) as -> by (now apply Reqb_true). cbn [orb].
      intros t' [->| ->]; tauto.
    + split; [auto|]. split; [auto|]. split; [auto|]. split; [auto|].
      intros t' [->| ->] H1 H2 H3; [tauto|lra].
  - apply eltb_ele in E3; auto.
    destruct (clipped t0) eqn:E5.
    + assert (Reqb t0 t1 = false) as -> by (apply Reqb_false; lra). cbn [orb].
      destruct (eltb maxt (Fin t1)) eqn:E4.
      { apply eltb_true_not in E4; auto. intros t' [->| ->]; tauto. }
      apply eltb_ele in E4; auto.
      destruct (clipped t1) eqn:E6.
      * intros t' [->| ->]; tauto.
      * split; [auto|]. split; [auto|]. split; [auto|]. split; [auto|].
        intros t' [->| ->] H1 H2 H3; [congruence|lra].
    + split; [auto|]. split; [auto|]. split; [auto|]. split; [auto|].
      intros t' [->| ->] H1 H2 H3; lra.
Qed.

(** *** Sphere *)
Definition sphere_ok (s : sphere) : Prop :=
  0 < sp_r s /\ - sp_r s <= sp_zmin s /\ sp_zmax s <= sp_r s /\ 0 <= sp_phimax s <= 2 * PI.
Lemma sphere_make_ok b rad z0 z1 pm : 0 < rad -> sphere_ok (sphere_make b rad z0 z1 pm).
Proof.
  intros H. unfold sphere_ok, sphere_make; cbn.
  pose proof (clip_range (pmin z0 z1) (- rad) rad ltac:(lra)).
  pose proof (clip_range (pmax z0 z1) (- rad) rad ltac:(lra)).
  pose proof (phi_max_range pm). repeat split; lra.
Qed.
Lemma arctan2_pos_axis x : 0 < x -> arctan2 0 x = 0.
Proof. intros. unfold arctan2. Rcase; try lra. unfold Rdiv. rewrite Rmult_0_l. apply atan_0. Qed.
Lemma sphere_clipped_iff s r t : sphere_ok s ->
  let p := ray_at r t in
  vx p * vx p + vy p * vy p + vz p * vz p = sp_r s * sp_r s ->
  (sphere_clipped s (sphere_phit s r t) = false <->
   sp_zmin s <= vz p <= sp_zmax s /\ angle_within (sp_phimax s) p).
Proof.
  intros (HR & Hz0 & Hz1 & Hpm) p Hs. pose proof EPS_pos as HE.
  assert (Hz : - sp_r s <= vz p <= sp_r s) by nra.
  unfold sphere_phit, sphere_clipped. fold p.
  assert (Z : forall q, vz q = vz p ->
     ((Rltb (- sp_r s) (sp_zmin s) && Rltb (vz q) (sp_zmin s)) ||
      (Rltb (sp_zmax s) (sp_r s) && Rltb (sp_zmax s) (vz q)) = false <-> sp_zmin s <= vz p <= sp_zmax s)).
  { intros q ->. split.
    - intros H. apply orb_false_iff in H. destruct H as [H1 H2].
      apply andb_false_iff in H1. apply andb_false_iff in H2.
      split; [destruct H1|destruct H2]; Rb; lra.
    - intros [H1 H2]. apply orb_false_iff. split; apply andb_false_iff; right; apply Rltb_false; lra. }
  destruct (Reqb (vx p) 0 && Reqb (vy p) 0) eqn:E.
  - apply andb_true_iff in E. destruct E as [E1 E2]. Rb.
    assert (hit_phi (mkV (EPS * sp_r s) (vy p) (vz p)) = 0) as H0.
    { unfold hit_phi; cbn [vx vy]. rewrite E2, arctan2_pos_axis by nra. Rcase; lra. }
    rewrite orb_false_iff, Z by reflexivity. rewrite H0, Rltb_false.
    split; intros [H1 H2]; split; auto; [|lra]. apply angle_within_axis; auto; lra.
  - rewrite orb_false_iff, Z by reflexivity. rewrite Rltb_false.
    rewrite angle_within_iff; [tauto|lra|].
    apply andb_false_iff in E. destruct E; Rb; auto.
Qed.
Definition sdisc (s : sphere) (r : ray) : R :=
  let r' := t_ray (b_w2o (sp_base s)) r in discriminant (ro r') (rd r') (sp_r s).
Lemma sphere_find_search s r0 : sphere_find s r0 =
  let r := t_ray (b_w2o (sp_base s)) r0 in
  let A := sq_length (rd r) in let B := 2 * vdot (rd r) (ro r) in
  let C := sq_length (ro r) - sp_r s * sp_r s in let D := B * B - 4 * A * C in
  if Rleb D (0 + EPS) then None else
  let '(t0, t1) := quad_roots A B D in
  option_map (fun t => (t, sphere_phit s r t))
    (search (rmint r) (rmaxt r) (fun t => sphere_clipped s (sphere_phit s r t)) t0 t1).
Proof.
  unfold sphere_find, search. cbv zeta.
  destruct (Rleb _ _); [reflexivity|]. destruct (quad_roots _ _ _) as [t0 t1].
  repeat (match goal with |- context [if ?b then _ else _] => destruct b end); reflexivity.
Qed.
Lemma sphere_p_find s r : sphere_intersect_p s r = match sphere_find s r with Some _ => true | None => false end.
Proof.
  unfold sphere_intersect_p, sphere_find. cbv zeta.
  destruct (Rleb _ _); [reflexivity|]. destruct (quad_roots _ _ _) as [t0 t1].
  repeat (match goal with |- context [if ?b then _ else _] => destruct b end); reflexivity.
Qed.
Lemma sdisc_eq s r0 : let r := t_ray (b_w2o (sp_base s)) r0 in
  (2 * vdot (rd r) (ro r)) * (2 * vdot (rd r) (ro r)) -
  4 * sq_length (rd r) * (sq_length (ro r) - sp_r s * sp_r s) = sdisc s r0.
Proof. cbv zeta. unfold sdisc, discriminant, sq_length, vdot. ring. Qed.
Lemma disc_A o d rad : 0 < discriminant o d rad -> 0 < sq_length d.
Proof.
  intros H. pose proof (sq_length_nonneg d) as [P|P]; auto. exfalso.
  assert (d = vzero) as ->.
  { unfold sq_length in P. apply V3_eq; cbn; nra. }
  unfold discriminant, vdot, vzero in H; cbn in H. nra.
Qed.
Lemma sphere_poly s r t : sq_length (rd r) * t * t + 2 * vdot (rd r) (ro r) * t + (sq_length (ro r) - sp_r s * sp_r s) = 0
  <-> (let p := ray_at r t in vx p * vx p + vy p * vy p + vz p * vz p = sp_r s * sp_r s).
Proof. unfold ray_at, sq_length, vdot, vadd, vscale, vmap2, vmap; cbn. split; intros; nra. Qed.

Definition sphere_on (s : sphere) (p : vec) : Prop := on_sphere (sp_r s) (sp_zmin s) (sp_zmax s) (sp_phimax s) p.
Lemma sphere_find_spec s r0 : sphere_ok s -> notnan (rmint r0) -> notnan (rmaxt r0) ->
  let r := t_ray (b_w2o (sp_base s)) r0 in
  match sphere_find s r0 with
  | Some (t, q) => in_range r0 t /\ sphere_on s (ray_at r t) /\ q = sphere_phit s r t /\
      (forall t', in_range r0 t' -> sphere_on s (ray_at r t') -> t <= t')
  | None => EPS < sdisc s r0 -> forall t', in_range r0 t' -> ~ sphere_on s (ray_at r t')
  end.
Proof.
  intros Hok Hm HM r. rewrite sphere_find_search. fold r. cbv zeta.
  pose proof (sdisc_eq s r0) as HD. cbv zeta in HD. fold r in HD. rewrite HD.
  destruct (Rleb _ _) eqn:E; Rb; [lra|].
  pose proof EPS_pos. assert (HA : 0 < sq_length (rd r)).
  { apply (disc_A (ro r) _ (sp_r s)). unfold sdisc in E. fold r in E. lra. }
  destruct (quad_roots _ _ _) as [t0 t1] eqn:Q.
  apply (quad_roots_spec _ _ (sq_length (ro r) - sp_r s * sp_r s)) in Q; auto; try lra.
  destruct Q as [L Q].
  pose proof (search_spec (rmint r) (rmaxt r) (fun t => sphere_clipped s (sphere_phit s r t)) t0 t1 Hm HM L) as S.
  assert (K : forall t, sphere_on s (ray_at r t) <-> (t = t0 \/ t = t1) /\ sphere_clipped s (sphere_phit s r t) = false).
  { intros t. rewrite <- Q, sphere_poly. unfold sphere_on, on_sphere. split.
    - intros [H1 H2]. split; [exact H1|]. now apply sphere_clipped_iff.
    - intros [H1 H2]. split; [exact H1|]. now apply sphere_clipped_iff in H2. }
  destruct (search _ _ _ _ _) as [t|]; cbn [option_map].
  - destruct S as (S1 & S2 & S3 & S4 & S5). split; [split; auto|]. split; [apply K; auto|]. split; [auto|].
    intros t' [H1 H2] H3. apply K in H3. destruct H3. now apply S5.
  - intros _ t' [H1 H2] H3. apply K in H3. destruct H3 as [H3 H4]. rewrite (S t') in H4; auto. discriminate.
Qed.

Lemma base_affine b : base_ok b -> affine (tm (b_w2o b)) /\ affine (tm (b_o2w b)).
Proof.
  intros [Hb ->]. pose proof (built_valid _ Hb) as V. split.
  - pose proof (tvalid_inv _ V) as V'. apply V'.
  - apply V.
Qed.
Lemma base_round b p : base_ok b -> t_point (b_o2w b) (t_point (b_w2o b) p) = p.
Proof.
  intros [Hb ->]. pose proof (built_valid _ Hb) as V.
  rewrite <- (inverse_involution (b_o2w b)) at 1. apply inv_point. now apply tvalid_inv.
Qed.
Lemma base_ray b r t : base_ok b -> ray_at (t_ray (b_w2o b) r) t = t_point (b_w2o b) (ray_at r t).
Proof. intros H. apply ray_at_transform. now apply base_affine. Qed.

Lemma sphere_intersect_spec s r : sphere_ok s -> base_ok (sp_base s) -> notnan (rmint r) -> notnan (rmaxt r) ->
  let on t := sphere_on s (t_point (b_w2o (sp_base s)) (ray_at r t)) in
  match sphere_intersect s r with
  | Some h => in_range r (h_t h) /\ on (h_t h) /\ (forall t', in_range r t' -> on t' -> h_t h <= t') /\
      (let q := t_point (b_w2o (sp_base s)) (ray_at r (h_t h)) in
       (vx q <> 0 \/ vy q <> 0 -> dg_p (h_dg h) = ray_at r (h_t h)) /\
       (vx q = 0 -> vy q = 0 -> dg_p (h_dg h) = t_point (b_o2w (sp_base s)) (mkV (EPS * sp_r s) 0 (vz q))))
  | None => EPS < sdisc s r -> forall t', in_range r t' -> ~ on t'
  end.
Proof.
  intros Hok Hb Hm HM on. pose proof (sphere_find_spec s r Hok Hm HM) as F. cbv zeta in F.
  unfold sphere_intersect. destruct (sphere_find s r) as [[t q]|].
  - destruct F as (F1 & F2 & F3 & F4). cbn [h_t h_dg].
    split; [exact F1|]. split; [unfold on; now rewrite <- base_ray|].
    split. { intros t' H1 H2. apply F4; auto. rewrite base_ray; auto. }
    cbv zeta. rewrite <- base_ray by auto.
    assert (P : dg_p (sphere_dg s q) = t_point (b_o2w (sp_base s)) q).
    { unfold sphere_dg. destruct (weingarten _ _ _ _ _). reflexivity. }
    rewrite P, F3. unfold sphere_phit. split.
    + intros N. destruct (Reqb _ 0 && Reqb _ 0) eqn:E.
      * apply andb_true_iff in E. destruct E as [E1 E2]. Rb. destruct N; contradiction.
      * rewrite base_ray by auto. now apply base_round.
    + intros N1 N2. destruct (Reqb _ 0 && Reqb _ 0) eqn:E.
      * now rewrite N2.
      * apply andb_false_iff in E. destruct E; Rb; contradiction.
  - intros H t' H1 H2. apply (F H t' H1). rewrite base_ray; auto.
Qed.
(** Spheres too small for the discriminant threshold are never hit. *)
Lemma small_sphere_missed s r : 4 * sq_length (rd (t_ray (b_w2o (sp_base s)) r)) * (sp_r s * sp_r s) <= EPS ->
  sphere_intersect s r = None.
Proof.
  intros H. unfold sphere_intersect. rewrite sphere_find_search. cbv zeta.
  pose proof (sdisc_eq s r) as HD. cbv zeta in HD. rewrite HD.
  destruct (Rleb _ _) eqn:E; Rb; [reflexivity|]. exfalso.
  unfold sdisc, discriminant in E. set (r' := t_ray _ _) in *.
  assert (CS : vdot (rd r') (ro r') * vdot (rd r') (ro r') <= vdot (rd r') (rd r') * vdot (ro r') (ro r')).
  { unfold vdot. destruct (rd r') as [a b c], (ro r') as [x y z]; cbn.
    pose proof (Rle_0_sqr (a * y - b * x)). pose proof (Rle_0_sqr (a * z - c * x)). pose proof (Rle_0_sqr (b * z - c * y)).
    unfold Rsqr in *. nra. }
  change (sq_length (rd r')) with (vdot (rd r') (rd r')) in H. nra.
Qed.

(** *** Cylinder *)
Definition cylinder_on (c : cylinder) (p : vec) : Prop := on_cylinder (cy_r c) (cy_zmin c) (cy_zmax c) (cy_phimax c) p.
Lemma cylinder_clipped_iff c p : 0 < cy_r c -> 0 <= cy_phimax c <= 2 * PI ->
  vx p * vx p + vy p * vy p = cy_r c * cy_r c ->
  (cylinder_clipped c p = false <-> cy_zmin c <= vz p <= cy_zmax c /\ angle_within (cy_phimax c) p).
Proof.
  intros HR Hpm Hs. unfold cylinder_clipped. rewrite !orb_false_iff, !Rltb_false.
  rewrite angle_within_iff; auto; [tauto|].
  destruct (Req_dec (vx p) 0) as [E|E]; auto. right. intros E2. rewrite E, E2 in Hs. nra.
Qed.
Lemma cylinder_p_spec c r0 : 0 < cy_r c -> 0 <= cy_phimax c <= 2 * PI -> notnan (rmint r0) -> notnan (rmaxt r0) ->
  let r := t_ray (b_w2o (cy_base c)) r0 in
  let a := vx (rd r) * vx (rd r) + vy (rd r) * vy (rd r) in
  let b := vx (rd r) * vx (ro r) + vy (rd r) * vy (ro r) in
  (cylinder_intersect_p c r0 = true -> exists t, in_range r0 t /\ cylinder_on c (ray_at r t)) /\
  (0 < b * b - a * (vx (ro r) * vx (ro r) + vy (ro r) * vy (ro r) - cy_r c * cy_r c) ->
   (exists t, in_range r0 t /\ cylinder_on c (ray_at r t)) -> cylinder_intersect_p c r0 = true).
Proof.
  intros HR Hpm Hm HM r a b. unfold cylinder_intersect_p. fold r. cbv zeta. fold a b.
  set (C := vx (ro r) * vx (ro r) + vy (ro r) * vy (ro r) - cy_r c * cy_r c).
  destruct (Rleb _ _) eqn:E; Rb.
  { split; [discriminate|]. intros H. exfalso. nra. }
  assert (HA : 0 < a).
  { destruct (Rle_lt_dec a 0); auto. exfalso.
    assert (vx (rd r) = 0 /\ vy (rd r) = 0) as [X Y] by (unfold a in *; split; nra).
    unfold b in E. rewrite X, Y in E. unfold a in E. rewrite X, Y in E. nra. }
  destruct (quad_roots _ _ _) as [t0 t1] eqn:Q.
  apply (quad_roots_spec _ _ C) in Q; auto. destruct Q as [L Q].
  pose proof (search_spec (rmint r) (rmaxt r) (fun t => cylinder_clipped c (ray_at r t)) t0 t1 Hm HM L) as S.
  assert (K : forall t, cylinder_on c (ray_at r t) <-> (t = t0 \/ t = t1) /\ cylinder_clipped c (ray_at r t) = false).
  { intros t. rewrite <- Q. unfold cylinder_on, on_cylinder.
    assert (P : a * t * t + 2 * b * t + C = 0 <->
      vx (ray_at r t) * vx (ray_at r t) + vy (ray_at r t) * vy (ray_at r t) = cy_r c * cy_r c).
    { unfold ray_at, vadd, vscale, vmap2, vmap, a, b, C; cbn. split; intros; nra. }
    rewrite P. split.
    - intros [H1 H2]. split; [exact H1|]. now apply cylinder_clipped_iff.
    - intros [H1 H2]. split; [exact H1|]. now apply cylinder_clipped_iff in H2. }
  unfold search in S.
  assert (T : forall t, (t = t0 \/ t = t1) -> ele (rmint r) (Fin t) -> ele (Fin t) (rmaxt r) -> cylinder_clipped c (ray_at r t) = false ->
     exists t, in_range r0 t /\ cylinder_on c (ray_at r t)).
  { intros t H1 H2 H3 H4. exists t. split; [split; auto|]. apply K; auto. }
  assert (N : (forall t', t' = t0 \/ t' = t1 -> ele (rmint r) (Fin t') -> ele (Fin t') (rmaxt r) ->
       cylinder_clipped c (ray_at r t') = true) -> ~ exists t, in_range r0 t /\ cylinder_on c (ray_at r t)).
  { intros H (t & [H1 H2] & H3). apply K in H3. destruct H3 as [H3 H4]. rewrite H in H4; auto. discriminate. }
  assert (R1 : Reqb t1 t1 = true) by now apply Reqb_true.
  rewrite R1. cbn [orb].
  repeat (match type of S with context [if ?x then _ else _] => destruct x; cbn [orb andb] in * end);
    try (split; [discriminate|intros _ H; exfalso; exact (N S H)]);
    try (destruct S as (S1 & S2 & S3 & S4 & S5); split; [intros _; eapply T; eauto|reflexivity]).
Qed.
Lemma cylinder_agree c r : (cylinder_intersect c r = Ok None <-> cylinder_intersect_p c r = false) /\
  (cylinder_intersect c r = Err AttributeError <-> cylinder_intersect_p c r = true).
Proof.
  unfold cylinder_intersect, cylinder_intersect_p. cbv zeta.
  destruct (Rleb _ _); [split; split; congruence|]. destruct (quad_roots _ _ _).
  repeat (match goal with |- context [if ?b then _ else _] => destruct b end); split; split; congruence.
Qed.
Lemma cylinder_sample_on c u1 u2 : 0 <= cy_r c -> cy_zmin c <= cy_zmax c -> 0 <= cy_phimax c ->
  0 <= u1 <= 1 -> 0 <= u2 <= 1 -> cylinder_on c (cylinder_sample_obj c u1 u2).
Proof.
  intros HR Hz Hp H1 H2. unfold cylinder_on, on_cylinder, cylinder_sample_obj; cbn.
  pose proof (sin2_cos2 (u2 * cy_phimax c)) as SC. unfold Rsqr in SC.
  assert (Q : cy_r c * cos (u2 * cy_phimax c) * (cy_r c * cos (u2 * cy_phimax c)) +
              cy_r c * sin (u2 * cy_phimax c) * (cy_r c * sin (u2 * cy_phimax c)) = cy_r c * cy_r c) by nra.
  split; [exact Q|]. split; [now apply lerp_range|].
  exists (u2 * cy_phimax c). split; [nra|]. cbn [vx vy]. rewrite Q, sqrt_square by auto. lra.
Qed.

(** *** Disk *)
Definition disk_on (d : disk) (p : vec) : Prop := on_disk (dk_h d) (dk_r d) (dk_ri d) (dk_phimax d) p.
Lemma disk_angle pm p : 0 <= pm <= 2 * PI -> (angle_within pm p <-> hit_phi p <= pm).
Proof.
  intros H. destruct (Req_dec (vx p) 0) as [E|E]; [destruct (Req_dec (vy p) 0) as [E2|E2]|].
  - split; intros _.
    + unfold hit_phi. rewrite E, E2, arctan2_zero. Rcase; lra.
    + apply angle_within_axis; auto; lra.
  - apply angle_within_iff; auto.
  - apply angle_within_iff; auto.
Qed.
Lemma disk_find_spec d r0 : 0 <= dk_phimax d <= 2 * PI -> notnan (rmint r0) -> notnan (rmaxt r0) ->
  let r := t_ray (b_w2o (dk_base d)) r0 in
  match disk_find d r0 with
  | Some (t, q) => in_range r0 t /\ q = ray_at r t /\ disk_on d q /\ EPS <= Rabs (vz (rd r)) /\
      forall t', disk_on d (ray_at r t') -> t' = t
  | None => EPS <= Rabs (vz (rd r)) -> forall t, in_range r0 t -> ~ disk_on d (ray_at r t)
  end.
Proof.
  intros Hpm Hm HM r. unfold disk_find. fold r. cbv zeta. pose proof EPS_pos as HE.
  destruct (Rltb (Rabs _) _) eqn:E; Rb; [lra|].
  assert (HZ : vz (rd r) <> 0) by (intros Z; rewrite Z, Rabs_R0 in E; lra).
  set (t := (dk_h d - vz (ro r)) / vz (rd r)).
  assert (Zt : forall t', vz (ray_at r t') = dk_h d <-> t' = t).
  { intros t'. unfold ray_at, vadd, vscale, vmap2, vmap, t; cbn. split.
    - intros H. rewrite <- H. field. auto.
    - intros ->. field. auto. }
  assert (K : disk_on d (ray_at r t) <->
     (Rltb (dk_r d * dk_r d) (vx (ray_at r t) * vx (ray_at r t) + vy (ray_at r t) * vy (ray_at r t))
      || Rltb (vx (ray_at r t) * vx (ray_at r t) + vy (ray_at r t) * vy (ray_at r t)) (dk_ri d * dk_ri d)) = false
     /\ Rltb (dk_phimax d) (hit_phi (ray_at r t)) = false).
  { unfold disk_on, on_disk. rewrite orb_false_iff, !Rltb_false, disk_angle by auto.
    rewrite (proj2 (Zt t) eq_refl). tauto. }
  destruct (eltb (Fin t) (rmint r) || eltb (rmaxt r) (Fin t)) eqn:E1.
  { intros _ t' [H1 H2] H3. destruct H3 as [H3 _]. apply Zt in H3. subst t'.
    apply orb_true_iff in E1. destruct E1 as [E1|E1]; apply eltb_true_not in E1; auto. }
  apply orb_false_iff in E1. destruct E1 as [E1 E2].
  apply eltb_ele in E1; auto. apply eltb_ele in E2; auto.
  destruct (_ || _) eqn:E3.
  { intros _ t' _ H3. pose proof H3 as [H4 _]. apply Zt in H4. subst t'. apply K in H3. destruct H3; congruence. }
  destruct (Rltb (dk_phimax d) _) eqn:E4.
  { intros _ t' _ H3. pose proof H3 as [H4 _]. apply Zt in H4. subst t'. apply K in H3. destruct H3; congruence. }
  split; [split; auto|]. split; [auto|]. split; [apply K; auto|]. split; [auto|].
  intros t' [H _]. now apply Zt.
Qed.
Lemma disk_p_find d r : disk_intersect_p d r = match disk_find d r with Some _ => true | None => false end.
Proof.
  unfold disk_intersect_p, disk_find. cbv zeta.
  repeat (match goal with |- context [if ?b then _ else _] => destruct b end); reflexivity.
Qed.
