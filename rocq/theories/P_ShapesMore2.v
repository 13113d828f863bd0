(** Disk, cylinder and sphere: full tests, area sampling, parametrisation, bounds, identifiers. *)
From Coq Require Import Reals Lra Lia List ZArith Bool Psatz.
From Verif Require Import Base M_Geometry S_Geometry P_Geometry M_Transform S_Transform P_Transform P_Transform2
  M_MonteCarlo P_MonteCarlo M_Film M_Shapes S_Shapes P_Quadrics P_Triangle P_Normals P_Mesh P_BVHWit P_ShapesMore.
Import ListNotations.
Open Scope R_scope.

(** *** Disk: the full test *)
Lemma disk_dg_p d q g : disk_dg d q = Ok g -> dg_p g = t_point (b_o2w (dk_base d)) q /\ dg_u g = hit_phi q / dk_phimax d.
Proof. unfold disk_dg. cbv zeta. destruct (Rleb _ _); [discriminate|]. intros H; injection H as <-. split; reflexivity. Qed.
Lemma disk_full_spec d r : 0 <= dk_phimax d <= 2 * PI -> base_ok (dk_base d) -> notnan (rmint r) -> notnan (rmaxt r) ->
  match disk_intersect d r with
  | Ok None => disk_intersect_p d r = false
  | Ok (Some h) => disk_intersect_p d r = true /\ in_range r (h_t h) /\ dg_p (h_dg h) = ray_at r (h_t h) /\
      disk_on d (t_point (b_w2o (dk_base d)) (ray_at r (h_t h)))
  | Err e => disk_intersect_p d r = true /\ e = ValueError /\
      exists t, in_range r t /\ let q := t_point (b_w2o (dk_base d)) (ray_at r t) in
        disk_on d q /\ vx q * vx q + vy q * vy q <= dk_ri d
  end.
Proof.
  intros Hp Hb Hm HM. rewrite disk_p_find. pose proof (disk_find_spec d r Hp Hm HM) as F. cbv zeta in F.
  unfold disk_intersect. destruct (disk_find d r) as [[t q]|]; [|reflexivity].
  destruct F as (F1 & F2 & F3 & F4 & F5). rewrite base_ray in F2 by auto. subst q.
  destruct (disk_dg d _) as [g|e] eqn:EG; cbn [bind].
  - apply disk_dg_p in EG. destruct EG as [EG _]. cbn [h_t h_dg]. rewrite EG, base_round by auto. auto.
  - unfold disk_dg in EG. cbv zeta in EG. destruct (Rleb _ _) eqn:E; [|discriminate]. injection EG as <-. Rb.
    split; [auto|]. split; [auto|]. exists t. auto.
Qed.
(** A ray down the axis of a full disk: the shadow test succeeds, the full test raises. *)
Lemma disk_bad : let d := disk_make (id_base false) 0 1 0 360 in let r := ray_new (mkV 0 0 1) (mkV 0 0 (-1)) 0 in
  disk_intersect_p d r = true /\ disk_intersect d r = Err ValueError.
Proof.
  intros d r.
  assert (F : disk_find d r = Some (1, mkV 0 0 0)).
  { unfold disk_find. 
    assert (E : t_ray (b_w2o (dk_base d)) r = r).
    { unfold t_ray, r, ray_new, d, disk_make, id_base; cbn [dk_base b_w2o ro rd]. rewrite t_point_I, t_vector_I. reflexivity. }
    rewrite E. cbv zeta. unfold r, ray_new; cbn [rd ro vz rmint rmaxt].
    rewrite Rabs_left by lra. pose proof EPS_pos. replace (Rltb (- -1) EPS) with false by (symmetry; apply Rltb_false; unfold EPS; lra).
    unfold d, disk_make; cbn [dk_h dk_r dk_ri dk_phimax].
    replace ((0 - 1) / -1) with 1 by lra. unfold eltb; cbn [orb].
    rdec1. cbn [orb]. unfold ray_at, vadd, vscale, vmap2, vmap; cbn [vx vy vz ro rd].
    rdec1. cbn [orb]. rdec1. cbn [orb].
    replace (Rltb (phi_max_of 360) _) with false; [f_equal; f_equal; apply V3_eq; cbn; lra|].
    symmetry. apply Rltb_false. unfold hit_phi; cbn [vx vy]. replace (0 + 1 * 0) with 0 by lra. rewrite arctan2_zero. rdec1.
    apply phi_max_range. }
  rewrite disk_p_find. unfold disk_intersect. rewrite F. split; [reflexivity|].
  unfold disk_dg, d, disk_make; cbn [dk_ri vx vy]. cbv zeta. rdec1. reflexivity.
Qed.
(** *** Disk sampling *)
Lemma angle_full p : angle_within (2 * PI) p.
Proof. apply disk_angle; [pose proof PI_RGT_0; lra|]. pose proof (hit_phi_range p). lra. Qed.
Lemma disk_sample_full d u1 u2 : dk_phimax d = 2 * PI -> 0 <= dk_ri d <= dk_r d -> 0 <= u1 <= 1 -> 0 <= u2 <= 1 ->
  disk_on d (disk_sample_obj d u1 u2).
Proof.
  intros Hp Hr H1 H2. unfold disk_on, on_disk, disk_sample_obj.
  pose proof (concentric_main u1 u2) as C. destruct (concentric_sample_disk u1 u2) as [x y]. cbv zeta in C. cbn [vx vy vz].
  set (q := sqrt (x * x + y * y)).
  assert (Q : 0 <= q <= 1).
  { unfold q. split; [apply sqrt_pos|]. rewrite C. apply (Rle_trans _ (sqrt 1)); [apply sqrt_le_1_alt|rewrite sqrt_1; lra].
    assert (0 <= Rmax (Rabs (2 * u1 - 1)) (Rabs (2 * u2 - 1)) <= 1).
    { split; [eapply Rle_trans; [apply Rabs_pos|apply Rmax_l]|]. apply Rmax_lub; apply Rabs_le; lra. }
    set (mm := Rmax _ _) in *. clearbody mm. nra. }
  set (phi := arctan2 y x * _ * _). set (r := dk_ri d + q * (dk_r d - dk_ri d)).
  assert (RR : dk_ri d <= r <= dk_r d) by (unfold r; nra).
  pose proof (cs1 phi) as CS.
  replace (r * cos phi * (r * cos phi) + r * sin phi * (r * sin phi)) with (r * r)
    by (transitivity (r * r * (cos phi * cos phi + sin phi * sin phi)); [rewrite CS; ring|ring]).
  split; [reflexivity|]. split; [nra|]. rewrite Hp. apply angle_full.
Qed.
Lemma concentric_down : concentric_sample_disk (1/2) 0 = (1 * cos (6 * (PI / 4)), 1 * sin (6 * (PI / 4))).
Proof.
  unfold concentric_sample_disk, concentric_polar.
  replace (2 * (1/2) - 1) with 0 by lra. replace (2 * 0 - 1) with (-1) by lra.
  do 2 rdec1. cbn [andb]. do 2 rdec1. replace (- -1) with 1 by lra. replace (6 + 0 / -1) with 6 by lra. reflexivity.
Qed.
Lemma deg90 : phi_max_of 90 = PI / 2.
Proof. unfold phi_max_of. rewrite clip_id by lra. unfold deg2rad. field. Qed.
Lemma disk_sample_partial_bad : let d := disk_make (id_base false) 0 1 0 90 in ~ disk_on d (disk_sample_obj d (1/2) 0).
Proof.
  intros d (_ & _ & phi & [P0 P1] & _ & HY). revert HY.
  change (dk_phimax d) with (phi_max_of 90) in *. rewrite deg90 in P1.
  unfold d, disk_sample_obj, disk_make; cbn [dk_phimax dk_ri dk_r dk_h]. rewrite deg90. rewrite concentric_down. cbn [vx vy].
  assert (C6 : cos (6 * (PI / 4)) = 0).
  { replace (6 * (PI / 4)) with (3 * (PI / 2)) by field. apply cos_3PI2. }
  assert (S6 : sin (6 * (PI / 4)) = -1).
  { replace (6 * (PI / 4)) with (3 * (PI / 2)) by field. apply sin_3PI2. }
  rewrite C6, S6.
  replace (sqrt (1 * 0 * (1 * 0) + 1 * -1 * (1 * -1))) with 1
    by (replace (1 * 0 * (1 * 0) + 1 * -1 * (1 * -1)) with 1 by lra; now rewrite sqrt_1).
  replace (arctan2 (1 * -1) (1 * 0)) with (- (PI / 2)).
  2:{ unfold arctan2. do 4 rdec1. reflexivity. }
  replace (- (PI / 2) * (PI / 2) * (1 / (2 * PI))) with (- (PI / 8)) by (field; pose proof PI_RGT_0; lra).
  replace (0 + 1 * (1 - 0)) with 1 by lra. rewrite cos_neg, sin_neg.
  pose proof (cs1 (PI / 8)) as CS.
  replace (sqrt _) with 1.
  2:{ symmetry. transitivity (sqrt 1); [f_equal; lra|apply sqrt_1]. }
  pose proof PI_RGT_0. assert (0 < sin (PI / 8)) by (apply sin_gt_0; lra).
  assert (0 <= sin phi) by (apply sin_ge_0; lra). lra.
Qed.
(** the sampled "normal" of a disk in the z = 0 plane lies in the plane *)
Lemma disk_sample_normal_bad : let d := disk_make (id_base false) 0 1 0 360 in
  forall u1 u2, vz (snd (disk_sample d u1 u2)) = 0.
Proof.
  intros d u1 u2. unfold disk_sample, d, disk_make; cbn [dk_base snd id_base b_ro]. cbn [b_o2w].
  rewrite t_point_I. unfold disk_sample_obj. destruct (concentric_sample_disk u1 u2). cbn [dk_h].
  unfold normalize. cbv zeta. destruct (Reqb _ 0) eqn:Q; cbn [vz]; [reflexivity|]. unfold Rdiv. ring.
Qed.
(** *** Sphere sampling *)
Lemma acos_m1 : acos (-1) = PI.
Proof. change (acos (Ropp 1) = PI). rewrite acos_opp, acos_1. lra. Qed.
Lemma sphere_sample_bad : let s := sphere_make (id_base false) 1 (-1) 1 360 in
  forall u2, sphere_sample_obj s 0 u2 = mkV 0 0 (-3) /\ ~ sphere_on s (sphere_sample_obj s 0 u2).
Proof.
  intros s u2.
  assert (E : sphere_sample_obj s 0 u2 = mkV 0 0 (-3)).
  { unfold sphere_sample_obj, uniform_sample_sphere. cbv zeta.
    replace (1 - 2 * 0) with 1 by lra. 
    assert (T : spherical_theta (mkV (sqrt (pmax 0 (1 - 1 * 1)) * cos (2 * PI * u2)) (sqrt (pmax 0 (1 - 1 * 1)) * sin (2 * PI * u2)) 1) = 0).
    { unfold spherical_theta; cbn [vz]. rewrite clip_id by lra. apply acos_1. }
    rewrite T. unfold s, sphere_make; cbn [sp_tmin sp_tmax sp_r sp_zmin sp_zmax sp_phimax].
    replace (pmin (-1) 1) with (-1) by (unfold pmin; rdec1; reflexivity).
    replace (pmax (-1) 1) with 1 by (unfold pmax; rdec1; reflexivity).
    rewrite !(clip_id (-1)) by lra. rewrite !(clip_id 1) by lra.
    replace (-1 / 1) with (-1) by lra. rewrite (clip_id (-1)) by lra.
    rewrite acos_m1.
    replace (1 / 1) with 1 by lra. rewrite clip_id by lra. rewrite acos_1.
    replace (PI + 0 * (0 - PI)) with PI by lra. rewrite sin_PI, cos_PI.
    unfold spherical_direction, vscale, vmap; cbn. apply V3_eq; cbn; lra. }
  split; [exact E|]. rewrite E. intros [H _]. cbn in H. lra.
Qed.
(** *** (u, v) of quadrics *)
Lemma hit_u_range pm q : 0 < pm -> hit_phi q <= pm -> 0 <= hit_phi q / pm <= 1.
Proof.
  intros H1 H2. pose proof (hit_phi_range q). split.
  - apply Rmult_le_pos; [lra|]. left. now apply Rinv_0_lt_compat.
  - apply (Rmult_le_reg_r pm); [lra|]. unfold Rdiv. rewrite Rmult_assoc, Rinv_l by lra. lra.
Qed.
Lemma sphere_u_range s r h : sphere_ok s -> 0 < sp_phimax s -> sphere_intersect s r = Some h -> 0 <= dg_u (h_dg h) <= 1.
Proof.
  intros Hok Hp. unfold sphere_intersect. destruct (sphere_find s r) as [[t q]|] eqn:F; [|discriminate].
  intros H; injection H as <-. cbn [h_dg].
  assert (E : dg_u (sphere_dg s q) = hit_phi q / sp_phimax s) by (unfold sphere_dg; destruct (weingarten _ _ _ _ _); reflexivity).
  rewrite E. apply hit_u_range; auto. revert F. unfold sphere_find. cbv zeta.
  destruct (Rleb _ _); [discriminate|]. destruct (quad_roots _ _ _) as [t0 t1].
  repeat (match goal with |- (if ?c then _ else _) = _ -> _ => destruct c eqn:?H; try discriminate end);
  intros X; injection X as <- <-;
  match goal with H : sphere_clipped s ?q = false |- hit_phi ?q <= _ => unfold sphere_clipped in H; apply orb_false_iff in H; destruct H as [_ H]; Rb; exact H end.
Qed.
Lemma disk_u_range d r h : 0 < dk_phimax d <= 2 * PI -> disk_intersect d r = Ok (Some h) -> 0 <= dg_u (h_dg h) <= 1.
Proof.
  intros Hp. unfold disk_intersect. destruct (disk_find d r) as [[t q]|] eqn:F; [|discriminate].
  destruct (disk_dg d q) as [g|] eqn:EG; [|discriminate]. cbn [bind]. intros H; injection H as <-. cbn [h_dg].
  apply disk_dg_p in EG. destruct EG as [_ ->]. apply hit_u_range; [lra|].
  revert F. unfold disk_find. cbv zeta.
  repeat (match goal with |- (if ?c then _ else _) = _ -> _ => destruct c eqn:?H; try discriminate end).
  intros X; injection X as <- <-. Rb. auto.
Qed.
(** the v coordinate of the full unit sphere at its equator is pi^2 / 2 ... not within [0,1] *)
Lemma sphere_v_bad : let s := sphere_make (id_base false) 1 (-1) 1 360 in
  exists r h, notnan (rmint r) /\ notnan (rmaxt r) /\ sphere_intersect s r = Some h /\ 1 < dg_v (h_dg h).
Proof.
  intros s. set (r := ray_new (mkV 3 0 0) (mkV (-1) 0 0) 0).
  assert (TR : t_ray (b_w2o (sp_base s)) r = r).
  { unfold t_ray, r, ray_new, s, sphere_make, id_base; cbn [sp_base b_w2o ro rd]. rewrite t_point_I, t_vector_I. reflexivity. }
  assert (SF : sp_r s = 1 /\ sp_zmin s = -1 /\ sp_zmax s = 1 /\ sp_tmin s = PI /\ sp_tmax s = 0).
  { unfold s, sphere_make; cbn [sp_tmin sp_tmax sp_r sp_zmin sp_zmax sp_phimax].
    replace (pmin (-1) 1) with (-1) by (unfold pmin; rdec1; reflexivity).
    replace (pmax (-1) 1) with 1 by (unfold pmax; rdec1; reflexivity).
    rewrite !(clip_id (-1)) by lra. rewrite !(clip_id 1) by lra.
    replace (-1 / 1) with (-1) by lra. rewrite (clip_id (-1)) by lra.
    rewrite acos_m1.
    replace (1 / 1) with 1 by lra. rewrite clip_id by lra. rewrite acos_1. auto. }
  destruct SF as (R1 & R2 & R3 & R4 & R5).
  assert (F : sphere_find s r = Some (2, mkV 1 0 0)).
  { unfold sphere_find. rewrite TR. cbv zeta. unfold r, ray_new; cbn [rd ro rmint rmaxt]. unfold sq_length, vdot; cbn [vx vy vz]. rewrite R1.
    unfold quad_roots.
    replace (2 * (-1 * 3 + 0 * 0 + 0 * 0) * (2 * (-1 * 3 + 0 * 0 + 0 * 0)) - 4 * (-1 * -1 + 0 * 0 + 0 * 0) * (3 * 3 + 0 * 0 + 0 * 0 - 1 * 1)) with (2 * 2) by lra.
    rewrite sqrt_square by lra.
    replace (Rleb (2 * 2) (0 + EPS)) with false by (symmetry; apply Rleb_false; unfold EPS; lra).
    replace ((- (2 * (-1 * 3 + 0 * 0 + 0 * 0)) + 2) / (2 * (-1 * -1 + 0 * 0 + 0 * 0))) with 4 by field.
    replace ((- (2 * (-1 * 3 + 0 * 0 + 0 * 0)) - 2) / (2 * (-1 * -1 + 0 * 0 + 0 * 0))) with 2 by field.
    rdec1. unfold eltb; cbn [rmint rmaxt orb andb]. rdec1. rdec1. cbn [orb andb].
    unfold sphere_phit, ray_at, vadd, vscale, vmap2, vmap; cbn [ro rd vx vy vz]. rdec1. cbn [andb].
    replace (3 + 2 * -1) with 1 by lra. replace (0 + 2 * 0) with 0 by lra.
    unfold sphere_clipped. rewrite R1, R2, R3. cbn [vz]. do 2 rdec1. cbn [andb orb].
    replace (Rltb (sp_phimax s) (hit_phi (mkV 1 0 0))) with false; [rdec1; cbn [andb orb]; reflexivity|].
    symmetry; apply Rltb_false. unfold hit_phi; cbn [vx vy]. rewrite arctan2_pos_axis by lra. rdec1. apply phi_max_range. }
  exists r. unfold sphere_intersect. rewrite F. eexists. split; [discriminate|]. split; [discriminate|]. split; [reflexivity|].
  cbn [h_dg]. assert (E : dg_v (sphere_dg s (mkV 1 0 0)) = (acos (clip (0 / sp_r s) (-1) 1) - sp_tmin s) * (sp_tmax s - sp_tmin s)) by
   (unfold sphere_dg; destruct (weingarten _ _ _ _ _); reflexivity).
  rewrite E, R1, R4, R5. replace (0 / 1) with 0 by lra. rewrite clip_id, acos_0 by lra. pose proof PI2_3_2. unfold PI2 in *. nra.
Qed.
(** *** Object bounds contain the surfaces *)
Lemma xy_bound x y r : 0 <= r -> x * x + y * y <= r * r -> - r <= x <= r /\ - r <= y <= r.
Proof. intros. repeat split; nra. Qed.
Lemma quadric_bounds : (forall s p, 0 <= sp_r s -> sphere_on s p -> in_corners (sphere_object_bound s) p) /\
  (forall c p, 0 <= cy_r c -> cylinder_on c p -> in_corners (cylinder_object_bound c) p) /\
  (forall d p, 0 <= dk_r d -> disk_on d p -> in_corners (disk_object_bound d) p).
Proof.
  split; [|split].
  - intros s p Hr (H1 & H2 & _). destruct (xy_bound (vx p) (vy p) (sp_r s) Hr); [nra|]. unfold in_corners; cbn. tauto.
  - intros c p Hr (H1 & H2 & _). destruct (xy_bound (vx p) (vy p) (cy_r c) Hr); [nra|]. unfold in_corners; cbn. tauto.
  - intros c p Hr (H1 & H2 & _). destruct (xy_bound (vx p) (vy p) (dk_r c) Hr); [nra|]. unfold in_corners; cbn. lra.
Qed.
(** *** Shape identifiers *)
Section Ids.
Variable create : Z -> Z * Z.
Hypothesis create_is : forall c, create c = (c, (c + 1)%Z).
Lemma make_ids_from k : forall c i, In i (make_ids create k c) -> (c <= i)%Z.
Proof.
  induction k; intros c i; cbn [make_ids]; [intros []|]. rewrite create_is. intros [<-|H]; [lia|]. apply IHk in H. lia.
Qed.
Lemma ids_distinct k : forall c, NoDup (make_ids create k c).
Proof.
  induction k; intros c; cbn [make_ids]; [constructor|]. rewrite create_is. constructor; auto. intros H. apply make_ids_from in H. lia.
Qed.
Lemma ids_in_order k : forall c j, (j < k)%nat -> nth_error (make_ids create k c) j = Some (c + Z.of_nat j)%Z.
Proof.
  induction k; intros c j H; [lia|]. cbn [make_ids]. rewrite create_is. destruct j; cbn [nth_error].
  - f_equal. lia.
  - rewrite IHk by lia. f_equal. lia.
Qed.
End Ids.
