(** Property theorems C12-C18 (transforms).  Specification vocabulary: S_Transform.v, S_Geometry.v. *)
From Coq Require Import Reals Lra List Bool.
From Verif Require Import Base M_Geometry S_Geometry P_Geometry M_Transform S_Transform
  P_Transform P_Transform2 P_Animated.
Import ListNotations.
From Verif Require Import P_Inverse.
Open Scope R_scope.

(** C12 *)
Theorem C12_round_trip (t : transform) : built t ->
  (forall p, t_point (t_inverse t) (t_point t p) = p) /\
  (forall v, t_vector (t_inverse t) (t_vector t v) = v) /\
  (forall n, t_normal (t_inverse t) (t_normal t n) = n) /\
  (forall r, let r' := t_ray (t_inverse t) (t_ray t r) in
     ro r' = ro r /\ rd r' = rd r /\ rmint r' = rmint r /\ rmaxt r' = rmaxt r /\
     rdepth r' = rdepth r /\ rtime r' = rtime r).
Proof. exact (built_round_trip t). Qed.
Print Assumptions C12_round_trip.
(** Built from a bare matrix: the stored inverse is the inverse, and construction fails exactly if there is none. *)
Theorem C12_matrix (m : M4) :
  (forall t, t_of_matrix m = Ok t -> tm t = m /\ mmul m (tinv t) = I4 /\ mmul (tinv t) m = I4) /\
  ((exists e, t_of_matrix m = Err e) <-> ~ exists n, mmul m n = I4).
Proof. split; [exact (of_matrix_inverse m)|exact (of_matrix_fails m)]. Qed.
Print Assumptions C12_matrix.
Theorem C12_inverse_involution (t : transform) : t_inverse (t_inverse t) = t.
Proof. exact (inverse_involution t). Qed.
Print Assumptions C12_inverse_involution.
Example C12_ex : built (t_mul (t_rotate 30 (mkV 1 2 3)) (t_inverse (t_mul (t_scale 2 3 (-4))
  (t_look_at (mkV 1 0 0) vzero (mkV 0 1 0))))).
Proof.
  apply b_mul; [|apply b_inv, b_mul].
  - apply b_rot. intros H; inversion H; lra.
  - apply b_scale; lra.
  - apply b_look; intros H; inversion H; lra.
Qed.

(** C13 *)
Theorem C13_composition (a b : transform) : built a -> built b ->
  (forall p, t_point (t_mul a b) p = t_point a (t_point b p)) /\
  (forall v, t_vector (t_mul a b) v = t_vector a (t_vector b v)) /\
  (forall n, t_normal (t_mul a b) n = t_normal a (t_normal b n)) /\
  swaps_handedness (t_mul a b) = xorb (swaps_handedness a) (swaps_handedness b).
Proof. exact (composition_main a b). Qed.
Print Assumptions C13_composition.
Theorem C13_ray_moves_with_transform (t : transform) (r : ray) (s : R) : built t ->
  ray_at (t_ray t r) s = t_point t (ray_at r s).
Proof. intros H. exact (ray_at_transform t r s (proj1 (built_valid t H))). Qed.
Print Assumptions C13_ray_moves_with_transform.
Theorem C13_translate (d : vec) :
  (forall p, t_point (t_translate d) p = vadd p d) /\ (forall v, t_vector (t_translate d) v = v) /\
  (forall n, t_normal (t_translate d) n = n).
Proof. exact (translate_main d). Qed.
Print Assumptions C13_translate.
Example C13_ex : swaps_handedness (t_scale (-1) 2 3) = true /\ swaps_handedness (t_rotate_x 10) = false.
Proof. exact swaps_examples. Qed.

(** C14 *)
Theorem C14_normals_stay_perpendicular (t : transform) (n v : vec) : built t ->
  orth n v -> orth (t_normal t n) (t_vector t v).
Proof. exact (normal_stays_perp t n v). Qed.
Print Assumptions C14_normals_stay_perpendicular.
Example C14_ex : built (t_scale 1 2 3) /\ orth (mkV 1 1 0) (mkV 1 (-1) 5) /\
  ~ orth (t_vector (t_scale 1 2 3) (mkV 1 1 0)) (t_vector (t_scale 1 2 3) (mkV 1 (-1) 5)).
Proof.
  split; [apply b_scale; lra|]. unfold orth, t_vector, t_scale, dot4; cbn. split; [lra|].
  intros H; lra.
Qed.

(** C15: a full-dimensional box is bounded by the transformed box exactly for transforms whose linear part has no
    negative entry. *)
Theorem C15_bbox_image_partial (t : transform) (lo hi : vec) : built t ->
  vx lo < vx hi -> vy lo < vy hi -> vz lo < vz hi ->
  ((forall p, between lo p hi -> between (fst (t_bbox t lo hi)) (t_point t p) (snd (t_bbox t lo hi))) <->
   nonneg_linear (tm t)).
Proof. intros H. exact (bbox_image_iff t lo hi (proj1 (built_valid t H))). Qed.
Print Assumptions C15_bbox_image_partial.
Example C15_ex : built (t_mul (t_translate (mkV 1 2 3)) (t_scale 2 3 4)) /\
  nonneg_linear (tm (t_mul (t_translate (mkV 1 2 3)) (t_scale 2 3 4))).
Proof.
  split; [apply b_mul; [constructor|apply b_scale; lra]|].
  intros r [-> | [-> | ->]]; cbn; unfold dot4; cbn; lra.
Qed.
Theorem C15_bbox_image_refuted : exists t lo hi p, built t /\ vle lo hi /\ between lo p hi /\
  ~ between (fst (t_bbox t lo hi)) (t_point t p) (snd (t_bbox t lo hi)).
Proof. exact rotate_180_bad. Qed.
Print Assumptions C15_bbox_image_refuted.

(** C16: the position part holds, and it is the inverse transform that carries +z to the viewing
    direction; the transform itself does not. *)
Theorem C16_look_at_position_partial (pos look up : vec) : look <> pos -> vcross up (vsub look pos) <> vzero ->
  let t := t_look_at pos look up in
  t_point t vzero = pos /\ t_point (t_inverse t) pos = vzero /\
  t_vector (t_inverse t) (mkV 0 0 1) = normalize (vsub look pos).
Proof. exact (look_main pos look up). Qed.
Print Assumptions C16_look_at_position_partial.
Theorem C16_look_at_direction_refuted : exists pos look up, look <> pos /\ vcross up (vsub look pos) <> vzero /\
  t_vector (t_look_at pos look up) (mkV 0 0 1) <> normalize (vsub look pos).
Proof. exact look_z_wrong. Qed.
Print Assumptions C16_look_at_direction_refuted.
Example C16_ex : mkV 1 0 0 <> vzero /\ vcross (mkV 0 1 0) (vsub (mkV 1 0 0) vzero) <> vzero.
Proof. split; intros H; inversion H; lra. Qed.

(** C17 *)
Theorem C196_clamped_before t1 s t2 e a : a_make t1 s t2 e = Ok a -> s <= e ->
  forall time, time < s \/ (time = s /\ s < e) ->
     (forall p, a_point a time p = Ok (t_point t1 p)) /\ (forall v, a_vector a time v = Ok (t_vector t1 v)) /\
     (forall r, rtime r = time -> a_ray a r = Ok (t_ray t1 r)).
Proof. exact (anim_before t1 s t2 e a). Qed.
Print Assumptions C196_clamped_before.
Theorem C196_clamped_after t1 s t2 e a : a_make t1 s t2 e = Ok a -> s < e ->
  forall time, e <= time ->
     (forall p, a_point a time p = Ok (t_point t2 p)) /\ (forall v, a_vector a time v = Ok (t_vector t2 v)) /\
     (forall r, rtime r = time -> a_ray a r = Ok (t_ray t2 r)).
Proof. exact (anim_after t1 s t2 e a). Qed.
Print Assumptions C196_clamped_after.
Theorem C196_static_is_constant t1 s t2 e a : a_make t1 s t2 e = Ok a -> tm t1 = tm t2 ->
  forall time, (forall p, a_point a time p = Ok (t_point t1 p)) /\ (forall v, a_vector a time v = Ok (t_vector t1 v)) /\
     (forall r, a_ray a r = Ok (t_ray t1 r)).
Proof. exact (anim_static t1 s t2 e a). Qed.
Print Assumptions C196_static_is_constant.
(** Motion bounds: proved for pure translations; false for a non-animated transform (next theorem). *)
Theorem C17_motion_bounds_translation_partial d1 d2 s e a lo hi : d1 <> d2 -> s < e -> vle lo hi ->
  a_make (t_translate d1) s (t_translate d2) e = Ok a ->
  exists b, motion_bounds a lo hi false = Ok b /\
    forall time p, between lo p hi -> exists p', a_point a time p = Ok p' /\ in_box b p'.
Proof. exact (anim_translate_bounds d1 d2 s e a lo hi). Qed.
Print Assumptions C17_motion_bounds_translation_partial.
(** the construction succeeds for every pair of translations *)
Example C17_ex d1 d2 s e : d1 <> d2 -> exists a, a_make (t_translate d1) s (t_translate d2) e = Ok a.
Proof. intros H. eexists. exact (anim_translate_make d1 d2 s e H). Qed.
Theorem C17_motion_bounds_static_refuted : exists t a lo hi b p p', built t /\ a_make t 0 t 1 = Ok a /\ vle lo hi /\
  motion_bounds a lo hi false = Ok b /\ between lo p hi /\ a_point a 0 p = Ok p' /\ ~ in_box b p'.
Proof. exact motion_static_bad. Qed.
Print Assumptions C17_motion_bounds_static_refuted.

(** C18 *)
Theorem C197_unit_quaternion_is_rotation (q : quat) : qunit q ->
  let t := to_transform q in
  (forall u v, vdot (t_vector t u) (t_vector t v) = vdot u v) /\ det3 (tm t) = 1 /\
  (forall p, t_point (t_inverse t) (t_point t p) = p).
Proof. exact (quat_rotation_main q). Qed.
Print Assumptions C197_unit_quaternion_is_rotation.
Theorem C18_slerp_partial (a b : quat) : qunit a -> qunit b -> b <> mkQ (- qx a) (- qy a) (- qz a) (- qw a) ->
  (forall t, 0 <= t <= 1 -> qunit (slerp t a b)) /\ slerp 0 a b = a /\ slerp 1 a b = b.
Proof. exact (slerp_main a b). Qed.
Print Assumptions C18_slerp_partial.
Example C18_ex : qunit (mkQ (3/5) 0 (4/5) 0) /\ qunit (mkQ 0 0 0 1).
Proof. unfold qunit; cbn; lra. Qed.
Theorem C18_from_matrix_refuted : exists t, built t /\ det3 (tm t) = 1 /\ tinv t = mT (tm t) /\
  tm (to_transform (from_arr (tm t))) <> tm t /\ ~ qunit (from_arr (tm t)).
Proof. exact from_arr_bad. Qed.
Print Assumptions C18_from_matrix_refuted.

(** C62: transforming a ray differential leaves the two offset rays in the old space *)
Theorem C62_raydiff_main_ray_partial (t : transform) (r : raydiff) : built t ->
  forall s, ray_at (rd_ray (t_raydiff t r)) s = t_point t (ray_at (rd_ray r) s).
Proof. exact (raydiff_main t r). Qed.
Print Assumptions C62_raydiff_main_ray_partial.
Theorem C62_raydiff_offsets_refuted : exists t r, built t /\ rd_has r = true /\
  rd_rxo (t_raydiff t r) <> t_point t (rd_rxo r).
Proof. exact raydiff_bad. Qed.
Print Assumptions C62_raydiff_offsets_refuted.

(** C217: homogeneous division *)
Definition hrow (r : V4) (p : vec) : R := q0 r * vx p + q1 r * vy p + q2 r * vz p + q3 r.
Theorem C217_division_partial (t : transform) (p : vec) :
  let w := hrow (row3 (tm t)) p in
  w = 1 \/ EPS < Rabs (w - 1) ->
  t_point t p = mkV (hrow (row0 (tm t)) p / w) (hrow (row1 (tm t)) p / w) (hrow (row2 (tm t)) p / w).
Proof.
  intros w H. assert (HE : 0 < EPS) by (unfold EPS; lra). unfold t_point. cbv zeta.
  assert (D : forall r, dot4 r (mkV4 (vx p) (vy p) (vz p) 1) = hrow r p) by (intros; unfold dot4, hrow; cbn; ring).
  rewrite !D. fold w. destruct (ne_unity w) eqn:B; [reflexivity|]. unfold ne_unity in B.
  apply orb_false_iff in B. destruct B as [B1 B2]. apply Rltb_false in B1. apply Rltb_false in B2.
  destruct H as [->|H]; [apply V3_eq; cbn; field|]. exfalso. assert (Rabs (w - 1) <= EPS) by (apply Rabs_le; lra). lra.
Qed.
Print Assumptions C217_division_partial.
(** The division is left out if w differs from 1 by up to 1e-5. *)
Theorem C217_near_one_refuted : exists m t p, t_of_matrix m = Ok t /\
  hrow (row3 m) p <> 1 /\ hrow (row3 m) p <> 0 /\ vx (t_point t p) <> hrow (row0 m) p / hrow (row3 m) p.
Proof.
  set (m := mkM (mkV4 1 0 0 0) (mkV4 0 1 0 0) (mkV4 0 0 1 0) (mkV4 0 0 0 (1 + EPS))).
  assert (HE : 0 < EPS < 1) by (unfold EPS; lra).
  assert (D : det4 m = 1 + EPS) by (unfold det4, m; cbv [row0 row1 row2 row3]; ring).
  exists m, (mkT m (cofinv m)), (mkV 1 0 0). split; [|split; [|split]].
  - unfold t_of_matrix, minv. rewrite (proj2 (Reqb_false _ 0)) by (rewrite D; lra). reflexivity.
  - unfold hrow, m; cbn. lra.
  - unfold hrow, m; cbn. lra.
  - unfold t_point, hrow, m; cbn. unfold dot4; cbn. replace (0 * 1 + 0 * 0 + 0 * 0 + (1 + EPS) * 1) with (1 + EPS) by ring.
    assert (N : ne_unity (1 + EPS) = false).
    { unfold ne_unity. apply orb_false_iff. split; apply Rltb_false; lra. }
    rewrite N. cbn. replace (0 * 1 + 0 * 0 + 0 * 0 + (1 + EPS)) with (1 + EPS) by ring. intros E.
    apply (f_equal (fun x => x * (1 + EPS))) in E. unfold Rdiv in E. rewrite Rmult_assoc, Rinv_l in E by lra. lra.
Qed.
Print Assumptions C217_near_one_refuted.
