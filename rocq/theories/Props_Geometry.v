(** Property theorems C01-C06 (geometry).  Specification vocabulary: S_Geometry.v. *)
From Coq Require Import Reals Lra List Bool.
From Verif Require Import Base M_Geometry S_Geometry P_Geometry.
Import ListNotations.
Open Scope R_scope.

(** C01: a box accumulated from the default box covers everything put in, is below every other
    covering box, and depends only on the set of things put in. *)
Theorem C01_union_least_upper_bound (l : list geom) : Forall geom_ok l ->
  let b := accumulate bbox_empty l in
  Forall (covers b) l /\
  (forall c, box_ok c -> Forall (covers c) l -> box_le b c) /\
  (forall p, In (GP (vmap Fin p)) l -> in_box b p) /\
  (forall c p, In (GB c) l -> in_box c p -> in_box b p) /\
  (forall l', Forall geom_ok l' -> (forall g, In g l <-> In g l') -> accumulate bbox_empty l' = b).
Proof. exact (box_union_main l). Qed.
Print Assumptions C01_union_least_upper_bound.
Example C01_ex : Forall geom_ok
  [GP (vmap Fin (mkV 1 2 3)); GB (fbox (mkV 0 0 0) (mkV 1 1 1)); GB bbox_empty].
Proof. repeat constructor; discriminate. Qed.

(** C02 *)
Theorem C02_inside_exact (b : box) (p : vec) : inside b p = true <-> in_box b p.
Proof. exact (inside_in b p). Qed.
Print Assumptions C02_inside_exact.

Theorem C02_overlaps_exact (a b : box) : box_ok a -> box_ok b ->
  (exists p, in_box a p) -> (exists p, in_box b p) ->
  (overlaps a b = true <-> exists p, in_box a p /\ in_box b p).
Proof. exact (overlaps_iff a b). Qed.
Print Assumptions C02_overlaps_exact.
Example C02_ex : box_ok (fbox vzero (mkV 1 1 1)) /\ (exists p, in_box (fbox vzero (mkV 1 1 1)) p).
Proof.
  split; [repeat split; discriminate|]. exists (mkV 1 0 (/2)).
  apply in_fbox. unfold between, vle; cbn. lra.
Qed.

(** every point within delta (in each coordinate) of the box is inside the expanded box *)
Theorem C02_expand_covers lo hi d p : 0 <= d ->
  between lo p hi -> forall q, Rabs (vx q - vx p) <= d -> Rabs (vy q - vy p) <= d ->
  Rabs (vz q - vz p) <= d -> inside (expand (fbox lo hi) d) q = true.
Proof. exact (expand_in lo hi d p). Qed.
Print Assumptions C02_expand_covers.

Theorem C02_measures_monotone lo hi lo' hi' : vle lo hi -> vle lo' lo -> vle hi hi' ->
  exists s v s' v', surface_area (fbox lo hi) = Fin s /\ volume (fbox lo hi) = Fin v /\
    surface_area (fbox lo' hi') = Fin s' /\ volume (fbox lo' hi') = Fin v' /\
    0 <= s <= s' /\ 0 <= v <= v'.
Proof. exact (measures_main lo hi lo' hi'). Qed.
Print Assumptions C02_measures_monotone.

Theorem C02_maximum_extent_maximal lo hi : (maximum_extent (fbox lo hi) < 3)%nat /\
  forall i, (i < 3)%nat -> vnth hi i - vnth lo i <=
   vnth hi (maximum_extent (fbox lo hi)) - vnth lo (maximum_extent (fbox lo hi)).
Proof. exact (maximum_extent_fbox lo hi). Qed.
Print Assumptions C02_maximum_extent_maximal.

(** C03: copying is faithful for boxes whose corners are ordered; the full statement is false. *)
Theorem C03_copy_faithful_partial (b : box) : le3 (bmin b) (bmax b) -> from_bbox b = b.
Proof. exact (from_bbox_id b). Qed.
Print Assumptions C03_copy_faithful_partial.
(** every box made from two corner points qualifies *)
Example C03_ex p q : nonan3 p -> nonan3 q -> le3 (bmin (bbox_of p q)) (bmax (bbox_of p q)).
Proof. intros. now apply bbox_of_ok. Qed.

(** Missing part: the copy of the empty box is the whole space. *)
Theorem C03_copy_empty_refuted : exists p, ~ in_box bbox_empty p /\ in_box (from_bbox bbox_empty) p.
Proof. exact copy_empty_witness. Qed.
Print Assumptions C03_copy_empty_refuted.

(** [b != b] is True for every box that is not a single point ([b == b] is correct). *)
Theorem C03_ne_self_refuted lo hi : bbox_ne (fbox lo hi) (fbox lo hi) = true <-> lo <> hi.
Proof. exact (bbox_ne_self_iff lo hi). Qed.
Print Assumptions C03_ne_self_refuted.
Theorem C203_eq_correct lo hi lo' hi' :
  bbox_eq (fbox lo hi) (fbox lo' hi') = true <-> lo = lo' /\ hi = hi'.
Proof. exact (bbox_eq_iff lo hi lo' hi'). Qed.
Print Assumptions C203_eq_correct.

(** C04: exactness of the slab test.  [ray_face_ok] only excludes a direction component that is
    IEEE negative zero while the origin lies on a face plane of that axis. *)
Theorem C04_slab_test_exact_partial lo hi r m : vle lo hi -> ray_face_ok lo hi r ->
  rmint r = Fin m -> notnan (rmaxt r) -> (rd r <> vzero \/ exists M, rmaxt r = Fin M) ->
  ((exists a b, bbox_intersect_p lo hi r = Some (a, b)) <->
   exists t, m <= t /\ ele (Fin t) (rmaxt r) /\ between lo (ray_at r t) hi).
Proof. exact (bbox_intersect_p_iff lo hi r m). Qed.
Print Assumptions C04_slab_test_exact_partial.

Theorem C04_slab_interval_exact_partial lo hi r : vle lo hi -> ray_face_ok lo hi r ->
  notnan (rmint r) -> notnan (rmaxt r) ->
  match bbox_intersect_p lo hi r with
  | Some (a, b) =>
      notnan a /\ notnan b /\ ele a b /\ ele (rmint r) a /\ ele b (rmaxt r) /\
      (rd r <> vzero -> exists x, ele b (Fin x)) /\
      (forall t, (ele a (Fin t) /\ ele (Fin t) b) <->
                 (ele (rmint r) (Fin t) /\ ele (Fin t) (rmaxt r)) /\ between lo (ray_at r t) hi)
  | None => forall t, ~ ((ele (rmint r) (Fin t) /\ ele (Fin t) (rmaxt r)) /\ between lo (ray_at r t) hi)
  end.
Proof. exact (bbox_intersect_p_interval lo hi r). Qed.
Print Assumptions C04_slab_interval_exact_partial.

(** hypotheses are met, e.g., by a ray along +z starting on a face plane *)
Example C04_ex : let r := mkRay (mkV 0 (/2) 0) (mkV 0 0 1) (mkV false false false) (Fin 0) PInf 0%Z 0 in
  vle vzero (mkV 1 1 1) /\ ray_face_ok vzero (mkV 1 1 1) r /\ rd r <> vzero.
Proof.
  cbn. unfold vle, ray_face_ok, slab_ok; cbn. repeat split; try lra; try discriminate.
  unfold vzero. intros H. inversion H. lra.
Qed.

(** With a negative-zero component the test misses a box the ray passes through. *)
Theorem C04_negative_zero_refuted :
  exists lo hi r t, vle lo hi /\ rmint r = Fin 0 /\ rmaxt r = PInf /\ 0 <= t /\
    between lo (ray_at r t) hi /\ bbox_intersect_p lo hi r = None.
Proof. exact negzero_hit_missed. Qed.
Print Assumptions C04_negative_zero_refuted.

(** C05 *)
Theorem C05_lerp_offset_inverse lo hi p : vx lo < vx hi -> vy lo < vy hi -> vz lo < vz hi ->
  let o := bbox_offset lo hi p in bbox_lerp lo hi (vx o) (vy o) (vz o) = p.
Proof. exact (lerp_offset lo hi p). Qed.
Print Assumptions C05_lerp_offset_inverse.
Theorem C05_offset_lerp_inverse lo hi a b c : vx lo < vx hi -> vy lo < vy hi -> vz lo < vz hi ->
  bbox_offset lo hi (bbox_lerp lo hi a b c) = mkV a b c.
Proof. exact (offset_lerp lo hi a b c). Qed.
Print Assumptions C05_offset_lerp_inverse.
Theorem C05_lerp_in_box lo hi a b c : vle lo hi -> 0 <= a <= 1 -> 0 <= b <= 1 -> 0 <= c <= 1 ->
  between lo (bbox_lerp lo hi a b c) hi.
Proof. exact (lerp_in_box lo hi a b c). Qed.
Print Assumptions C05_lerp_in_box.
Theorem C05_bounding_sphere_contains lo hi p : vle lo hi -> between lo p hi ->
  pdist (fst (bounding_sphere lo hi)) p <= snd (bounding_sphere lo hi).
Proof. exact (bounding_sphere_contains lo hi p). Qed.
Print Assumptions C05_bounding_sphere_contains.
(** No smaller sphere contains the two corners; the radius for a box with its corners exchanged is 0. *)
Theorem C05_bounding_sphere_least lo hi c r : vle lo hi -> pdist c lo <= r -> pdist c hi <= r -> snd (bounding_sphere lo hi) <= r.
Proof.
  intros (L1&L2&L3) A B. unfold bounding_sphere. cbn [snd]. set (m := vscale (/2) (vadd lo hi)).
  assert (R0 : 0 <= r) by (apply Rle_trans with (2 := A); apply sqrt_pos).
  assert (SD : forall a b, 0 <= sq_dist a b).
  { intros a b. unfold sq_dist. repeat apply Rplus_le_le_0_compat; apply Rle_0_sqr. }
  assert (Q : sq_dist m hi <= r * r).
  { assert (A2 : sq_dist c lo <= r * r).
    { rewrite <- (sqrt_sqrt (sq_dist c lo)) by apply SD. apply Rmult_le_compat; try apply sqrt_pos; exact A. }
    assert (B2 : sq_dist c hi <= r * r).
    { rewrite <- (sqrt_sqrt (sq_dist c hi)) by apply SD. apply Rmult_le_compat; try apply sqrt_pos; exact B. }
    revert A2 B2. unfold sq_dist, m, vscale, vadd, vmap, vmap2. cbn [vx vy vz]. intros A2 B2.
    assert (P : forall l h x, (/2 * (l + h) - h) * (/2 * (l + h) - h) <= ((x - l) * (x - l) + (x - h) * (x - h)) / 2).
    { intros. assert (0 <= (l + h - 2 * x) * (l + h - 2 * x)) by apply Rle_0_sqr. nra. }
    pose proof (P (vx lo) (vx hi) (vx c)). pose proof (P (vy lo) (vy hi) (vy c)). pose proof (P (vz lo) (vz hi) (vz c)). lra. }
  destruct (inside _ _); [|exact R0]. unfold pdist. rewrite <- (sqrt_square r R0). now apply sqrt_le_1_alt.
Qed.
Print Assumptions C05_bounding_sphere_least.
Theorem C05_bounding_sphere_inverted lo hi : ~ vle lo hi -> bounding_sphere lo hi = (vscale (/ 2) (vadd lo hi), 0).
Proof.
  intros H. unfold bounding_sphere. destruct (inside _ _) eqn:Q; [|reflexivity]. exfalso. apply H. apply inside_in, in_fbox in Q.
  revert Q. unfold between, vle, vscale, vadd, vmap, vmap2; cbn. lra.
Qed.
Print Assumptions C05_bounding_sphere_inverted.
Example C05_ex : vle (mkV 0 0 0) (mkV 1 2 3) /\ between (mkV 0 0 0) (mkV 1 1 1) (mkV 1 2 3).
Proof. unfold between, vle; cbn; lra. Qed.

(** C06 *)
Theorem C06_normalize v : (v <> vzero -> unit (normalize v)) /\ normalize vzero = vzero /\
  v = vscale (vlength v) (normalize v).
Proof.
  exact (conj (normalize_unit v) (conj normalize_zero (normalize_parallel v))).
Qed.
Print Assumptions C06_normalize.
Theorem C06_coordinate_system_orthonormal v : unit v ->
  match coordinate_system v with
  | (a, b, c) => a = v /\ unit b /\ unit c /\ orth a b /\ orth a c /\ orth b c
  end.
Proof. exact (coordinate_system_ortho v). Qed.
Print Assumptions C06_coordinate_system_orthonormal.
Theorem C06_face_forward n v :
  (face_forward n v = n \/ face_forward n v = vneg n) /\ 0 <= vdot (face_forward n v) v.
Proof. exact (face_forward_spec n v). Qed.
Print Assumptions C06_face_forward.
Theorem C06_spherical_round_trip v : unit v ->
  spherical_direction (sin (spherical_theta v)) (cos (spherical_theta v)) (spherical_phi v) = v /\
  0 <= spherical_theta v <= PI /\ 0 < spherical_phi v <= 2 * PI.
Proof.
  exact (fun H => conj (spherical_round_trip v H)
           (conj (spherical_theta_range v) (spherical_phi_range v))).
Qed.
Print Assumptions C06_spherical_round_trip.
Example C06_ex : unit (mkV (3/5) 0 (-4/5)).
Proof. unfold unit; cbn; lra. Qed.
