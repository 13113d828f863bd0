(** Proofs: the cone of directions a sphere subtends. *)
From Coq Require Import Reals Lra Lia List Bool ZArith.
From Verif Require Import Base M_Geometry M_Transform M_Utility M_MonteCarlo M_Shapes S_Geometry S_Transform S_Shapes P_Geometry P_Quadrics P_Normals P_ShapesMore P_MonteCarlo.
Import ListNotations.
Open Scope R_scope.

Lemma sq_dist_dot p q : sq_dist p q = vdot (vsub q p) (vsub q p).
Proof. destruct p, q; unfold sq_dist, vdot, vsub, vmap2; cbn; ring. Qed.
Lemma dir_nonzero p q : 0 < sq_dist p q -> vsub q p <> vzero.
Proof. intros H E. rewrite sq_dist_dot, E in H. unfold vdot, vzero in H; cbn in H. lra. Qed.
Lemma vlen_sq v : vlength v * vlength v = vdot v v.
Proof. unfold vlength. rewrite sqrt_sqrt; destruct v; unfold sq_length, vdot; cbn; nra. Qed.

(** a direction points into the ball iff its cosine with the axis is at least sqrt(1 - r^2/d^2) *)
Lemma cone_exact (pnt ctr w : vec) (r : R) : 0 < r -> r * r < sq_dist pnt ctr -> unit w ->
  ((exists t, 0 <= t /\ sq_dist (vadd pnt (vscale t w)) ctr <= r * r) <->
   sqrt (Rmax 0 (1 - r * r / sq_dist pnt ctr)) <= vdot w (normalize (vsub ctr pnt))).
Proof.
  intros Hr Hd U. set (v := vsub ctr pnt). set (D := sq_dist pnt ctr) in *.
  assert (Dp : 0 < D) by nra.
  assert (NZ : v <> vzero) by (apply dir_nonzero; exact Dp).
  assert (VV : vdot v v = D) by (unfold v, D; now rewrite sq_dist_dot).
  set (l := vlength v). assert (LL : l * l = D) by (unfold l; now rewrite vlen_sq).
  assert (L0 : 0 < l). { assert (0 <= l) by apply sqrt_pos. nra. }
  set (c := vdot w (normalize v)).
  assert (WV : vdot w v = l * c).
  { unfold c, l. rewrite (normalize_parallel v) at 1. destruct w, (normalize v). unfold vdot, vscale, vmap; cbn. ring. }
  assert (EX : forall t, sq_dist (vadd pnt (vscale t w)) ctr = t * t - 2 * t * (l * c) + D).
  { intros t. rewrite <- WV, <- VV. unfold unit in U. unfold v. destruct pnt, ctr, w. unfold sq_dist, vdot, vadd, vscale, vsub, vmap, vmap2; cbn in *. nra. }
  assert (RD : 0 <= 1 - r * r / D). { apply Rmult_le_reg_r with D; [lra|]. unfold Rdiv. rewrite Rmult_minus_distr_r, Rmult_assoc, Rinv_l by lra. lra. }
  rewrite Rmax_right by exact RD.
  assert (K : l * sqrt (1 - r * r / D) * (l * sqrt (1 - r * r / D)) = D - r * r).
  { replace (l * sqrt (1 - r * r / D) * (l * sqrt (1 - r * r / D))) with (l * l * (sqrt (1 - r * r / D) * sqrt (1 - r * r / D))) by ring.
    rewrite sqrt_sqrt by exact RD. rewrite LL. field. lra. }
  set (s := sqrt (1 - r * r / D)) in *. assert (S0 : 0 <= s) by apply sqrt_pos.
  split.
  - intros (t & Ht & HI). rewrite EX in HI. apply Rmult_le_reg_l with l; [exact L0|].
    set (k := l * c) in *. assert (D - r * r <= k * k) by (pose proof (Rle_0_sqr (t - k)) as Q; unfold Rsqr in Q; lra).
    assert (0 <= k). { apply Rnot_lt_le. intros LT. pose proof (Rmult_le_pos t (- k) Ht ltac:(lra)). pose proof (Rmult_le_pos t t Ht Ht). lra. }
    apply Rsqr_incr_0_var; [unfold Rsqr; lra|assumption].
  - intros HC. exists (l * c). assert (l * s <= l * c) by (apply Rmult_le_compat_l; lra). assert (0 <= l * s) by (apply Rmult_le_pos; lra). split; [lra|]. rewrite EX.
    assert ((l * s) * (l * s) <= (l * c) * (l * c)) by (apply Rmult_le_compat; lra). lra.
Qed.
Lemma cone_range (pnt ctr : vec) (r : R) : 0 < r -> r * r < sq_dist pnt ctr ->
  0 < sqrt (Rmax 0 (1 - r * r / sq_dist pnt ctr)) < 1.
Proof.
  intros Hr Hd. set (D := sq_dist pnt ctr) in *. assert (Dp : 0 < D) by (pose proof (Rmult_lt_0_compat r r Hr Hr); lra).
  assert (Q : 0 < 1 - r * r / D). { apply Rmult_lt_reg_r with D; [lra|]. unfold Rdiv. rewrite Rmult_minus_distr_r, Rmult_assoc, Rinv_l by lra. lra. }
  rewrite Rmax_right by lra. split; [now apply sqrt_lt_R0|]. assert (B : 0 < r * r / D) by (apply Rdiv_lt_0_compat; [now apply Rmult_lt_0_compat|lra]).
  pose proof (sqrt_lt_1 (1 - r * r / D) 1 ltac:(lra) ltac:(lra) ltac:(lra)) as Z1. now rewrite sqrt_1 in Z1.
Qed.
Lemma sample_p_spec s pnt u1 u2 : sphere_ok s -> base_ok (sp_base s) -> 0 <= u1 <= 1 -> 0 <= u2 <= 1 ->
  let ctr := t_point (b_o2w (sp_base s)) vzero in
  EPS <= sq_dist pnt ctr - sp_r s * sp_r s ->
  let ct := sqrt (Rmax 0 (1 - sp_r s * sp_r s / sq_dist pnt ctr)) in
  let '(ps, ns) := sphere_sample_p s pnt u1 u2 in
  exists w t, unit w /\ vdot w (normalize (vsub ctr pnt)) = ct + u1 * (1 - ct) /\
    ps = vadd pnt (vscale t w) /\
    match sphere_intersect s (ray_new pnt w EPS) with
    | Some h => t = h_t h /\ on_sphere (sp_r s) (sp_zmin s) (sp_zmax s) (sp_phimax s) (t_point (b_w2o (sp_base s)) ps)
    | None => vdot (vsub ctr ps) w = 0
    end /\
    ns = vscale (if b_ro (sp_base s) then -1 else 1) (normalize (vsub ps ctr)).
Proof.
  intros Hok Hb H1 H2 ctr HE ct. unfold sphere_sample_p. fold ctr.
  assert (Hr : 0 < sp_r s) by apply Hok.
  pose proof EPS_pos as EP.
  assert (Hd : sp_r s * sp_r s < sq_dist pnt ctr) by lra.
  assert (U : unit (normalize (vsub ctr pnt))). { apply normalize_unit, dir_nonzero. pose proof (Rmult_lt_0_compat _ _ Hr Hr). lra. }
  destruct (coordinate_system (normalize (vsub ctr pnt))) as [[a b] c] eqn:CS.
  destruct (coordinate_system_parts _ _ _ _ U CS) as (Ub & Uc & O1 & O2 & O3).
  replace (Rltb _ EPS) with false by (symmetry; apply Rltb_false; lra).
  unfold sphere_ct_max. fold ct. cbv zeta.
  set (w := uniform_sample_cone u1 u2 ct b c (normalize (vsub ctr pnt))).
  assert (F : frame b c (normalize (vsub ctr pnt))).
  { unfold frame. repeat split; auto; unfold orth in *; lra. }
  pose proof (cone_range pnt ctr (sp_r s) Hr Hd) as CR. fold ct in CR.
  destruct (cone_main u1 u2 ct b c (normalize (vsub ctr pnt)) H1 ltac:(lra) F) as (WU & WC & _). fold w in WU, WC.
  exists w. cbn [rd ray_new].
  assert (W' : vdot w (normalize (vsub ctr pnt)) = ct + u1 * (1 - ct)).
  { destruct (laws_main u1 u2 H1 H2) as (_ & _ & _ & _ & _ & L & _). apply L; [lra|exact F]. }
  pose proof (sphere_intersect_spec s (ray_new pnt w EPS) Hok Hb ltac:(discriminate) ltac:(discriminate)) as SI. cbv zeta in SI.
  destruct (sphere_intersect s (ray_new pnt w EPS)) as [h|].
  - exists (h_t h). destruct SI as (_ & SO & _ & _).
    split; [exact WU|]. split; [exact W'|]. split; [reflexivity|]. split; [split; [reflexivity|exact SO]|].
    destruct (b_ro _); [reflexivity|]. now rewrite vscale_unit1.
  - eexists. split; [exact WU|]. split; [exact W'|]. split; [reflexivity|]. split.
    + rewrite normalize_id by exact WU. unfold ray_at. cbn [ro rd]. clear -WU. clearbody ctr w. unfold unit in WU. destruct ctr as [c1 c2 c3], pnt as [p1 p2 p3], w as [w1 w2 w3].
      unfold vdot, vsub, vadd, vscale, vmap, vmap2; cbn in *.
      set (k := (c1 - p1) * w1 + (c2 - p2) * w2 + (c3 - p3) * w3).
      replace ((c1 - (p1 + k * w1)) * w1 + (c2 - (p2 + k * w2)) * w2 + (c3 - (p3 + k * w3)) * w3) with (k - k * (w1 * w1 + w2 * w2 + w3 * w3)) by (unfold k; ring).
      rewrite WU. ring.
    + destruct (b_ro _); [reflexivity|]. now rewrite vscale_unit1.
Qed.
