(** Proofs: areas of the shapes. *)
From Coq Require Import Reals Lra Lia List Bool ZArith.
From Coquelicot Require Import Coquelicot.
From Verif Require Import Base M_Geometry M_Transform M_Utility M_MonteCarlo M_Shapes S_Geometry S_Transform S_Shapes P_Geometry P_Quadrics P_ShapesMore S_Area.
Import ListNotations.
Open Scope R_scope.

Lemma cs1 x : cos x * cos x + sin x * sin x = 1.
Proof. pose proof (sin2_cos2 x) as Q. unfold Rsqr in Q. lra. Qed.
Lemma sqrt_sq_eq x y : 0 <= y -> x = y * y -> sqrt x = y.
Proof. intros H ->. now apply sqrt_square. Qed.
Lemma RInt_const' a b (c : R) : is_RInt (fun _ => c) a b ((b - a) * c).
Proof. apply (is_RInt_const a b c). Qed.

Lemma sph_area r pm t1 t2 : 0 <= t1 <= t2 -> t2 <= PI ->
  patch_area (sph r) 0 pm t1 t2 (pm * (r * r * (cos t1 - cos t2))).
Proof.
  intros Ht Hp. exists (fun u v => mkV (- r * sin v * sin u) (r * sin v * cos u) 0), (fun u v => mkV (r * cos v * cos u) (r * cos v * sin u) (- r * sin v)),
    (fun _ => r * r * (cos t1 - cos t2)).
  split; [|split; [|split]].
  - intros u v. unfold sph. cbn [vx vy vz]. (split; [|split]); cbn; auto_derive; try exact I; ring.
  - intros u v. unfold sph. cbn [vx vy vz]. (split; [|split]); cbn; auto_derive; try exact I; ring.
  - intros u. apply is_RInt_ext with (f := fun v => r * r * sin v).
    + intros v Hv. rewrite Rmin_left, Rmax_right in Hv by lra. symmetry. unfold vlength, vcross. cbn [vx vy vz].
      apply sqrt_sq_eq; [apply Rmult_le_pos; [nra|apply sin_ge_0; lra]|].
      pose proof (cs1 u) as U. pose proof (cs1 v) as V. unfold sq_length; cbn [vx vy vz].
      replace (cos v * cos v) with (1 - sin v * sin v) in V by lra.
      set (cu := cos u) in *. set (su := sin u) in *. set (cv := cos v) in *. set (sv := sin v) in *.
      assert (V' : cv * cv = 1 - sv * sv) by (unfold cv, sv; pose proof (cs1 v); lra). clear V.
      assert (U' : cu * cu = 1 - su * su) by lra.
      match goal with |- ?a = ?b => replace a with (r * r * (r * r) * (sv * sv) * ((cu * cu + su * su) * (sv * sv) + cv * cv * ((cu * cu + su * su) * (cu * cu + su * su)))) by ring end.
      rewrite U', V'. ring.
    + evar_last. { apply (is_RInt_scal sin t1 t2 (r * r)). evar_last. { apply (is_RInt_derive (fun x => - cos x) sin).
        - intros x _. auto_derive; [exact I|ring].
        - intros x _. apply continuity_pt_filterlim, continuity_sin. } reflexivity. }
      unfold scal, minus, plus, opp; cbn; unfold mult; cbn. ring.
  - evar_last. apply RInt_const'. ring.
Qed.
Lemma sph_covers r zmin zmax pm : 0 < r -> - r <= zmin -> zmin <= zmax -> zmax <= r -> 0 <= pm ->
  patch_covers (sph r) 0 pm (acos (zmax / r)) (acos (zmin / r)) (on_sphere r zmin zmax pm).
Proof.
  intros Hr A B C Hpm q.
  assert (RG : forall z, - r <= z <= r -> -1 <= z / r <= 1).
  { intros z Hz. split; [apply Rmult_le_reg_r with r|apply Rmult_le_reg_r with r]; auto; unfold Rdiv; rewrite Rmult_assoc, Rinv_l by lra; lra. }
  split.
  - intros (Q1 & Q2 & phi & Hphi & QX & QY).
    assert (BZ : -1 <= vz q / r <= 1) by (apply RG; lra).
    exists phi, (acos (vz q / r)). split; [exact Hphi|].
    assert (MONO : forall x y, -1 <= x -> x <= y -> y <= 1 -> acos y <= acos x).
    { intros x y X1 XY Y1. apply Rnot_lt_le. intros LT. pose proof (acos_bound x). pose proof (acos_bound y).
      assert (cos (acos y) < cos (acos x)) by (apply cos_decreasing_1; lra). rewrite !cos_acos in * by lra. lra. }
    split.
    { split; apply MONO; try (apply RG; lra); try lra; (apply Rmult_le_compat_r; [left; now apply Rinv_0_lt_compat|lra]). }
    unfold sph. rewrite sin_acos, cos_acos by lra.
    assert (SR : r * sqrt (1 - (vz q / r)²) = sqrt (vx q * vx q + vy q * vy q)).
    { symmetry. apply sqrt_sq_eq; [apply Rmult_le_pos; [lra|apply sqrt_pos]|].
      replace (r * sqrt (1 - (vz q / r)²) * (r * sqrt (1 - (vz q / r)²))) with (r * r * (sqrt (1 - (vz q / r)²) * sqrt (1 - (vz q / r)²))) by ring.
      rewrite sqrt_sqrt by (unfold Rsqr; nra). unfold Rsqr. replace (vx q * vx q + vy q * vy q) with (r * r - vz q * vz q) by lra. field. lra. }
    rewrite SR. destruct q as [x y z]. cbn [vx vy vz] in *. apply V3_eq; cbn; [exact QX|exact QY|field; lra].
  - intros (u & v & Hu & Hv & ->). unfold sph.
    assert (V0 : 0 <= v). { pose proof (acos_bound (zmax / r)). lra. }
    assert (V1 : v <= PI). { pose proof (acos_bound (zmin / r)). lra. }
    assert (SV : 0 <= sin v) by (apply sin_ge_0; lra).
    pose proof (cs1 u) as U. pose proof (cs1 v) as V.
    split; cbn [vx vy vz].
    { replace (r * sin v * cos u * (r * sin v * cos u) + r * sin v * sin u * (r * sin v * sin u) + r * cos v * (r * cos v))
        with (r * r * (sin v * sin v * (cos u * cos u + sin u * sin u) + cos v * cos v)) by ring. rewrite U.
      replace (sin v * sin v * 1 + cos v * cos v) with 1 by lra. ring. }
    split.
    { assert (M : forall a b, 0 <= a -> a <= b -> b <= PI -> cos b <= cos a).
      { intros a b X Y Z0. destruct (Req_dec a b) as [->|NE]; [lra|]. left. apply cos_decreasing_1; lra. }
      pose proof (acos_bound (zmin / r)). pose proof (acos_bound (zmax / r)).
      assert (E1 : cos (acos (zmin / r)) <= cos v) by (apply M; lra).
      assert (E2 : cos v <= cos (acos (zmax / r))) by (apply M; lra).
      rewrite cos_acos in E1 by (apply RG; lra). rewrite cos_acos in E2 by (apply RG; lra).
      apply Rmult_le_compat_l with (r := r) in E1, E2; try lra.
      replace (r * (zmin / r)) with zmin in E1 by (field; lra). replace (r * (zmax / r)) with zmax in E2 by (field; lra). lra. }
    exists u. split; [exact Hu|]. cbn [vx vy vz].
    assert (SQ : sqrt (r * sin v * cos u * (r * sin v * cos u) + r * sin v * sin u * (r * sin v * sin u)) = r * sin v).
    { apply sqrt_sq_eq; [nra|]. replace (r * sin v * cos u * (r * sin v * cos u) + r * sin v * sin u * (r * sin v * sin u))
        with (r * sin v * (r * sin v) * (cos u * cos u + sin u * sin u)) by ring. rewrite U. ring. }
    rewrite SQ. auto.
Qed.

Lemma cyl_area r pm z1 z2 : 0 <= r -> patch_area (cyl r) 0 pm z1 z2 (pm * (r * (z2 - z1))).
Proof.
  intros Hr. exists (fun u v => mkV (- r * sin u) (r * cos u) 0), (fun u v => mkV 0 0 1), (fun _ => r * (z2 - z1)).
  split; [|split; [|split]].
  - intros u v. unfold cyl. cbn [vx vy vz]. (split; [|split]); cbn; auto_derive; try exact I; ring.
  - intros u v. unfold cyl. cbn [vx vy vz]. (split; [|split]); cbn; auto_derive; try exact I; ring.
  - intros u. apply is_RInt_ext with (f := fun v => r).
    + intros v _. symmetry. unfold vlength, vcross. cbn [vx vy vz]. apply sqrt_sq_eq; [exact Hr|].
      unfold sq_length; cbn [vx vy vz]. pose proof (cs1 u) as U.
      match goal with |- ?a = _ => replace a with (r * r * (cos u * cos u + sin u * sin u)) by ring end. rewrite U. ring.
    + evar_last. apply RInt_const'. ring.
  - evar_last. apply RInt_const'. ring.
Qed.
Lemma cyl_covers r zmin zmax pm : 0 <= r -> patch_covers (cyl r) 0 pm zmin zmax (on_cylinder r zmin zmax pm).
Proof.
  intros Hr q. split.
  - intros (Q1 & Q2 & phi & Hphi & QX & QY). exists phi, (vz q). split; [exact Hphi|]. split; [exact Q2|].
    rewrite (sqrt_sq_eq _ r) in QX, QY by auto. destruct q. cbn in *. apply V3_eq; cbn; auto.
  - intros (u & v & Hu & Hv & ->). unfold cyl. pose proof (cs1 u) as U.
    assert (Q : r * cos u * (r * cos u) + r * sin u * (r * sin u) = r * r).
    { replace (r * cos u * (r * cos u) + r * sin u * (r * sin u)) with (r * r * (cos u * cos u + sin u * sin u)) by ring. rewrite U. ring. }
    split; cbn [vx vy vz]; [exact Q|]. split; [exact Hv|]. exists u. split; [exact Hu|]. cbn [vx vy vz]. rewrite Q, sqrt_square by auto. auto.
Qed.

Lemma dsk_area h pm r1 r2 : 0 <= r1 <= r2 -> patch_area (dsk h) 0 pm r1 r2 (pm * ((r2 * r2 - r1 * r1) / 2)).
Proof.
  intros Hr. exists (fun u v => mkV (- v * sin u) (v * cos u) 0), (fun u v => mkV (cos u) (sin u) 0), (fun _ => (r2 * r2 - r1 * r1) / 2).
  split; [|split; [|split]].
  - intros u v. unfold dsk. cbn [vx vy vz]. (split; [|split]); cbn; auto_derive; try exact I; ring.
  - intros u v. unfold dsk. cbn [vx vy vz]. (split; [|split]); cbn; auto_derive; try exact I; ring.
  - intros u. apply is_RInt_ext with (f := fun v => v).
    + intros v Hv. rewrite Rmin_left, Rmax_right in Hv by lra. symmetry. unfold vlength, vcross. cbn [vx vy vz].
      apply sqrt_sq_eq; [lra|]. unfold sq_length; cbn [vx vy vz]. pose proof (cs1 u) as U.
      match goal with |- ?a = _ => replace a with (v * v * ((cos u * cos u + sin u * sin u) * (cos u * cos u + sin u * sin u))) by ring end. rewrite U. ring.
    + evar_last. { apply (is_RInt_derive (fun x => x * x / 2) (fun x => x)).
        - intros x _. auto_derive; [exact I|lra].
        - intros x _. apply continuous_id. }
      unfold minus, plus, opp; cbn. lra.
  - evar_last. apply RInt_const'. lra.
Qed.
Lemma dsk_covers h r ri pm : 0 <= ri -> 0 <= r -> patch_covers (dsk h) 0 pm ri r (on_disk h r ri pm).
Proof.
  intros Hi Hr q. split.
  - intros (Q1 & Q2 & phi & Hphi & QX & QY). exists phi, (sqrt (vx q * vx q + vy q * vy q)). split; [exact Hphi|]. split.
    + split; [rewrite <- (sqrt_square ri) by auto|rewrite <- (sqrt_square r) by auto]; apply sqrt_le_1; nra.
    + destruct q. cbn in *. apply V3_eq; cbn; auto.
  - intros (u & v & Hu & Hv & ->). unfold dsk. pose proof (cs1 u) as U.
    assert (Q : v * cos u * (v * cos u) + v * sin u * (v * sin u) = v * v).
    { replace (v * cos u * (v * cos u) + v * sin u * (v * sin u)) with (v * v * (cos u * cos u + sin u * sin u)) by ring. rewrite U. ring. }
    split; cbn [vx vy vz]; [reflexivity|]. rewrite Q. split; [nra|]. exists u. split; [exact Hu|]. cbn [vx vy vz]. rewrite Q, sqrt_square by lra. auto.
Qed.

Lemma trp_area a b c : patch_area (trp a b c) 0 1 0 1 (1 / 2 * vlength (vcross (vsub b a) (vsub c a))).
Proof.
  exists (fun s t => vadd (vscale (1 - t) (vsub b a)) (vscale t (vsub c a))), (fun s t => vscale s (vsub c b)),
    (fun s => Rabs s * vlength (vcross (vsub b a) (vsub c a))).
  destruct a as [a1 a2 a3], b as [b1 b2 b3], c as [c1 c2 c3].
  split; [|split; [|split]].
  - intros u v. unfold trp, vadd, vscale, vsub, vmap, vmap2. (split; [|split]); cbn; auto_derive; try exact I; ring.
  - intros u v. unfold trp, vadd, vscale, vsub, vmap, vmap2. (split; [|split]); cbn; auto_derive; try exact I; ring.
  - intros u. apply is_RInt_ext with (f := fun v => Rabs u * vlength (vcross (vsub (mkV b1 b2 b3) (mkV a1 a2 a3)) (vsub (mkV c1 c2 c3) (mkV a1 a2 a3)))).
    + intros v Hv. symmetry. unfold vlength at 1. apply sqrt_sq_eq; [apply Rmult_le_pos; [apply Rabs_pos|apply sqrt_pos]|].
      unfold vlength. match goal with |- _ = Rabs u * ?q * (Rabs u * ?q) => replace (Rabs u * q * (Rabs u * q)) with (Rabs u * Rabs u * (q * q)) by ring end.
      rewrite sqrt_sqrt. 2:{ unfold sq_length, vdot. nra. }
      replace (Rabs u * Rabs u) with (u * u) by (rewrite <- Rabs_mult; symmetry; apply Rabs_right; nra).
      unfold sq_length, vdot, vcross, vadd, vscale, vsub, vmap, vmap2; cbn. ring.
    + evar_last. apply RInt_const'. ring.
  - apply is_RInt_ext with (f := fun u => vlength (vcross (vsub (mkV b1 b2 b3) (mkV a1 a2 a3)) (vsub (mkV c1 c2 c3) (mkV a1 a2 a3))) * u).
    + intros u Hu. rewrite Rmin_left, Rmax_right in Hu by lra. rewrite (Rabs_right u) by lra. apply Rmult_comm.
    + evar_last. { apply (is_RInt_scal (fun x => x) 0 1). apply (is_RInt_derive (fun x => x * x / 2) (fun x => x)).
        - intros x _. auto_derive; [exact I|lra].
        - intros x _. apply continuous_id. }
      unfold scal, minus, plus, opp; cbn; unfold mult; cbn. lra.
Qed.
Lemma trp_covers a b c : patch_covers (trp a b c) 0 1 0 1 (in_triangle a b c).
Proof.
  intros q. split.
  - intros (x & y & z & Hx & Hy & Hz & HS & ->).
    destruct (Req_dec (y + z) 0) as [E0|N0].
    + exists 0, 0. split; [lra|]. split; [lra|]. assert (x = 1) as -> by lra. assert (y = 0) as -> by lra. assert (z = 0) as -> by lra.
      destruct a, b, c. unfold trp. apply V3_eq; cbn; ring.
    + exists (y + z), (z / (y + z)). split; [lra|].
      assert (P : 0 < y + z) by lra.
      split. { split; [apply Rmult_le_pos; [lra|left; now apply Rinv_0_lt_compat]|]. apply Rmult_le_reg_r with (y + z); [lra|].
        unfold Rdiv. rewrite Rmult_assoc, Rinv_l by lra. lra. }
      replace x with (1 - y - z) by lra. destruct a, b, c. unfold trp. apply V3_eq; cbn; field; lra.
  - intros (s & t & Hs & Ht & ->). exists (1 - s), (s * (1 - t)), (s * t). repeat split; try nra.
    destruct a, b, c. unfold trp. apply V3_eq; cbn; ring.
Qed.
