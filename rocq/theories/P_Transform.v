(** Proofs about transforms and quaternions. *)
From Coq Require Import Reals Lra Lia List Bool ZArith Psatz Nsatz.
From Verif Require Import Base M_Geometry S_Geometry P_Geometry M_Transform S_Transform.
Import ListNotations.
Open Scope R_scope.

Definition tvalid (t : transform) : Prop :=
  affine (tm t) /\ affine (tinv t) /\ mmul (tm t) (tinv t) = I4 /\ mmul (tinv t) (tm t) = I4.

Lemma V4_eq a b c d a' b' c' d' : a = a' -> b = b' -> c = c' -> d = d' -> mkV4 a b c d = mkV4 a' b' c' d'.
Proof. congruence. Qed.
Lemma M4_eq a b c d a' b' c' d' : a = a' -> b = b' -> c = c' -> d = d' -> mkM a b c d = mkM a' b' c' d'.
Proof. congruence. Qed.
Ltac mcompute := unfold mmul, I4, mT, dot4, col0, col1, col2, col3; cbn [row0 row1 row2 row3 q0 q1 q2 q3].
Ltac m4 := apply M4_eq; apply V4_eq.

Lemma mmul_assoc a b c : mmul (mmul a b) c = mmul a (mmul b c).
Proof. mcompute. m4; ring. Qed.
Lemma mmul_I_l a : mmul I4 a = a.
Proof. mcompute. destruct a as [[] [] [] []]; cbn. m4; ring. Qed.
Lemma mmul_I_r a : mmul a I4 = a.
Proof. mcompute. destruct a as [[] [] [] []]; cbn. m4; ring. Qed.
Lemma affine_mul a b : affine a -> affine b -> affine (mmul a b).
Proof. unfold affine. intros A B. mcompute. rewrite A, B; cbn. apply V4_eq; ring. Qed.

Lemma tvalid_mul a b : tvalid a -> tvalid b -> tvalid (t_mul a b).
Proof.
  intros (A1&A2&A3&A4) (B1&B2&B3&B4). unfold tvalid, t_mul; cbn [tm tinv].
  split; [now apply affine_mul|]. split; [now apply affine_mul|]. split.
  - rewrite mmul_assoc, <- (mmul_assoc (tm b)), B3, mmul_I_l. auto.
  - rewrite mmul_assoc, <- (mmul_assoc (tinv a)), A4, mmul_I_l. auto.
Qed.
Lemma tvalid_inv a : tvalid a -> tvalid (t_inverse a).
Proof. intros (A1&A2&A3&A4). repeat split; auto. Qed.

Lemma tvalid_translate d : tvalid (t_translate d).
Proof. unfold tvalid, affine; cbn. repeat split; mcompute; cbn; m4; ring. Qed.
Lemma tvalid_scale x y z : x <> 0 -> y <> 0 -> z <> 0 -> tvalid (t_scale x y z).
Proof. intros. unfold tvalid, affine; cbn. repeat split; mcompute; cbn; m4; field; auto. Qed.
Lemma sc1 x : sin x * sin x + cos x * cos x = 1.
Proof. exact (sin2_cos2 x). Qed.
Lemma tvalid_rx a : tvalid (t_rotate_x a).
Proof.
  unfold tvalid, affine, t_rotate_x; cbn. pose proof (sc1 (deg2rad a)).
  repeat split; mcompute; cbn; m4; nsatz.
Qed.
Lemma tvalid_ry a : tvalid (t_rotate_y a).
Proof.
  unfold tvalid, affine, t_rotate_y; cbn. pose proof (sc1 (deg2rad a)).
  repeat split; mcompute; cbn; m4; nsatz.
Qed.
Lemma tvalid_rz a : tvalid (t_rotate_z a).
Proof.
  unfold tvalid, affine, t_rotate_z; cbn. pose proof (sc1 (deg2rad a)).
  repeat split; mcompute; cbn; m4; nsatz.
Qed.
Lemma rotate_entries x y z s c : x*x+y*y+z*z = 1 -> s*s+c*c = 1 ->
  let m := mkM
    (mkV4 (x * x + (1 - x * x) * c) (x * y * (1 - c) - z * s) (x * z * (1 - c) + y * s) 0)
    (mkV4 (x * y * (1 - c) + z * s) (y * y + (1 - y * y) * c) (y * z * (1 - c) - x * s) 0)
    (mkV4 (x * z * (1 - c) - y * s) (y * z * (1 - c) + x * s) (z * z + (1 - z * z) * c) 0)
    (mkV4 0 0 0 1) in mmul m (mT m) = I4 /\ mmul (mT m) m = I4.
Proof.
  intros H1 H2. cbn zeta. split; mcompute; m4; try ring; nsatz.
Qed.
Lemma tvalid_rot a ax : ax <> vzero -> tvalid (t_rotate a ax).
Proof.
  intros H. unfold tvalid, affine, t_rotate; cbn [tm tinv].
  pose proof (normalize_unit ax H) as U. unfold unit in U.
  pose proof (sc1 (deg2rad a)) as SC.
  destruct (rotate_entries _ _ _ _ _ U SC) as [A B].
  repeat split; auto.
Qed.

Definition ortho3 (a b c : vec) : Prop :=
  unit a /\ unit b /\ unit c /\ orth a b /\ orth a c /\ orth b c.

(** Rows orthonormal implies columns orthonormal (needs the triple product; here via cross). *)
Lemma cross_unit a b : unit a -> unit b -> orth a b -> unit (vcross a b).
Proof. unfold unit, orth, vcross; cbn. intros. nsatz. Qed.
Lemma cross_orth a b : orth (vcross a b) a /\ orth (vcross a b) b.
Proof. unfold orth, vcross; cbn. split; ring. Qed.
Lemma cols_unit x z : unit x -> unit z -> orth x z ->
  let y := vcross z x in
  vx x * vx x + vx y * vx y + vx z * vx z = 1 /\ vy x * vy x + vy y * vy y + vy z * vy z = 1 /\
  vz x * vz x + vz y * vz y + vz z * vz z = 1 /\
  vx x * vy x + vx y * vy y + vx z * vy z = 0 /\ vx x * vz x + vx y * vz y + vx z * vz z = 0 /\
  vy x * vz x + vy y * vz y + vy z * vz z = 0.
Proof.
  unfold unit, orth, vcross; destruct x as [a b c], z as [d e f]; cbn. intros.
  repeat split; nsatz.
Qed.

Lemma normalize_scale v : v <> vzero -> normalize v = vscale (/ vlength v) v.
Proof.
  intros H. unfold normalize. destruct (Reqb (vlength v) 0) eqn:E; Rb.
  - exfalso. apply H. unfold vlength in E. apply sqrt_eq_0 in E.
    + unfold sq_length in E. destruct v as [a b c]; cbn in *. unfold vzero.
      assert (a = 0) by nra. assert (b = 0) by nra. assert (c = 0) by nra. subst. reflexivity.
    + unfold sq_length. nra.
  - unfold vscale, vmap. apply V3_eq; cbn; unfold Rdiv; ring.
Qed.
Lemma vlength_pos v : v <> vzero -> 0 < vlength v.
Proof.
  intros H. unfold vlength. apply sqrt_lt_R0. unfold sq_length.
  destruct v as [a b c]; cbn. destruct (Rlt_dec 0 (a*a+b*b+c*c)); auto.
  exfalso. apply H. assert (a = 0) by nra. assert (b = 0) by nra. assert (c = 0) by nra. subst. reflexivity.
Qed.
Lemma vcross_scale k l u v : vcross (vscale k u) (vscale l v) = vscale (k * l) (vcross u v).
Proof. apply V3_eq; cbn; ring. Qed.
Lemma vscale_zero k v : k <> 0 -> vscale k v = vzero -> v = vzero.
Proof.
  intros Hk H. unfold vscale, vmap, vzero in H. injection H as A B C.
  apply V3_eq; cbn; [destruct (Rmult_integral _ _ A)|destruct (Rmult_integral _ _ B)|destruct (Rmult_integral _ _ C)];
  congruence.
Qed.
Lemma vcross_zero_l v : vcross vzero v = vzero.
Proof. apply V3_eq; cbn; ring. Qed.

Lemma orth_scale k u v : orth u v -> orth (vscale k u) v.
Proof.
  unfold orth, vscale, vmap; cbn. intros H.
  transitivity (k * (vx u * vx v + vy u * vy v + vz u * vz v)); [ring|rewrite H; ring].
Qed.
Lemma look_axes_ortho pos look up : look <> pos -> vcross up (vsub look pos) <> vzero ->
  let '(x, y, z) := look_axes pos look up in unit x /\ unit z /\ orth x z /\ y = vcross z x /\
    z = normalize (vsub look pos).
Proof.
  intros H1 H2. unfold look_axes.
  assert (D : vsub look pos <> vzero).
  { intros E. apply H1. unfold vsub, vmap2, vzero in E. injection E as A B C. apply V3_eq; lra. }
  assert (U : up <> vzero) by (intros ->; apply H2; apply vcross_zero_l).
  assert (C : vcross (normalize up) (normalize (vsub look pos)) <> vzero).
  { rewrite (normalize_scale up U), (normalize_scale _ D), vcross_scale.
    intros E. apply vscale_zero in E; auto.
    pose proof (vlength_pos _ U). pose proof (vlength_pos _ D).
    apply Rmult_integral_contrapositive; split; apply Rinv_neq_0_compat; lra. }
  split; [now apply normalize_unit|]. split; [now apply normalize_unit|].
  split; [|auto].
  rewrite (normalize_scale _ C). destruct (cross_orth (normalize up) (normalize (vsub look pos))) as [_ O].
  now apply orth_scale.
Qed.

Lemma tvalid_look pos look up : look <> pos -> vcross up (vsub look pos) <> vzero ->
  tvalid (t_look_at pos look up).
Proof.
  intros H1 H2. pose proof (look_axes_ortho pos look up H1 H2) as Q.
  unfold t_look_at. destruct (look_axes pos look up) as [[x y] z]. destruct Q as (Ux&Uz&O&->&_).
  pose proof (cols_unit x z Ux Uz O) as (C1&C2&C3&C4&C5&C6).
  assert (Uy : unit (vcross z x)).
  { apply cross_unit; auto. unfold orth in *. lra. }
  destruct (cross_orth z x) as [Oz Ox].
  set (y := vcross z x) in *. clearbody y.
  unfold tvalid, affine; cbn [tm tinv row3]. unfold unit, orth in *.
  destruct x as [a b c], y as [d e f], z as [g h i], pos as [p q r]; cbn in *.
  repeat split; mcompute; m4; try ring; try lra; nsatz.
Qed.

Lemma built_valid t : built t -> tvalid t.
Proof.
  induction 1.
  - unfold tvalid, affine. repeat split; apply mmul_I_l.
  - apply tvalid_translate.
  - now apply tvalid_scale.
  - apply tvalid_rx.
  - apply tvalid_ry.
  - apply tvalid_rz.
  - now apply tvalid_rot.
  - now apply tvalid_look.
  - unfold t_orthographic. apply tvalid_mul; [apply tvalid_scale; try lra|apply tvalid_translate].
    unfold Rdiv. rewrite Rmult_1_l. apply Rinv_neq_0_compat. lra.
  - now apply tvalid_mul.
  - now apply tvalid_inv.
Qed.
