From Coq Require Import Reals Lra Lia List Bool ZArith Psatz.
From Coquelicot Require Import Coquelicot.
From Verif Require Import Base M_Geometry S_Geometry P_Geometry M_Transform S_Transform P_Transform P_Transform2 M_Volume S_Volume.
Import ListNotations.
Open Scope R_scope.

(** ** homogeneous media *)
Lemma vlength_scale k v : vlength (vscale k v) = Rabs k * vlength v.
Proof.
  unfold vlength, sq_length, vscale, vmap; cbn.
  replace (k * vx v * (k * vx v) + k * vy v * (k * vy v) + k * vz v * (k * vz v))
    with (k * k * (vx v * vx v + vy v * vy v + vz v * vz v)) by ring.
  rewrite sqrt_mult_alt by nra. f_equal. exact (sqrt_Rsqr_abs k).
Qed.
Lemma segment_length r a b : a <= b ->
  vlength (vsub (ray_at r b) (ray_at r a)) = (b - a) * vlength (rd r).
Proof.
  intros H. replace (vsub (ray_at r b) (ray_at r a)) with (vscale (b - a) (rd r)).
  - rewrite vlength_scale, Rabs_pos_eq by lra. reflexivity.
  - destruct r as [[ox oy oz] [dx dy dz] ? ? ? ? ?]; unfold ray_at, vsub, vadd, vscale, vmap, vmap2; cbn. f_equal; ring.
Qed.

(** the two ends of a hit are finite *)
Lemma hit_finite lo hi r m a b : vle lo hi -> ray_face_ok lo hi r -> rmint r = Fin m ->
  notnan (rmaxt r) -> rd r <> vzero -> bbox_intersect_p lo hi r = Some (a, b) ->
  exists x y, a = Fin x /\ b = Fin y /\ x <= y /\
    forall t, (x <= t <= y <-> in_range (rmint r) (rmaxt r) t /\ between lo (ray_at r t) hi).
Proof.
  intros L F M N D H. pose proof (bbox_intersect_p_interval lo hi r L F) as K. rewrite H in K.
  destruct K as (Na & Nb & Lab & Lma & Lbm & Fb & S1); auto.
  { rewrite M. discriminate. }
  destruct (Fb D) as (x & Hx). rewrite M in Lma.
  destruct a as [a| | |]; try (unfold ele in *; cbn in *; discriminate); try congruence.
  2: { destruct b; unfold ele in *; cbn in *; discriminate. }
  destruct b as [b| | |]; try (unfold ele in *; cbn in *; discriminate); try congruence.
  exists a, b. repeat split; auto; try (apply ele_Fin in Lab; lra).
  - apply S1. split; apply ele_Fin; lra.
  - apply S1. split; apply ele_Fin; lra.
  - apply S1. split; apply ele_Fin; lra.
  - apply S1. split; apply ele_Fin; lra.
  - apply S1. split; apply ele_Fin; lra.
  - apply S1. split; apply ele_Fin; lra.
  - apply S1. split; apply ele_Fin; lra.
  - apply S1. split; apply ele_Fin; lra.
  - destruct (proj2 (S1 t)) as [A B]; [tauto|]. now apply ele_Fin in A.
  - destruct (proj2 (S1 t)) as [A B]; [tauto|]. now apply ele_Fin in B.
Qed.

Lemma h_tau_value h r m : vle (h_lo h) (h_hi h) -> ray_face_ok (h_lo h) (h_hi h) r ->
  rmint r = Fin m -> notnan (rmaxt r) -> rd r <> vzero ->
  (exists x y, x <= y /\
     (forall t, (x <= t <= y <-> in_range (rmint r) (rmaxt r) t /\ between (h_lo h) (ray_at r t) (h_hi h))) /\
     forall s o, h_tau h r s o = Some (vscale ((y - x) * vlength (rd r)) (vadd (h_a h) (h_s h)))) \/
  ((forall t, in_range (rmint r) (rmaxt r) t -> ~ between (h_lo h) (ray_at r t) (h_hi h)) /\
   forall s o, h_tau h r s o = Some vzero).
Proof.
  intros L F M N D. unfold h_tau, h_hit. cbv zeta.
  destruct (bbox_intersect_p (h_lo h) (h_hi h) r) as [[a b]|] eqn:H.
  - left. destruct (hit_finite _ _ _ _ _ _ L F M N D H) as (x & y & -> & -> & Hxy & S1).
    exists x, y. repeat split; auto; try apply S1; auto. intros. rewrite segment_length by auto. reflexivity.
  - right. pose proof (bbox_intersect_p_interval _ _ _ L F) as K. rewrite H in K. split; auto.
    intros t A B. apply (K ltac:(rewrite M; discriminate) N t). split; auto.
Qed.

Lemma vscale_plus a b v : vscale (a + b) v = vadd (vscale a v) (vscale b v).
Proof. destruct v as [x y z]; unfold vscale, vadd, vmap, vmap2; cbn; f_equal; ring. Qed.
Lemma vadd_0_l v : vadd vzero v = v.
Proof. destruct v as [x y z]; unfold vadd, vmap2, vzero; cbn; f_equal; ring. Qed.
Lemma vadd_0_r v : vadd v vzero = v.
Proof. destruct v as [x y z]; unfold vadd, vmap2, vzero; cbn; f_equal; ring. Qed.
Lemma vscale_0 v : vscale 0 v = vzero.
Proof. destruct v as [x y z]; unfold vscale, vmap, vzero; cbn; f_equal; ring. Qed.

Lemma h_tau_additive h r m t1 s o : vle (h_lo h) (h_hi h) -> ray_face_ok (h_lo h) (h_hi h) r ->
  rmint r = Fin m -> notnan (rmaxt r) -> rd r <> vzero -> in_range (rmint r) (rmaxt r) t1 ->
  exists v v1 v2, h_tau h r s o = Some v /\
    h_tau h (with_range r (rmint r) (Fin t1)) s o = Some v1 /\
    h_tau h (with_range r (Fin t1) (rmaxt r)) s o = Some v2 /\ v = vadd v1 v2.
Proof.
  intros L F M N D [R1 R2].
  pose proof (h_tau_value h r m L F M N D) as T.
  set (ra := with_range r (rmint r) (Fin t1)). set (rb := with_range r (Fin t1) (rmaxt r)).
  assert (Fa : ray_face_ok (h_lo h) (h_hi h) ra) by exact F.
  assert (Fb : ray_face_ok (h_lo h) (h_hi h) rb) by exact F.
  pose proof (h_tau_value h ra m L Fa M ltac:(discriminate) D) as Ta.
  pose proof (h_tau_value h rb t1 L Fb eq_refl N D) as Tb.
  change (rmint ra) with (rmint r) in Ta. change (rmaxt ra) with (Fin t1) in Ta.
  change (rmint rb) with (Fin t1) in Tb. change (rmaxt rb) with (rmaxt r) in Tb.
  change (rd ra) with (rd r) in Ta. change (rd rb) with (rd r) in Tb.
  assert (Ea : forall t, in_range (rmint r) (Fin t1) t <-> in_range (rmint r) (rmaxt r) t /\ t <= t1).
  { intros t. unfold in_range. rewrite M, !ele_Fin. split; [|tauto]. intros [A B]. repeat split; auto.
    eapply ele_trans; [|apply R2]. now apply ele_Fin. }
  assert (Eb : forall t, in_range (Fin t1) (rmaxt r) t <-> in_range (rmint r) (rmaxt r) t /\ t1 <= t).
  { intros t. unfold in_range. rewrite M in *. rewrite !ele_Fin in *. split; [|tauto]. intros [A B]. repeat split; auto. lra. }
  set (e := vadd (h_a h) (h_s h)) in *. set (l := vlength (rd r)) in *.
  change (ray_at ra) with (ray_at r) in Ta. change (ray_at rb) with (ray_at r) in Tb.
  assert (Goal2 : forall x xa xb, x = xa + xb -> vscale (x * l) e = vadd (vscale (xa * l) e) (vscale (xb * l) e)).
  { intros x xa xb ->. rewrite Rmult_plus_distr_r. apply vscale_plus. }
  assert (Zl : vzero = vscale (0 * l) e) by (rewrite Rmult_0_l; symmetry; apply vscale_0).
  destruct T as [(x & y & Hxy & S1 & Q)|(S1 & Q)];
  destruct Ta as [(xa & ya & Hxya & Sa & Qa)|(Sa & Qa)];
  destruct Tb as [(xb & yb & Hxyb & Sb & Qb)|(Sb & Qb)];
  rewrite Q, Qa, Qb; eexists _, _, _; (repeat split; try reflexivity);
  try rewrite Zl; try apply Goal2.
  - (* all three non-empty *)
    pose proof (proj1 (Sa xa) ltac:(lra)) as A1. pose proof (proj1 (Sa ya) ltac:(lra)) as A2.
    pose proof (proj1 (Sb xb) ltac:(lra)) as B1. pose proof (proj1 (Sb yb) ltac:(lra)) as B2.
    rewrite Ea in A1, A2. rewrite Eb in B1, B2.
    assert (x <= xa <= y) by (apply S1; tauto). assert (x <= ya <= y) by (apply S1; tauto).
    assert (x <= xb <= y) by (apply S1; tauto). assert (x <= yb <= y) by (apply S1; tauto).
    assert (xa <= x <= ya). { apply Sa. rewrite Ea. pose proof (proj1 (S1 x) ltac:(lra)). split; [split; [tauto|]|tauto]. lra. }
    assert (xb <= y <= yb). { apply Sb. rewrite Eb. pose proof (proj1 (S1 y) ltac:(lra)). split; [split; [tauto|]|tauto]. lra. }
    assert (xa <= t1 <= ya). { apply Sa. rewrite Ea. pose proof (proj1 (S1 t1) ltac:(lra)). split; [split; [tauto|]|tauto]. lra. }
    assert (xb <= t1 <= yb). { apply Sb. rewrite Eb. pose proof (proj1 (S1 t1) ltac:(lra)). split; [split; [tauto|]|tauto]. lra. }
    lra.
  - pose proof (proj1 (Sa xa) ltac:(lra)) as A1. pose proof (proj1 (Sa ya) ltac:(lra)) as A2.
    rewrite Ea in A1, A2.
    assert (x <= xa <= y) by (apply S1; tauto). assert (x <= ya <= y) by (apply S1; tauto).
    assert (Y : y < t1). { apply Rnot_le_lt. intros C. apply (Sb y); [rewrite Eb|]; pose proof (proj1 (S1 y) ltac:(lra)); tauto. }
    assert (xa <= x <= ya). { apply Sa. rewrite Ea. pose proof (proj1 (S1 x) ltac:(lra)). split; [split; [tauto|]|tauto]. lra. }
    assert (xa <= y <= ya). { apply Sa. rewrite Ea. pose proof (proj1 (S1 y) ltac:(lra)). split; [split; [tauto|]|tauto]. lra. }
    lra.
  - pose proof (proj1 (Sb xb) ltac:(lra)) as B1. pose proof (proj1 (Sb yb) ltac:(lra)) as B2.
    rewrite Eb in B1, B2.
    assert (x <= xb <= y) by (apply S1; tauto). assert (x <= yb <= y) by (apply S1; tauto).
    assert (Y : t1 < x). { apply Rnot_le_lt. intros C. apply (Sa x); [rewrite Ea|]; pose proof (proj1 (S1 x) ltac:(lra)); tauto. }
    assert (xb <= x <= yb). { apply Sb. rewrite Eb. pose proof (proj1 (S1 x) ltac:(lra)). split; [split; [tauto|]|tauto]. lra. }
    assert (xb <= y <= yb). { apply Sb. rewrite Eb. pose proof (proj1 (S1 y) ltac:(lra)). split; [split; [tauto|]|tauto]. lra. }
    lra.
  - exfalso. pose proof (proj1 (S1 x) ltac:(lra)) as [A1 A2].
    destruct (Rle_dec x t1). + apply (Sa x); auto. rewrite Ea; auto. + apply (Sb x); auto. rewrite Eb; split; auto; lra.
  - exfalso. pose proof (proj1 (Sa xa) ltac:(lra)) as [A1 A2]. rewrite Ea in A1. apply (S1 xa); tauto.
  - exfalso. pose proof (proj1 (Sa xa) ltac:(lra)) as [A1 A2]. rewrite Ea in A1. apply (S1 xa); tauto.
  - exfalso. pose proof (proj1 (Sb xb) ltac:(lra)) as [A1 A2]. rewrite Eb in A1. apply (S1 xb); tauto.
  - lra.
Qed.

Lemma h_tau_nonneg h r m s o v : vle (h_lo h) (h_hi h) -> ray_face_ok (h_lo h) (h_hi h) r ->
  rmint r = Fin m -> notnan (rmaxt r) -> rd r <> vzero -> nonneg3 (h_a h) -> nonneg3 (h_s h) ->
  h_tau h r s o = Some v -> nonneg3 v.
Proof.
  intros L F M N D (A1 & A2 & A3) (B1 & B2 & B3) H.
  destruct (h_tau_value h r m L F M N D) as [(x & y & Hxy & _ & Q)|(_ & Q)]; rewrite Q in H; injection H as <-.
  - assert (0 <= (y - x) * vlength (rd r)) by (apply Rmult_le_pos; [lra|apply sqrt_pos]).
    unfold nonneg3, vscale, vadd, vmap, vmap2; cbn. repeat split; apply Rmult_le_pos; lra.
  - unfold nonneg3, vzero; cbn; lra.
Qed.
