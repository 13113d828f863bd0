(** Tightened C18: half turns as quaternions. *)
From Coq Require Import Reals Lra Lia List ZArith Bool.
From Verif Require Import Base M_Geometry S_Geometry M_Transform S_Transform P_Transform2.
Open Scope R_scope.

(** the rotation by 180 degrees about the unit vector [v]: every vector x goes to 2 (v.x) v - x *)
Definition half_turn (v : vec) : M4 := let '(mkV x y z) := v in
  mkM (mkV4 (2 * x * x - 1) (2 * x * y) (2 * x * z) 0) (mkV4 (2 * y * x) (2 * y * y - 1) (2 * y * z) 0)
      (mkV4 (2 * z * x) (2 * z * y) (2 * z * z - 1) 0) (mkV4 0 0 0 1).
Lemma half_turn_meaning v p inv : t_vector (mkT (half_turn v) inv) p = vsub (vscale (2 * vdot v p) v) p.
Proof. destruct v as [a b c], p as [d e f]. unfold t_vector, half_turn, dot4, vsub, vscale, vdot, vmap, vmap2; cbn. apply V3_eq; cbn; ring. Qed.
Lemma sqrt4 a : sqrt (4 * (a * a)) = 2 * Rabs a.
Proof. replace (4 * (a * a)) with ((2 * Rabs a) * (2 * Rabs a)). { apply sqrt_square. pose proof (Rabs_pos a). lra. }
  pose proof (Rsqr_abs a). unfold Rsqr in *. lra. Qed.
Definition sg (a : R) : R := a / Rabs a.
Lemma sg2 a : a <> 0 -> sg a * sg a = 1.
Proof. intros H. unfold sg. pose proof (Rabs_no_R0 a H). pose proof (Rsqr_abs a) as Q. unfold Rsqr in Q.
  replace (a / Rabs a * (a / Rabs a)) with ((a * a) / (Rabs a * Rabs a)) by (field; assumption). rewrite Q. field. assumption. Qed.
Lemma sg_abs a : a <> 0 -> Rabs a = sg a * a.
Proof. intros H. unfold sg. pose proof (Rabs_no_R0 a H). pose proof (Rsqr_abs a) as Q. unfold Rsqr in Q.
  replace (a / Rabs a * a) with ((a * a) / Rabs a) by (field; assumption). rewrite Q. field. assumption. Qed.
Lemma half_turn_quat (v : vec) : unit v -> vz v <> 0 -> (vx v <> 0 \/ vy v <> 0) -> exists s, s * s = 1 /\
  from_arr (half_turn v) = mkQ (s * vx v) (s * vy v) (s * vz v) 0.
Proof.
  destruct v as [x y z]. unfold unit; cbn [vx vy vz]. intros U Z XY.
  assert (SEL : exists i, (i < 3)%nat /\ match i with O => x | 1%nat => y | _ => z end <> 0 /\
    (if Rltb (mget (half_turn (mkV x y z)) 2 2) (mget (half_turn (mkV x y z)) (if Rltb (mget (half_turn (mkV x y z)) 0 0) (mget (half_turn (mkV x y z)) 1 1) then 1%nat else 0%nat)
       (if Rltb (mget (half_turn (mkV x y z)) 0 0) (mget (half_turn (mkV x y z)) 1 1) then 1%nat else 0%nat))
     then 2%nat else if Rltb (mget (half_turn (mkV x y z)) 0 0) (mget (half_turn (mkV x y z)) 1 1) then 1%nat else 0%nat) = i).
  { destruct (Rltb (mget _ 0 0) (mget _ 1 1)) eqn:E1; unfold mget, half_turn in *; cbn in *; [apply Rltb_true in E1|apply Rltb_false in E1].
    - destruct (Rltb (2 * z * z - 1) _) eqn:E2; [exists 2%nat|exists 1%nat]; repeat split; try lia; try exact Z. intros ->. pose proof (Rle_0_sqr x). unfold Rsqr in *. lra.
    - destruct (Rltb (2 * z * z - 1) _) eqn:E2; [exists 2%nat|exists 0%nat]; repeat split; try lia; try exact Z. intros ->. 
      assert (y = 0). { pose proof (Rle_0_sqr y). unfold Rsqr in *. apply Rsqr_0_uniq. unfold Rsqr. lra. } destruct XY; lra. }
  destruct SEL as (i & I3 & NZ & SEL).
  unfold from_arr. replace (Rltb 0 (trace4 _)) with false by (symmetry; apply Rltb_false; unfold trace4, mget, half_turn; cbn; lra).
  cbv zeta. rewrite SEL. clear SEL.
  assert (Q0 : forall a, a <> 0 -> Reqb (2 * Rabs a) 0 = false). { intros a Ha. apply Reqb_false. pose proof (Rabs_no_R0 a Ha). lra. }
  assert (HD : forall a, a <> 0 -> 2 * Rabs a * / 2 = sg a * a). { intros a Ha. rewrite <- sg_abs by exact Ha. field. }
  assert (HO : forall a b c, a <> 0 -> b + c = 4 * a * (b / (2 * a)) -> c = b -> (b + c) * (/ 2 / (2 * Rabs a)) = sg a * (b / (2 * a))).
  { intros a b c Ha _ ->. unfold sg. pose proof (Rabs_no_R0 a Ha). field. split; assumption. }
  destruct i as [|[|[|]]]; [| | |lia]; cbn [Nat.eqb] in *; unfold mget, half_turn; cbn.
  - exists (sg x). split; [now apply sg2|]. replace (2 * x * x - 1 - (2 * y * y - 1 + (2 * z * z - 1)) + 1) with (4 * (x * x)) by lra.
    rewrite sqrt4, Q0 by exact NZ. unfold sg. pose proof (Rabs_no_R0 x NZ). f_equal; [rewrite HD by exact NZ; reflexivity|field; assumption..].
  - exists (sg y). split; [now apply sg2|]. replace (2 * y * y - 1 - (2 * z * z - 1 + (2 * x * x - 1)) + 1) with (4 * (y * y)) by lra.
    rewrite sqrt4, Q0 by exact NZ. unfold sg. pose proof (Rabs_no_R0 y NZ). f_equal; try (rewrite HD by exact NZ; reflexivity); field; assumption.
  - exists (sg z). split; [now apply sg2|]. replace (2 * z * z - 1 - (2 * x * x - 1 + (2 * y * y - 1)) + 1) with (4 * (z * z)) by lra.
    rewrite sqrt4, Q0 by exact NZ. unfold sg. pose proof (Rabs_no_R0 z NZ). f_equal; try (rewrite HD by exact NZ; reflexivity); field; assumption.
Qed.
(** Half turns about an axis that is neither horizontal (z = 0) nor vertical (x = y = 0): the quaternion is a unit quaternion and converting it
    back gives the same matrix. *)
Theorem C18_half_turns_partial (v : vec) : unit v -> vz v <> 0 -> (vx v <> 0 \/ vy v <> 0) ->
  qunit (from_arr (half_turn v)) /\ tm (to_transform (from_arr (half_turn v))) = half_turn v.
Proof.
  intros U Z XY. destruct (half_turn_quat v U Z XY) as (s & S2 & ->). destruct v as [x y z]. unfold unit in U; cbn [vx vy vz] in *.
  split.
  - unfold qunit; cbn. replace (s * x * (s * x) + s * y * (s * y) + s * z * (s * z) + 0 * 0) with ((s * s) * (x * x + y * y + z * z)) by ring. rewrite S2, U. ring.
  - assert (P : forall a b, s * a * (s * b) = a * b). { intros a b. replace (s * a * (s * b)) with ((s * s) * (a * b)) by ring. rewrite S2. ring. }
    unfold to_transform, half_turn; cbn [tm]. rewrite !P. unfold mT, col0, col1, col2, col3; cbn. f_equal; f_equal; try ring; lra.
Qed.
Print Assumptions C18_half_turns_partial.
Example C18_half_turns_ex : unit (mkV 0 (3/5) (4/5)) /\ vz (mkV 0 (3/5) (4/5)) <> 0 /\ vy (mkV 0 (3/5) (4/5)) <> 0.
Proof. unfold unit; cbn. repeat split; lra. Qed.
(** Half turns about the x axis become the zero quaternion. *)
Theorem C18_x_half_turn_refuted : from_arr (half_turn (mkV 1 0 0)) = mkQ 0 0 0 0 /\ tm (to_transform (from_arr (half_turn (mkV 1 0 0)))) = I4 /\
  half_turn (mkV 1 0 0) <> I4.
Proof.
  assert (Q : from_arr (half_turn (mkV 1 0 0)) = mkQ 0 0 0 0).
  { unfold from_arr. replace (Rltb 0 (trace4 _)) with false by (symmetry; apply Rltb_false; unfold trace4, mget, half_turn; cbn; lra).
    cbv zeta. replace (Rltb (mget (half_turn (mkV 1 0 0)) 0 0) (mget (half_turn (mkV 1 0 0)) 1 1)) with false by (symmetry; apply Rltb_false; unfold mget, half_turn; cbn; lra).
    replace (Rltb (mget (half_turn (mkV 1 0 0)) 2 2) (mget (half_turn (mkV 1 0 0)) 0 0)) with true by (symmetry; apply Rltb_true; unfold mget, half_turn; cbn; lra).
    unfold mget, half_turn; cbn. replace (2 * 0 * 0 - 1 - (2 * 1 * 1 - 1 + (2 * 0 * 0 - 1)) + 1) with 0 by ring.
    rewrite sqrt_0. rewrite (proj2 (Reqb_true 0 0) eq_refl). f_equal; ring. }
  rewrite Q. split; [reflexivity|]. split.
  - unfold to_transform, I4, mT, col0, col1, col2, col3; cbn. f_equal; f_equal; ring.
  - unfold half_turn, I4. intros H. injection H. lra.
Qed.
Print Assumptions C18_x_half_turn_refuted.
