(** Discrete trigonometric sums, and the tangents of regular fans *)
From Coq Require Import Reals Lra List Bool Arith Lia.
From Verif Require Import Base M_Geometry P_Geometry M_Loop.
Import ListNotations.
Open Scope R_scope.

Definition fsum (f : nat -> R) (l : list nat) : R := fold_right Rplus 0 (map f l).
Lemma fsum_S f n : fsum f (seq 0 (S n)) = fsum f (seq 0 n) + f n.
Proof.
  rewrite seq_S. cbn [plus]. unfold fsum. rewrite map_app, fold_right_app. cbn.
  generalize (map f (seq 0 n)). induction l as [|x l IH]; cbn; [ring|rewrite IH; ring].
Qed.
Lemma fsum_ext f g l : (forall k, In k l -> f k = g k) -> fsum f l = fsum g l.
Proof. unfold fsum. induction l as [|x l IH]; intros H; cbn; [reflexivity|]. rewrite H by (now left). rewrite IH; [reflexivity|]. intros; apply H; now right. Qed.
Lemma fsum_lin a b f g l : fsum (fun k => a * f k + b * g k) l = a * fsum f l + b * fsum g l.
Proof. unfold fsum. induction l as [|x l IH]; cbn; [ring|rewrite IH; ring]. Qed.
Lemma fsum_const c n : fsum (fun _ => c) (seq 0 n) = INR n * c.
Proof. induction n; [cbn; ring|]. rewrite fsum_S, IHn, S_INR. ring. Qed.

Lemma cos_sum al n : 2 * sin (al / 2) * fsum (fun k => cos (INR k * al)) (seq 0 n) = sin (INR n * al - al / 2) + sin (al / 2).
Proof.
  induction n as [|n IH].
  - cbn. replace (0 * al - al / 2) with (- (al / 2)) by ring. rewrite sin_neg. ring.
  - rewrite fsum_S, Rmult_plus_distr_l, IH, S_INR.
    replace ((INR n + 1) * al - al / 2) with (INR n * al + al / 2) by field. rewrite sin_plus, sin_minus. ring.
Qed.
Lemma sin_sum al n : 2 * sin (al / 2) * fsum (fun k => sin (INR k * al)) (seq 0 n) = cos (al / 2) - cos (INR n * al - al / 2).
Proof.
  induction n as [|n IH].
  - cbn. replace (0 * al - al / 2) with (- (al / 2)) by ring. rewrite cos_neg. ring.
  - rewrite fsum_S, Rmult_plus_distr_l, IH, S_INR.
    replace ((INR n + 1) * al - al / 2) with (INR n * al + al / 2) by field. rewrite cos_plus, cos_minus. ring.
Qed.
Section Full.
Variable n : nat.
Hypothesis N2 : (2 <= n)%nat.
Let al := 2 * PI / INR n.
Lemma n_pos : 2 <= INR n. Proof. apply le_INR in N2. exact N2. Qed.
Lemma sin_half : 0 < sin (al / 2).
Proof.
  pose proof n_pos. pose proof PI_RGT_0. apply sin_gt_0; unfold al.
  - apply Rmult_lt_0_compat; [|lra]. apply Rdiv_lt_0_compat; lra.
  - replace (2 * PI / INR n / 2) with (PI / INR n) by (field; lra). apply Rmult_lt_reg_r with (INR n); [lra|]. field_simplify; [|lra]. nra.
Qed.
Lemma full_angle : INR n * al - al / 2 = - (al / 2) + 2 * PI.
Proof. pose proof n_pos. unfold al. field. lra. Qed.
Lemma cos_full : fsum (fun k => cos (INR k * al)) (seq 0 n) = 0.
Proof.
  pose proof (cos_sum al n) as E1. pose proof sin_half. rewrite full_angle, sin_plus, sin_2PI, cos_2PI, sin_neg in E1. nra.
Qed.
Lemma sin_full : fsum (fun k => sin (INR k * al)) (seq 0 n) = 0.
Proof.
  pose proof (sin_sum al n) as E1. pose proof sin_half. rewrite full_angle, cos_plus, sin_2PI, cos_2PI, cos_neg in E1. nra.
Qed.
End Full.
(** twice around: 2 * (2 pi / n), n at least 3 *)
Lemma cos2_full n : (3 <= n)%nat -> fsum (fun k => cos (2 * (INR k * (2 * PI / INR n)))) (seq 0 n) = 0.
Proof.
  intros N3. pose proof (n_pos n ltac:(lia)). pose proof PI_RGT_0. set (al := 2 * (2 * PI / INR n)).
  rewrite (fsum_ext _ (fun k => cos (INR k * al))) by (intros; f_equal; unfold al; ring).
  pose proof (cos_sum al n) as E1. replace (INR n * al - al / 2) with (- (al / 2) + 2 * INR 2 * PI) in E1 by (unfold al; cbn; field; lra).
  rewrite sin_period, sin_neg in E1.
  assert (S0 : 0 < sin (al / 2)).
  { apply le_INR in N3. cbn in N3. apply sin_gt_0; unfold al.
    - apply Rmult_lt_0_compat; [|lra]. apply Rmult_lt_0_compat; [lra|]. apply Rdiv_lt_0_compat; lra.
    - replace (2 * (2 * PI / INR n) / 2) with (2 * PI / INR n) by (field; lra). apply Rmult_lt_reg_r with (INR n); [lra|]. field_simplify; [|lra]. nra. }
  nra.
Qed.
Lemma sin2_full n : (3 <= n)%nat -> fsum (fun k => sin (2 * (INR k * (2 * PI / INR n)))) (seq 0 n) = 0.
Proof.
  intros N3. pose proof (n_pos n ltac:(lia)). pose proof PI_RGT_0. set (al := 2 * (2 * PI / INR n)).
  rewrite (fsum_ext _ (fun k => sin (INR k * al))) by (intros; f_equal; unfold al; ring).
  pose proof (sin_sum al n) as E1. replace (INR n * al - al / 2) with (- (al / 2) + 2 * INR 2 * PI) in E1 by (unfold al; cbn; field; lra).
  rewrite cos_period, cos_neg in E1.
  assert (S0 : 0 < sin (al / 2)).
  { apply le_INR in N3. cbn in N3. apply sin_gt_0; unfold al.
    - apply Rmult_lt_0_compat; [|lra]. apply Rmult_lt_0_compat; [lra|]. apply Rdiv_lt_0_compat; lra.
    - replace (2 * (2 * PI / INR n) / 2) with (2 * PI / INR n) by (field; lra). apply Rmult_lt_reg_r with (INR n); [lra|]. field_simplify; [|lra]. nra. }
  nra.
Qed.
Lemma sq_sums al n : fsum (fun k => cos (2 * (INR k * al))) (seq 0 n) = 0 -> fsum (fun k => sin (2 * (INR k * al))) (seq 0 n) = 0 ->
  fsum (fun k => cos (INR k * al) * cos (INR k * al)) (seq 0 n) = INR n / 2 /\
  fsum (fun k => sin (INR k * al) * sin (INR k * al)) (seq 0 n) = INR n / 2 /\
  fsum (fun k => sin (INR k * al) * cos (INR k * al)) (seq 0 n) = 0.
Proof.
  intros HC HS. split; [|split].
  - rewrite (fsum_ext _ (fun k => / 2 * 1 + / 2 * cos (2 * (INR k * al)))) by (intros; rewrite cos_2a_cos; field).
    rewrite (fsum_lin (/ 2) (/ 2) (fun _ => 1)), HC, fsum_const. field.
  - rewrite (fsum_ext _ (fun k => / 2 * 1 + (- / 2) * cos (2 * (INR k * al)))) by (intros; rewrite cos_2a_sin; field).
    rewrite (fsum_lin (/ 2) (- / 2) (fun _ => 1)), HC, fsum_const. field.
  - rewrite (fsum_ext _ (fun k => / 2 * sin (2 * (INR k * al)) + 0 * 1)) by (intros; rewrite sin_2a; field).
    rewrite (fsum_lin (/ 2) 0), HS. ring.
Qed.
(** a weighted sum of the points c + x_k a + y_k b *)
Lemma fan_sum (w x y : nat -> R) (c a b : vec) (l : list nat) (p : nat -> vec) :
  (forall k, In k l -> p k = vadd (vadd c (vscale (x k) a)) (vscale (y k) b)) ->
  vsum (map (fun k => vscale (w k) (p k)) l) =
  vadd (vadd (vscale (fsum w l) c) (vscale (fsum (fun k => w k * x k) l) a)) (vscale (fsum (fun k => w k * y k) l) b).
Proof.
  induction l as [|k l IH]; intros H.
  - unfold fsum, vsum; cbn. destruct a, b, c. unfold vadd, vscale, vzero, vmap2, vmap; cbn. f_equal; ring.
  - cbn [map]. unfold vsum in *. cbn [fold_right]. rewrite IH by (intros; apply H; now right). rewrite (H k) by (now left).
    unfold fsum; cbn. destruct a, b, c. unfold vadd, vscale, vmap2, vmap; cbn. f_equal; ring.
Qed.
