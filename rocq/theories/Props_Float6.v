(** Float64 arithmetic, continued: C293 (lines and spheres, lines and cylinders). *)
From Coq Require Import Reals ZArith List Bool Lra Lia.
From Flocq Require Import Core.
From Verif Require Import Base M_Geometry M_Float M_Float2 M_Float4 P_Float S_Shapes.
Open Scope R_scope.
Local Opaque fl.

Definition w53 : R := 9 / 8 * bpow radix2 (-53).
Lemma w_pos : 0 < w53. Proof. unfold w53. pose proof (bpow_gt_0 radix2 (-53)). lra. Qed.
Lemma w_small : w53 <= / 1000000. Proof. unfold w53. change (bpow radix2 (-53)) with (/ IZR 9007199254740992). lra. Qed.
Lemma eta_small : bpow radix2 (-1075) <= / 8 * bpow radix2 (-53).
Proof. replace (/ 8) with (bpow radix2 (-3)) by (cbn; lra). rewrite <- bpow_plus. apply bpow_le. lia. Qed.
Lemma err x b : Rabs x <= b -> 1 <= b -> Rabs (fl x - x) <= w53 * b.
Proof.
  intros H B. pose proof (fl_dist x). pose proof eta_small. unfold w53. pose proof (bpow_gt_0 radix2 (-53)).
  set (u := bpow radix2 (-53)) in *. assert (u * Rabs x <= u * b) by (apply Rmult_le_compat_l; lra). assert (u * 1 <= u * b) by (apply Rmult_le_compat_l; lra). lra.
Qed.
Lemma tri a b c x y : Rabs (a - b) <= x -> Rabs (b - c) <= y -> Rabs (a - c) <= x + y.
Proof. intros H K. replace (a - c) with ((a - b) + (b - c)) by ring. eapply Rle_trans; [apply Rabs_triang|lra]. Qed.
Lemma size a b x y : Rabs (a - b) <= x -> Rabs b <= y -> Rabs a <= x + y.
Proof. intros H K. replace a with ((a - b) + b) by ring. eapply Rle_trans; [apply Rabs_triang|lra]. Qed.
Lemma add_err a b c d x y : Rabs (a - b) <= x -> Rabs (c - d) <= y -> Rabs ((a + c) - (b + d)) <= x + y.
Proof. intros H K. replace (a + c - (b + d)) with ((a - b) + (c - d)) by ring. eapply Rle_trans; [apply Rabs_triang|lra]. Qed.
Lemma sub_err a b c d x y : Rabs (a - b) <= x -> Rabs (c - d) <= y -> Rabs ((a - c) - (b - d)) <= x + y.
Proof. intros H K. replace (a - c - (b - d)) with ((a - b) + - (c - d)) by ring. eapply Rle_trans; [apply Rabs_triang|]. rewrite Rabs_Ropp. lra. Qed.
Lemma mul_err a b c d x y p q : Rabs (a - b) <= x -> Rabs (c - d) <= y -> Rabs a <= p -> Rabs d <= q -> Rabs (a * c - b * d) <= p * y + q * x.
Proof.
  intros H K P Q. replace (a * c - b * d) with (a * (c - d) + d * (a - b)) by ring. eapply Rle_trans; [apply Rabs_triang|]. rewrite !Rabs_mult.
  apply Rplus_le_compat; apply Rmult_le_compat; try apply Rabs_pos; assumption.
Qed.
Lemma mul_size a b p q : Rabs a <= p -> Rabs b <= q -> Rabs (a * b) <= p * q.
Proof. intros. rewrite Rabs_mult. apply Rmult_le_compat; try apply Rabs_pos; assumption. Qed.
(** sums of two and of three products of size at most Z *)
Lemma dot2_err p1 p2 Z : Rabs p1 <= Z -> Rabs p2 <= Z -> 1 <= Z -> Rabs (fadd (fl p1) (fl p2) - (p1 + p2)) <= 5 * w53 * Z.
Proof.
  intros H1 H2 HZ. pose proof w_pos as W0. pose proof w_small as W1.
  pose proof (err p1 Z H1 HZ) as E1. pose proof (err p2 Z H2 HZ) as E2. pose proof (add_err _ _ _ _ _ _ E1 E2) as E.
  assert (Q : w53 * Z <= / 1000000 * Z) by (apply Rmult_le_compat_r; lra).
  assert (SZ : Rabs (fl p1 + fl p2) <= 3 * Z).
  { eapply Rle_trans; [apply (size _ (p1 + p2) _ (2 * Z) E)|lra]. eapply Rle_trans; [apply Rabs_triang|lra]. }
  pose proof (err _ _ SZ ltac:(lra)) as E3. unfold fadd. pose proof (tri _ _ _ _ _ E3 E). lra.
Qed.
Lemma dot3_err p1 p2 p3 Z : Rabs p1 <= Z -> Rabs p2 <= Z -> Rabs p3 <= Z -> 1 <= Z -> Rabs (fadd (fadd (fl p1) (fl p2)) (fl p3) - (p1 + p2 + p3)) <= 9 * w53 * Z.
Proof.
  intros H1 H2 H3 HZ. pose proof w_pos as W0. pose proof w_small as W1.
  assert (Q : w53 * Z <= / 1000000 * Z) by (apply Rmult_le_compat_r; lra).
  assert (Q2 : w53 * (w53 * Z) <= / 1000000 * (w53 * Z)) by (apply Rmult_le_compat_r; [apply Rmult_le_pos; lra|lra]).
  pose proof (err p1 Z H1 HZ) as E1. pose proof (err p2 Z H2 HZ) as E2. pose proof (add_err _ _ _ _ _ _ E1 E2) as E.
  assert (S2 : Rabs (p1 + p2) <= 2 * Z) by (eapply Rle_trans; [apply Rabs_triang|lra]).
  assert (SZ : Rabs (fl p1 + fl p2) <= 2 * Z + 2 * (w53 * Z)) by (eapply Rle_trans; [apply (size _ _ _ _ E S2)|lra]).
  pose proof (err _ _ SZ ltac:(pose proof (Rmult_le_pos w53 Z); lra)) as E3. pose proof (tri _ _ _ _ _ E3 E) as F.
  pose proof (err p3 Z H3 HZ) as E4. pose proof (add_err _ _ _ _ _ _ F E4) as G.
  assert (S3 : Rabs (p1 + p2 + p3) <= 3 * Z) by (eapply Rle_trans; [apply Rabs_triang|lra]).
  assert (R1 : w53 * (2 * Z + 2 * (w53 * Z)) = 2 * (w53 * Z) + 2 * (w53 * (w53 * Z))) by ring.
  assert (R2 : w53 * (3 * Z + 6 * (w53 * Z)) = 3 * (w53 * Z) + 6 * (w53 * (w53 * Z))) by ring.
  assert (R3 : 9 * w53 * Z = 9 * (w53 * Z)) by ring. assert (R0 : 0 <= w53 * Z) by (apply Rmult_le_pos; lra).
  rewrite R1 in *. rewrite R3.
  assert (SY : Rabs (fl (fl p1 + fl p2) + fl p3) <= 3 * Z + 6 * (w53 * Z)) by (eapply Rle_trans; [apply (size _ _ _ _ G S3)|lra]).
  pose proof (err _ _ SY ltac:(pose proof (Rmult_le_pos w53 Z); lra)) as E5. unfold fadd. pose proof (tri _ _ _ _ _ E5 G). rewrite R2 in *. set (a := w53 * Z) in *. set (b := w53 * a) in *. clearbody b. lra.
Qed.
(** the discriminant from A, b = B/2 and |o|^2 with these errors *)
Lemma disc_err A A0 b b0 s s0 r X : 1 <= X -> Rabs A0 <= 3 -> Rabs b0 <= 3 * X -> 0 <= s0 <= 3 * (X * X) -> Rabs r <= X ->
  Rabs (A - A0) <= 9 * w53 -> Rabs (b - b0) <= 9 * w53 * X -> Rabs (s - s0) <= 9 * w53 * (X * X) ->
  Rabs (fsub (fmul (fmul 2 b) (fmul 2 b)) (fmul (fmul 4 A) (fsub s (fmul r r))) - (4 * (b0 * b0) - 4 * A0 * (s0 - r * r))) <= 800 * w53 * (X * X).
Proof.
  intros HX SA Sb Ss Sr EA Eb Es. pose proof w_pos as W0. pose proof w_small as W1.
  assert (Y1 : X <= X * X) by nra. set (Y := X * X) in *.
  assert (wX : w53 * X <= / 1000000 * X) by (apply Rmult_le_compat_r; lra). assert (wX0 : 0 <= w53 * X) by (apply Rmult_le_pos; lra).
  assert (wY : w53 * Y <= / 1000000 * Y) by (apply Rmult_le_compat_r; lra). assert (wY0 : 0 <= w53 * Y) by (apply Rmult_le_pos; lra).
  assert (wX1 : w53 <= w53 * X) by (rewrite <- (Rmult_1_r w53) at 1; apply Rmult_le_compat_l; lra).
  assert (ww : w53 * w53 <= / 1000000 * w53) by (apply Rmult_le_compat_r; lra).
  (* B *)
  assert (Sb2 : Rabs (2 * b) <= 6 * X + 18 * (w53 * X)).
  { rewrite Rabs_mult, (Rabs_pos_eq 2) by lra. pose proof (size _ _ _ _ Eb Sb). lra. }
  pose proof (err (2 * b) _ Sb2 ltac:(lra)) as E1.
  assert (E2 : Rabs (2 * b - 2 * b0) <= 18 * w53 * X).
  { replace (2 * b - 2 * b0) with (2 * (b - b0)) by ring. rewrite Rabs_mult, (Rabs_pos_eq 2) by lra. lra. }
  pose proof (tri _ _ _ _ _ E1 E2) as EB0. assert (EB : Rabs (fmul 2 b - 2 * b0) <= 25 * (w53 * X)).
  { unfold fmul. eapply Rle_trans; [exact EB0|]. assert (w53 * (w53 * X) <= / 1000000 * (w53 * X)) by (apply Rmult_le_compat_r; lra). lra. }
  clear E1 E2 EB0. set (B := fmul 2 b) in *. assert (SB0 : Rabs (2 * b0) <= 6 * X) by (rewrite Rabs_mult, (Rabs_pos_eq 2) by lra; lra).
  pose proof (size _ _ _ _ EB SB0) as SB1. assert (SB : Rabs B <= 61 / 10 * X) by lra. clear SB1.
  (* B * B *)
  pose proof (mul_err _ _ _ _ _ _ _ _ EB EB SB SB0) as E1. pose proof (mul_size _ _ _ _ SB SB) as SBB.
  replace (61 / 10 * X * (61 / 10 * X)) with (3721 / 100 * Y) in SBB by (unfold Y; field).
  pose proof (err _ _ SBB ltac:(lra)) as E2. pose proof (tri _ _ _ _ _ E2 E1) as E3.
  assert (EBB : Rabs (fmul B B - 4 * (b0 * b0)) <= 341 * (w53 * Y)).
  { unfold fmul. replace (4 * (b0 * b0)) with (2 * b0 * (2 * b0)) by ring. eapply Rle_trans; [exact E3|].
    replace (61 / 10 * X * (25 * (w53 * X)) + 6 * X * (25 * (w53 * X))) with (3025 / 10 * (w53 * Y)) by (unfold Y; field). lra. }
  assert (SBf : Rabs (fmul B B) <= 374 / 10 * Y).
  { unfold fmul. pose proof (size _ _ _ _ E2 SBB). lra. }
  clear E1 E2 E3 SBB.
  (* C *)
  assert (Srr : Rabs (r * r) <= Y) by (apply (mul_size _ _ _ _ Sr Sr)). pose proof (err _ _ Srr ltac:(lra)) as E1.
  pose proof (sub_err _ _ _ _ _ _ Es E1) as E2. assert (SC0 : Rabs (s0 - r * r) <= 3 * Y).
  { assert (0 <= r * r) by nra. rewrite Rabs_pos_eq in Srr by assumption. apply Rabs_le. lra. }
  assert (SC1 : Rabs (s - fl (r * r)) <= 4 * Y). { pose proof (size _ _ _ _ E2 SC0). lra. }
  pose proof (err _ _ SC1 ltac:(lra)) as E3. pose proof (tri _ _ _ _ _ E3 E2) as E4.
  assert (EC : Rabs (fsub s (fmul r r) - (s0 - r * r)) <= 14 * (w53 * Y)). { unfold fsub, fmul. eapply Rle_trans; [exact E4|]. lra. }
  set (C := fsub s (fmul r r)) in *. pose proof (size _ _ _ _ EC SC0) as SC. clear E1 E2 E3 E4 SC1.
  assert (SC2 : Rabs C <= 31 / 10 * Y) by lra.
  (* 4 * A *)
  assert (S4A : Rabs (4 * A) <= 12 + 36 * w53). { rewrite Rabs_mult, (Rabs_pos_eq 4) by lra. pose proof (size _ _ _ _ EA SA). lra. }
  pose proof (err _ _ S4A ltac:(lra)) as E1. assert (E2 : Rabs (4 * A - 4 * A0) <= 36 * w53).
  { replace (4 * A - 4 * A0) with (4 * (A - A0)) by ring. rewrite Rabs_mult, (Rabs_pos_eq 4) by lra. lra. }
  pose proof (tri _ _ _ _ _ E1 E2) as E3. assert (E4A : Rabs (fmul 4 A - 4 * A0) <= 49 * w53) by (unfold fmul; lra).
  set (D4 := fmul 4 A) in *. assert (S40 : Rabs (4 * A0) <= 12) by (rewrite Rabs_mult, (Rabs_pos_eq 4) by lra; lra).
  pose proof (size _ _ _ _ E4A S40) as S4. assert (S4' : Rabs D4 <= 121 / 10) by lra. clear E1 E2 E3.
  (* 4 * A * C *)
  pose proof (mul_err _ _ _ _ _ _ _ _ E4A EC S4' SC0) as E1. pose proof (mul_size _ _ _ _ S4' SC2) as SAC.
  assert (SAC' : Rabs (D4 * C) <= 376 / 10 * Y) by lra. pose proof (err _ _ SAC' ltac:(lra)) as E2. pose proof (tri _ _ _ _ _ E2 E1) as E3.
  assert (EAC : Rabs (fmul D4 C - 4 * A0 * (s0 - r * r)) <= 355 * (w53 * Y)) by (unfold fmul; lra).
  assert (SACf : Rabs (fmul D4 C) <= 377 / 10 * Y). { unfold fmul. pose proof (size _ _ _ _ E2 SAC'). lra. }
  (* D *)
  pose proof (sub_err _ _ _ _ _ _ EBB EAC) as E5.
  assert (SD : Rabs (fmul B B - fmul D4 C) <= 76 * Y). { unfold Rminus. eapply Rle_trans; [apply Rabs_triang|]. rewrite Rabs_Ropp. lra. }
  pose proof (err _ _ SD ltac:(lra)) as E6. pose proof (tri _ _ _ _ _ E6 E5). unfold fsub. lra.
Qed.

(** every component of the direction at most 1, of the origin and the radius at most X *)
Definition within (o d : vec) (r X : R) : Prop :=
  Rabs (vx d) <= 1 /\ Rabs (vy d) <= 1 /\ Rabs (vz d) <= 1 /\ Rabs (vx o) <= X /\ Rabs (vy o) <= X /\ Rabs (vz o) <= X /\ Rabs r <= X.
Lemma sq_le x X : Rabs x <= X -> 0 <= x * x <= X * X.
Proof. intros H. split; [nra|]. rewrite <- (Rabs_pos_eq (x * x)) by nra. now apply mul_size. Qed.
Theorem C293_error (o d : vec) (r X : R) : 1 <= X -> within o d r X ->
  Rabs (f_disc o d r - discriminant o d r) <= 900 * bpow radix2 (-53) * (X * X).
Proof.
  intros HX (D1 & D2 & D3 & O1 & O2 & O3 & SR).
  assert (P : forall a b p q, Rabs a <= p -> Rabs b <= q -> Rabs (a * b) <= p * q) by (intros; now apply mul_size).
  pose proof (dot3_err _ _ _ 1 ltac:(rewrite <- (Rmult_1_r 1); apply (P _ _ _ _ D1 D1)) ltac:(rewrite <- (Rmult_1_r 1); apply (P _ _ _ _ D2 D2))
    ltac:(rewrite <- (Rmult_1_r 1); apply (P _ _ _ _ D3 D3)) (Rle_refl 1)) as EA.
  pose proof (dot3_err _ _ _ X ltac:(rewrite <- (Rmult_1_l X); apply (P _ _ _ _ D1 O1)) ltac:(rewrite <- (Rmult_1_l X); apply (P _ _ _ _ D2 O2))
    ltac:(rewrite <- (Rmult_1_l X); apply (P _ _ _ _ D3 O3)) HX) as EB.
  pose proof (dot3_err _ _ _ (X * X) (P _ _ _ _ O1 O1) (P _ _ _ _ O2 O2) (P _ _ _ _ O3 O3) ltac:(nra)) as ES.
  pose proof (sq_le _ _ D1). pose proof (sq_le _ _ D2). pose proof (sq_le _ _ D3).
  pose proof (sq_le _ _ O1). pose proof (sq_le _ _ O2). pose proof (sq_le _ _ O3).
  unfold f_disc. cbv zeta. unfold f_sqlen, f_dot, discriminant.
  eapply Rle_trans; [apply (disc_err _ (vdot d d) _ (vdot d o) _ (vdot o o) r X)|].
  - exact HX.
  - unfold vdot. apply Rabs_le. lra.
  - unfold vdot. eapply Rle_trans; [apply Rabs_triang|]. pose proof (P _ _ _ _ D3 O3). assert (Rabs (vx d * vx o + vy d * vy o) <= 2 * X).
    { eapply Rle_trans; [apply Rabs_triang|]. pose proof (P _ _ _ _ D1 O1). pose proof (P _ _ _ _ D2 O2). lra. } lra.
  - unfold vdot. lra.
  - exact SR.
  - unfold fmul. unfold vdot. replace (9 * w53) with (9 * w53 * 1) by ring. exact EA.
  - exact EB.
  - exact ES.
  - unfold w53. pose proof (bpow_gt_0 radix2 (-53)). assert (0 <= X * X) by nra. set (u := bpow radix2 (-53)) in *. replace (800 * (9 / 8 * u)) with (900 * u) by field. lra.
Qed.
Print Assumptions C293_error.

Lemma eps_bounds : / 100000 - / 1000000000 <= f_eps <= / 100000 + / 1000000000.
Proof.
  unfold f_eps. pose proof (fl_dist (/ 100000)) as H. rewrite (Rabs_pos_eq (/ 100000)) in H by lra. pose proof eta_small.
  change (bpow radix2 (-53)) with (/ IZR 9007199254740992) in *. apply Rabs_le_inv in H. lra.
Qed.
(** Rays of unit-sized directions, within 10 000 units: a line which nowhere enters the ball is passed over, and one whose discriminant is
    at least twice the program's threshold is not. *)
Definition point_at (o d : vec) (t : R) : vec := vadd o (vscale t d).
Theorem C293_sphere_partial (o d : vec) (r : R) : within o d r 10000 ->
  ((forall t, r * r <= vdot (point_at o d t) (point_at o d t)) -> f_sphere_line o d r = false)
  /\ (2 * EPS <= discriminant o d r -> f_sphere_line o d r = true).
Proof.
  intros W. pose proof (C293_error o d r 10000 ltac:(lra) W) as E. change (bpow radix2 (-53)) with (/ IZR 9007199254740992) in E.
  apply Rabs_le_inv in E. pose proof eps_bounds as B. unfold f_sphere_line. split.
  - intros M. apply Rltb_false. assert (D : discriminant o d r <= 0); [|lra].
    destruct (Req_dec (vdot d d) 0) as [Z|Z].
    + assert (Q : vx d = 0 /\ vy d = 0 /\ vz d = 0) by (unfold vdot in Z; repeat split; nra). destruct Q as (Q1 & Q2 & Q3).
      unfold discriminant, vdot. rewrite Q1, Q2, Q3. lra.
    + assert (P : 0 < vdot d d) by (unfold vdot in *; nra). specialize (M (- vdot d o / vdot d d)).
      assert (K : vdot (point_at o d (- vdot d o / vdot d d)) (point_at o d (- vdot d o / vdot d d)) * vdot d d = vdot o o * vdot d d - vdot d o * vdot d o).
      { set (t := - vdot d o / vdot d d). assert (T : t * vdot d d = - vdot d o) by (unfold t; field; exact Z).
        transitivity (vdot o o * vdot d d + 2 * vdot d o * (t * vdot d d) + (t * vdot d d) * (t * vdot d d)).
        - clearbody t. unfold point_at, vdot, vadd, vscale, vmap2, vmap; cbn. ring.
        - rewrite T. ring. }
      pose proof (Rmult_le_compat_r _ _ _ (Rlt_le _ _ P) M) as M2. rewrite K in M2. unfold discriminant. lra.
  - intros M. apply Rltb_true. unfold EPS in M. lra.
Qed.
Print Assumptions C293_sphere_partial.

(** the cylinder's plane *)
Definition flat (v : vec) : vec := mkV (vx v) (vy v) 0.
Theorem C293_cylinder_partial (o d : vec) (r X : R) : 1 <= X -> within (flat o) (flat d) r X ->
  (discriminant (flat o) (flat d) r <= - (900 * bpow radix2 (-53) * (X * X)) -> f_cylinder_line o d r = false)
  /\ (900 * bpow radix2 (-53) * (X * X) < discriminant (flat o) (flat d) r -> f_cylinder_line o d r = true).
Proof.
  intros HX (D1 & D2 & _ & O1 & O2 & _ & SR). unfold flat in *; cbn [vx vy vz] in *.
  assert (E : Rabs (f_disc2 o d r - discriminant (flat o) (flat d) r) <= 900 * bpow radix2 (-53) * (X * X)).
  { assert (P : forall a b p q, Rabs a <= p -> Rabs b <= q -> Rabs (a * b) <= p * q) by (intros; now apply mul_size).
    pose proof (dot2_err _ _ 1 ltac:(rewrite <- (Rmult_1_r 1); apply (P _ _ _ _ D1 D1)) ltac:(rewrite <- (Rmult_1_r 1); apply (P _ _ _ _ D2 D2)) (Rle_refl 1)) as EA.
    pose proof (dot2_err _ _ X ltac:(rewrite <- (Rmult_1_l X); apply (P _ _ _ _ D1 O1)) ltac:(rewrite <- (Rmult_1_l X); apply (P _ _ _ _ D2 O2)) HX) as EB.
    pose proof (dot2_err _ _ (X * X) (P _ _ _ _ O1 O1) (P _ _ _ _ O2 O2) ltac:(nra)) as ES.
    pose proof (sq_le _ _ D1). pose proof (sq_le _ _ D2). pose proof (sq_le _ _ O1). pose proof (sq_le _ _ O2).
    pose proof w_pos as W0. assert (0 <= w53 * X) by (apply Rmult_le_pos; lra). assert (0 <= w53 * (X * X)) by (apply Rmult_le_pos; nra).
    unfold f_disc2. cbv zeta. unfold fmul at 2 3. unfold discriminant.
    eapply Rle_trans; [apply (disc_err _ (vdot (flat d) (flat d)) _ (vdot (flat d) (flat o)) _ (vdot (flat o) (flat o)) r X)|].
    - exact HX.
    - unfold vdot, flat; cbn [vx vy vz]. apply Rabs_le. lra.
    - unfold vdot, flat; cbn [vx vy vz]. rewrite Rmult_0_l, Rplus_0_r. eapply Rle_trans; [apply Rabs_triang|].
      pose proof (P _ _ _ _ D1 O1). pose proof (P _ _ _ _ D2 O2). lra.
    - unfold vdot, flat; cbn [vx vy vz]. lra.
    - exact SR.
    - unfold vdot, flat; cbn [vx vy vz]. rewrite Rmult_0_l, Rplus_0_r. eapply Rle_trans; [exact EA|lra].
    - unfold vdot, flat; cbn [vx vy vz]. rewrite Rmult_0_l, Rplus_0_r. eapply Rle_trans; [exact EB|lra].
    - unfold vdot, flat; cbn [vx vy vz]. rewrite Rmult_0_l, Rplus_0_r. eapply Rle_trans; [exact ES|lra].
    - unfold w53. pose proof (bpow_gt_0 radix2 (-53)). assert (0 <= X * X) by nra. set (u := bpow radix2 (-53)) in *. replace (800 * (9 / 8 * u)) with (900 * u) by field. lra. }
  apply Rabs_le_inv in E. unfold f_cylinder_line, flat in *. split; intros M; [apply Rltb_false|apply Rltb_true]; lra.
Qed.
Print Assumptions C293_cylinder_partial.

(** a unit direction, 9 000 units away from a sphere of radius 2 *)
Example C293_ex : within (mkV 0 0 (-9000)) (mkV 0 0 1) 2 10000 /\ 2 * EPS <= discriminant (mkV 0 0 (-9000)) (mkV 0 0 1) 2.
Proof.
  split; [|unfold discriminant, vdot, EPS; cbn; lra]. unfold within; cbn [vx vy vz]. repeat split; apply Rabs_le; lra.
Qed.
Example C293_ex_miss : within (mkV 3 0 (-9000)) (mkV 0 0 1) 2 10000
  /\ forall t, 2 * 2 <= vdot (point_at (mkV 3 0 (-9000)) (mkV 0 0 1) t) (point_at (mkV 3 0 (-9000)) (mkV 0 0 1) t).
Proof.
  split; [unfold within; cbn [vx vy vz]; repeat split; apply Rabs_le; lra|]. intros t. unfold point_at, vdot, vadd, vscale, vmap2, vmap; cbn [vx vy vz]. pose proof (Rle_0_sqr (-9000 + t * 1)) as Q. unfold Rsqr in Q. lra.
Qed.

(** numbers with 53 bits and trailing zeros *)
Local Transparent fl.
Lemma fl_eval_up (m k : Z) (x : R) : (0 <= k <= 900)%Z ->
  IZR (2 ^ 52) * IZR (2 ^ k) <= x -> x < IZR (2 ^ 53) * IZR (2 ^ k) -> Rabs (x / IZR (2 ^ k) - IZR m) < / 2 ->
  fl x = IZR m * IZR (2 ^ k).
Proof.
  intros Hk L U N. assert (P : 0 < IZR (2 ^ k)) by (apply IZR_lt; apply Z.pow_pos_nonneg; lia).
  assert (P52 : 0 < IZR (2 ^ 52)) by (apply IZR_lt; reflexivity).
  assert (X0 : 0 < x) by (pose proof (Rmult_lt_0_compat _ _ P52 P); lra).
  assert (M : mag radix2 x = (53 + k)%Z :> Z).
  { apply mag_unique. rewrite Rabs_right by lra. split.
    - replace (53 + k - 1)%Z with (52 + k)%Z by lia. rewrite bpow_plus, !bpow_pow by lia. exact L.
    - rewrite bpow_plus, !bpow_pow by lia. exact U. }
  unfold fl, round, scaled_mantissa, cexp. rewrite M.
  assert (E : fexp64 (53 + k) = k%Z) by (unfold fexp64, FLT_exp; lia). rewrite E, bpow_opp, bpow_pow by lia.
  change (x * / IZR (2 ^ k)) with (x / IZR (2 ^ k)).
  rewrite (Znearest_imp _ _ m) by exact N. unfold F2R; cbn [Fnum Fexp]. rewrite bpow_pow by lia. reflexivity.
Qed.
Local Opaque fl.
Lemma fl_big (k : Z) : (0 <= k <= 900)%Z -> fl (IZR (2 ^ k)) = IZR (2 ^ k).
Proof.
  intros H. apply fl_id. rewrite <- bpow_pow by lia. apply generic_format_bpow. unfold fexp64, FLT_exp. lia.
Qed.
(** from far enough away a ray through the very centre of a sphere of radius 1/2 misses it *)
Theorem C293_far_refuted : exists o d r, F64 (vx o) /\ F64 (vy o) /\ F64 (vz o) /\ vdot d d = 1 /\ r = 1 / 2
  /\ (exists t, 0 < t /\ point_at o d t = mkV 0 0 0) /\ 1 <= discriminant o d r /\ f_sphere_line o d r = false.
Proof.
  exists (mkV 0 0 (- IZR (2 ^ 27))), (mkV 0 0 1), (1 / 2). cbn [vx vy vz].
  split; [apply F64_0|]. split; [apply F64_0|]. split; [apply F64_opp, F64_IZR; lia|].
  split; [unfold vdot; cbn [vx vy vz]; ring|]. split; [reflexivity|].
  split. { exists (IZR (2 ^ 27)). split; [apply IZR_lt; reflexivity|]. unfold point_at, vadd, vscale, vmap2, vmap; cbn [vx vy vz]. f_equal; ring. }
  split. { unfold discriminant, vdot; cbn [vx vy vz]. change (2 ^ 27)%Z with 134217728%Z. lra. }
  unfold f_sphere_line. apply Rltb_false. pose proof eps_bounds as B.
  assert (E : f_disc (mkV 0 0 (- IZR (2 ^ 27))) (mkV 0 0 1) (1 / 2) = 0); [|lra].
  unfold f_disc. cbv zeta. unfold f_sqlen, f_dot; cbn [vx vy vz].
  unfold fadd, fsub, fmul. rewrite !Rmult_0_l, ?Rmult_0_r, !fl_0, !Rplus_0_l, !fl_0, !Rplus_0_l, !Rmult_1_l, !(fl_id 1 F64_1).
  assert (N27 : fl (- IZR (2 ^ 27)) = - IZR (2 ^ 27)) by (rewrite fl_opp, fl_big by lia; reflexivity). rewrite !N27.
  replace (- IZR (2 ^ 27) * - IZR (2 ^ 27)) with (IZR (2 ^ 54)) by (change (2 ^ 54)%Z with (2 ^ 27 * 2 ^ 27)%Z; rewrite mult_IZR; ring).
  rewrite !fl_big by lia. replace (2 * - IZR (2 ^ 27)) with (- IZR (2 ^ 28)) by (change (2 ^ 28)%Z with (2 * 2 ^ 27)%Z; rewrite mult_IZR; ring).
  assert (N28 : fl (- IZR (2 ^ 28)) = - IZR (2 ^ 28)) by (rewrite fl_opp, fl_big by lia; reflexivity). rewrite !N28.
  replace (- IZR (2 ^ 28) * - IZR (2 ^ 28)) with (IZR (2 ^ 56)) by (change (2 ^ 56)%Z with (2 ^ 28 * 2 ^ 28)%Z; rewrite mult_IZR; ring).
  rewrite !(fl_big 56) by lia.
  assert (Q : fl (1 / 2 * (1 / 2)) = 1 / 4). { replace (1 / 2 * (1 / 2)) with (IZR 1 / IZR (2 ^ 2)) by (cbn; lra). rewrite fl_id; [cbn; lra|apply F64_dyadic; lia]. }
  rewrite Q. assert (T : fl (IZR (2 ^ 54) - 1 / 4) = IZR (2 ^ 54)).
  { rewrite (fl_eval_up 9007199254740992 1); [change (2 ^ 54)%Z with (9007199254740992 * 2 ^ 1)%Z; rewrite mult_IZR; reflexivity|lia| | |];
      change (2 ^ 54)%Z with 18014398509481984%Z; change (2 ^ 52)%Z with 4503599627370496%Z; change (2 ^ 53)%Z with 9007199254740992%Z; change (2 ^ 1)%Z with 2%Z; try lra.
    apply Rabs_def1; lra. }
  rewrite T. rewrite Rmult_1_r. assert (F4 : fl 4 = 4) by (apply fl_id, F64_IZR; lia). rewrite F4.
  replace (4 * IZR (2 ^ 54)) with (IZR (2 ^ 56)) by (change (2 ^ 56)%Z with (4 * 2 ^ 54)%Z; rewrite mult_IZR; reflexivity).
  rewrite (fl_big 56) by lia. rewrite Rminus_diag_eq by reflexivity. apply fl_0.
Qed.
Print Assumptions C293_far_refuted.
(** a line which passes beside a thin cylinder is taken to cross it *)
Theorem C293_cylinder_refuted : exists o d r, F64 (vx o) /\ F64 (vy o) /\ F64 r /\ 0 < r /\ vdot d d = 1
  /\ (forall t, let p := point_at o d t in r * r < vx p * vx p + vy p * vy p) /\ f_cylinder_line o d r = true.
Proof.
  exists (mkV 1 (IZR 5 / IZR (2 ^ 29)) 0), (mkV 1 0 0), (IZR 9 / IZR (2 ^ 30)). cbn [vx vy vz].
  split; [apply F64_1|]. split; [apply F64_dyadic; lia|]. split; [apply F64_dyadic; lia|].
  change (2 ^ 29)%Z with 536870912%Z. change (2 ^ 30)%Z with 1073741824%Z. split; [lra|].
  split; [unfold vdot; cbn [vx vy vz]; ring|].
  split. { intros t. cbv zeta. unfold point_at, vadd, vscale, vmap2, vmap; cbn [vx vy vz]. pose proof (Rle_0_sqr (1 + t * 1)) as Q. unfold Rsqr in Q. lra. }
  unfold f_cylinder_line. apply Rltb_true. unfold f_disc2. cbv zeta; cbn [vx vy vz]. unfold fadd, fsub, fmul.
  rewrite ?Rmult_0_l, ?fl_0, ?Rplus_0_r, ?Rmult_1_l, ?Rmult_1_r, ?(fl_id 1 F64_1), ?Rmult_1_r.
  assert (F2 : fl 2 = 2) by (apply fl_id, F64_IZR; lia). assert (F4 : fl 4 = 4) by (apply fl_id, F64_IZR; lia). rewrite ?(fl_id 1 F64_1), ?Rmult_1_r, ?F2, ?Rmult_1_r.
  replace (2 * 2) with 4 by ring. rewrite !F4.
  assert (Y : fl (5 / 536870912 * (5 / 536870912)) = 5 / 536870912 * (5 / 536870912)).
  { apply fl_id. replace (5 / 536870912 * (5 / 536870912)) with (IZR 25 / IZR (2 ^ 58)) by (change (2 ^ 58)%Z with (536870912 * 536870912)%Z; rewrite mult_IZR; field). apply F64_dyadic; lia. }
  assert (K : fl (9 / 1073741824 * (9 / 1073741824)) = 9 / 1073741824 * (9 / 1073741824)).
  { apply fl_id. replace (9 / 1073741824 * (9 / 1073741824)) with (IZR 81 / IZR (2 ^ 60)) by (change (2 ^ 60)%Z with (1073741824 * 1073741824)%Z; rewrite mult_IZR; field). apply F64_dyadic; lia. }
  rewrite Y, K.
  assert (A : fl (1 + 5 / 536870912 * (5 / 536870912)) = 1).
  { rewrite (fl_eval 4503599627370496 52); [change (2 ^ 52)%Z with 4503599627370496%Z; field|lia| | |]; change (2 ^ 52)%Z with 4503599627370496%Z; change (2 ^ 53)%Z with 9007199254740992%Z; try lra. apply Rabs_def1; lra. }
  rewrite A. assert (C : fl (1 - 9 / 1073741824 * (9 / 1073741824)) = 9007199254740991 / 9007199254740992).
  { rewrite (fl_eval 9007199254740991 53); [reflexivity|lia| | |]; change (2 ^ 52)%Z with 4503599627370496%Z; change (2 ^ 53)%Z with 9007199254740992%Z; try lra. apply Rabs_def1; lra. }
  rewrite C. assert (G : fl (4 * (9007199254740991 / 9007199254740992)) = 9007199254740991 / IZR (2 ^ 51)).
  { replace (4 * (9007199254740991 / 9007199254740992)) with (IZR 9007199254740991 / IZR (2 ^ 51)) by (change (2 ^ 51)%Z with 2251799813685248%Z; lra). apply fl_id, F64_dyadic; lia. }
  rewrite G. assert (H : fl (4 - 9007199254740991 / IZR (2 ^ 51)) = IZR 1 / IZR (2 ^ 51)).
  { replace (4 - 9007199254740991 / IZR (2 ^ 51)) with (IZR 1 / IZR (2 ^ 51)) by (change (2 ^ 51)%Z with 2251799813685248%Z; lra). apply fl_id, F64_dyadic; lia. }
  rewrite H. change (2 ^ 51)%Z with 2251799813685248%Z. lra.
Qed.
Print Assumptions C293_cylinder_refuted.
