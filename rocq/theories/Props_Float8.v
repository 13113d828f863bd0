(** Float64 arithmetic, continued: C261 for matrices of whole numbers, projective ones included. *)
From Coq Require Import Reals ZArith List Bool Lra Lia.
From Flocq Require Import Core.
From Verif Require Import Base M_Geometry M_Transform M_Float M_Float2 M_Float4 P_Float Props_Float7.
From Verif Require Props_Float3.
Open Scope R_scope.
Local Opaque fl.

Definition whole_4 (B : Z) (r : V4) : Prop := whole B (q0 r) /\ whole B (q1 r) /\ whole B (q2 r) /\ whole B (q3 r).
Definition whole_m (B : Z) (m : M4) : Prop := whole_4 B (row0 m) /\ whole_4 B (row1 m) /\ whole_4 B (row2 m) /\ whole_4 B (row3 m).
Lemma f_row_whole (r : V4) (p : vec) : whole_4 (2 ^ 24) r -> whole_v (2 ^ 24) p ->
  f_row r p = q0 r * vx p + q1 r * vy p + q2 r * vz p /\ fadd (f_row r p) (q3 r) = q0 r * vx p + q1 r * vy p + q2 r * vz p + q3 r
  /\ whole (2 ^ 50) (q0 r * vx p + q1 r * vy p + q2 r * vz p + q3 r).
Proof.
  intros (R0 & R1 & R2 & R3) (X & Y & Q).
  pose proof (whole_mul _ _ _ _ R0 X) as M1. pose proof (whole_mul _ _ _ _ R1 Y) as M2. pose proof (whole_mul _ _ _ _ R2 Q) as M3.
  pose proof (whole_add _ _ _ _ M1 M2) as M4. pose proof (whole_add _ _ _ _ M4 M3) as M5. pose proof (whole_add _ _ _ _ M5 R3) as M6.
  unfold f_row, fadd, fmul.
  rewrite (whole_F (2 ^ 24 * 2 ^ 24) _ ltac:(lia) M1), (whole_F (2 ^ 24 * 2 ^ 24) _ ltac:(lia) M2), (whole_F (2 ^ 24 * 2 ^ 24) _ ltac:(lia) M3), (whole_F (2 ^ 24 * 2 ^ 24 + 2 ^ 24 * 2 ^ 24) _ ltac:(lia) M4),
    (whole_F (2 ^ 24 * 2 ^ 24 + 2 ^ 24 * 2 ^ 24 + 2 ^ 24 * 2 ^ 24) _ ltac:(lia) M5), (whole_F (2 ^ 24 * 2 ^ 24 + 2 ^ 24 * 2 ^ 24 + 2 ^ 24 * 2 ^ 24 + 2 ^ 24) _ ltac:(lia) M6).
  split; [reflexivity|]. split; [reflexivity|]. eapply whole_le; [|exact M6]. lia.
Qed.
(** A matrix of whole numbers up to 2^24 takes a point with such coordinates to the float64 point nearest to the true image, also when the image
    has to be divided by w, and a vector to its exact image. *)
Theorem C261_whole (t : transform) (p : vec) : whole_m (2 ^ 24) (tm t) -> whole_v (2 ^ 24) p ->
  let q := f_point (tm t) p in let e := t_point t p in
  Props_Float3.nearest_to (vx e) (vx q) /\ Props_Float3.nearest_to (vy e) (vy q) /\ Props_Float3.nearest_to (vz e) (vz q)
  /\ f_vector (tm t) p = t_vector t p.
Proof.
  intros (H0 & H1 & H2 & H3) W. destruct (f_row_whole _ _ H0 W) as (A0 & B0 & C0). destruct (f_row_whole _ _ H1 W) as (A1 & B1 & C1).
  destruct (f_row_whole _ _ H2 W) as (A2 & B2 & C2). destruct (f_row_whole _ _ H3 W) as (_ & B3 & C3).
  assert (N : forall x, Props_Float3.nearest_to x (fl x)). { intros x. split; [apply fl_F64|]. intros g G. now apply fl_nearest. }
  assert (N' : forall x, whole (2 ^ 50) x -> Props_Float3.nearest_to x x). { intros x Wx. rewrite <- (whole_F (2 ^ 50) x ltac:(lia) Wx) at 2. apply N. }
  cbv zeta. unfold f_point, t_point, f_vector, t_vector. cbv zeta. unfold dot4. cbn [q0 q1 q2 q3]. rewrite !Rmult_1_r, !Rmult_0_r, !Rplus_0_r.
  rewrite B0, B1, B2, B3, A0, A1, A2. destruct (ne_unity _); cbn [vx vy vz]; (split; [|split; [|split; [|reflexivity]]]).
  all: unfold fdiv; try apply N; now apply N'.
Qed.
Print Assumptions C261_whole.
(** a projection with w = 4 *)
Example C261_whole_ex : let t := mkT (mkM (mkV4 1 0 0 0) (mkV4 0 1 0 0) (mkV4 0 0 3 (-1)) (mkV4 0 0 2 0)) I4 in
  whole_m (2 ^ 24) (tm t) /\ whole_v (2 ^ 24) (mkV 3 5 2) /\ t_point t (mkV 3 5 2) = mkV (3 / 4) (5 / 4) (5 / 4).
Proof.
  cbv zeta. assert (K : forall z, (Z.abs z <= 2 ^ 24)%Z -> whole (2 ^ 24) (IZR z)) by (intros z H; exists z; now split).
  split; [|split].
  - unfold whole_m, whole_4; cbn [tm row0 row1 row2 row3 q0 q1 q2 q3]. repeat split; apply K; lia.
  - unfold whole_v; cbn [vx vy vz]. repeat split; apply K; lia.
  - unfold t_point, dot4; cbn [tm row0 row1 row2 row3 q0 q1 q2 q3 vx vy vz].
    replace (ne_unity _) with true; [apply V3_eq; cbn [vx vy vz]; lra|]. symmetry. unfold ne_unity. apply orb_true_iff. right. apply Rltb_true. unfold EPS. lra.
Qed.
