(** Property theorems C297: applying and composing transforms in float64 is accurate. *)
From Coq Require Import Reals ZArith List Bool Lra Lia.
From Flocq Require Import Core.
From Verif Require Import Base M_Geometry S_Geometry M_Transform S_Transform M_Float M_Float2 M_Float5 P_Float P_Transform P_Transform2 Props_Transform.
Open Scope R_scope.
Local Opaque fl.

Definition u53 : R := bpow radix2 (-53).
Definition tiny : R := bpow radix2 (-1075).
Lemma u53_range : 0 < u53 <= / 1000000.
Proof. unfold u53. split; [apply bpow_gt_0|]. change (bpow radix2 (-53)) with (/ IZR 9007199254740992). lra. Qed.
Lemma tiny_pos : 0 < tiny. Proof. apply bpow_gt_0. Qed.
(** the exact value [x], the sizes of whose terms add up to [P], has been computed as [X] *)
Definition near (j t : R) (X x P : R) : Prop := Rabs x <= P /\ Rabs (X - x) <= j * (u53 * P) + t * tiny.
Lemma near_fl j t X x P : 0 <= j <= 100 -> 0 <= t <= 100 -> near j t X x P -> near (j + 1 + / 1000) (t + 1 + / 1000) (fl X) x P.
Proof.
  intros J T0 [B D]. split; [exact B|]. pose proof (fl_dist X) as F. fold u53 tiny in F. pose proof u53_range as U. pose proof tiny_pos as T.
  assert (P0 : 0 <= P) by (pose proof (Rabs_pos x); lra).
  set (w := u53 * P) in *. assert (W : 0 <= w) by (unfold w; apply Rmult_le_pos; lra).
  assert (XB : Rabs X <= P + (j * w + t * tiny)). { replace X with (x + (X - x)) by ring. eapply Rle_trans; [apply Rabs_triang|]. lra. }
  assert (F2 : Rabs (fl X - x) <= Rabs (fl X - X) + Rabs (X - x)). { replace (fl X - x) with ((fl X - X) + (X - x)) by ring. apply Rabs_triang. }
  assert (K : u53 * Rabs X <= w + / 1000 * w + / 1000 * tiny).
  { apply Rle_trans with (u53 * (P + (j * w + t * tiny))); [apply Rmult_le_compat_l; lra|].
    assert (A1 : u53 * j <= / 1000) by (apply Rle_trans with (/ 1000000 * 100); [apply Rmult_le_compat; lra|lra]).
    assert (A2 : u53 * t <= / 1000) by (apply Rle_trans with (/ 1000000 * 100); [apply Rmult_le_compat; lra|lra]).
    assert (u53 * j * w <= / 1000 * w) by (apply Rmult_le_compat_r; assumption). assert (u53 * t * tiny <= / 1000 * tiny) by (apply Rmult_le_compat_r; lra).
    replace (u53 * (P + (j * w + t * tiny))) with (w + u53 * j * w + u53 * t * tiny) by (unfold w; ring). lra. }
  lra.
Qed.
Lemma near_more j t j' t' X x P : near j t X x P -> j <= j' -> t <= t' -> near j' t' X x P.
Proof.
  intros [B D] J T0. split; [exact B|]. pose proof u53_range as U. pose proof tiny_pos as T. assert (P0 : 0 <= P) by (pose proof (Rabs_pos x); lra).
  assert (W : 0 <= u53 * P) by (apply Rmult_le_pos; lra). assert (j * (u53 * P) <= j' * (u53 * P)) by (apply Rmult_le_compat_r; lra).
  assert (t * tiny <= t' * tiny) by (apply Rmult_le_compat_r; lra). lra.
Qed.
Lemma near_add j t X x P s Y y Q : near j t X x P -> near j s Y y Q -> near j (t + s) (X + Y) (x + y) (P + Q).
Proof.
  intros [A B] [C D]. split.
  - eapply Rle_trans; [apply Rabs_triang|]. lra.
  - replace (X + Y - (x + y)) with ((X - x) + (Y - y)) by ring. eapply Rle_trans; [apply Rabs_triang|]. lra.
Qed.
Lemma near_0 x : near 0 0 x x (Rabs x).
Proof. split; [lra|]. rewrite Rminus_diag_eq, Rabs_R0 by reflexivity. lra. Qed.
Lemma near_mul a b : near (1 + /1000) (1 + /1000) (fmul a b) (a * b) (Rabs a * Rabs b).
Proof. unfold fmul. rewrite <- Rabs_mult. eapply near_more; [apply (near_fl 0 0); [lra|lra|apply near_0]|lra|lra]. Qed.

Definition row_exact (r : V4) (p : vec) : R := q0 r * vx p + q1 r * vy p + q2 r * vz p.
Definition row_size (r : V4) (p : vec) : R := Rabs (q0 r) * Rabs (vx p) + Rabs (q1 r) * Rabs (vy p) + Rabs (q2 r) * Rabs (vz p).
Lemma near_row r p : near 3.01 6 (f_row r p) (row_exact r p) (row_size r p).
Proof.
  unfold f_row, fadd at 1 2. pose proof (near_add _ _ _ _ _ _ _ _ _ (near_mul (q0 r) (vx p)) (near_mul (q1 r) (vy p))) as A.
  apply near_fl in A; [|lra|lra].
  assert (C : near (1 + / 1000 + 1 + / 1000) (1 + / 1000) (fmul (q2 r) (vz p)) (q2 r * vz p) (Rabs (q2 r) * Rabs (vz p))) by (eapply near_more; [apply near_mul|lra|lra]).
  pose proof (near_add _ _ _ _ _ _ _ _ _ A C) as D. apply near_fl in D; [|lra|lra]. unfold row_exact, row_size. eapply near_more; [exact D|lra|lra].
Qed.
Lemma near_point_row r p : near 4.02 8 (fadd (f_row r p) (q3 r)) (row_exact r p + q3 r) (row_size r p + Rabs (q3 r)).
Proof.
  unfold fadd. assert (C : near 3.01 0 (q3 r) (q3 r) (Rabs (q3 r))) by (eapply near_more; [apply near_0|lra|lra]).
  pose proof (near_add _ _ _ _ _ _ _ _ _ (near_row r p) C) as D. apply near_fl in D; [|lra|lra]. eapply near_more; [exact D|lra|lra].
Qed.
Lemma near_dot4 u v : near 4.02 9 (f_dot4 u v) (dot4 u v) (Rabs (q0 u) * Rabs (q0 v) + Rabs (q1 u) * Rabs (q1 v) + Rabs (q2 u) * Rabs (q2 v) + Rabs (q3 u) * Rabs (q3 v)).
Proof.
  unfold f_dot4, fadd. pose proof (near_add _ _ _ _ _ _ _ _ _ (near_mul (q0 u) (q0 v)) (near_mul (q1 u) (q1 v))) as A.
  apply near_fl in A; [|lra|lra].
  assert (C : near (1 + / 1000 + 1 + / 1000) (1 + / 1000) (fmul (q2 u) (q2 v)) (q2 u * q2 v) (Rabs (q2 u) * Rabs (q2 v))) by (eapply near_more; [apply near_mul|lra|lra]).
  pose proof (near_add _ _ _ _ _ _ _ _ _ A C) as D. apply near_fl in D; [|lra|lra].
  assert (E : near (1 + / 1000 + 1 + / 1000 + 1 + / 1000) (1 + / 1000) (fmul (q3 u) (q3 v)) (q3 u * q3 v) (Rabs (q3 u) * Rabs (q3 v))) by (eapply near_more; [apply near_mul|lra|lra]).
  pose proof (near_add _ _ _ _ _ _ _ _ _ D E) as G. apply near_fl in G; [|lra|lra]. unfold dot4. eapply near_more; [exact G|lra|lra].
Qed.

(** ** Statements *)
(** the computed [X] differs from [x] by at most [k] units of 2^-53 times [P] (and less than 2^-1070, which covers underflow) *)
Definition accurate (k : R) (X x P : R) : Prop := Rabs (X - x) <= k * bpow radix2 (-53) * P + bpow radix2 (-1070).
Definition size3 (a b c : R) (p : vec) : R := Rabs a * Rabs (vx p) + Rabs b * Rabs (vy p) + Rabs c * Rabs (vz p).
Lemma tiny_1070 : bpow radix2 (-1070) = 32 * tiny.
Proof. unfold tiny. change (-1070)%Z with (5 + -1075)%Z. rewrite bpow_plus. change (bpow radix2 5) with 32. ring. Qed.
Lemma near_accurate j t k X x P : near j t X x P -> j <= k -> t <= 32 -> accurate k X x P.
Proof.
  intros N J T. apply (near_more _ _ k 32) in N; [|exact J|exact T]. destruct N as [_ D]. unfold accurate. rewrite tiny_1070. fold u53. lra.
Qed.
Lemma affine_w m p : affine m -> fadd (f_row (row3 m) p) (q3 (row3 m)) = 1 /\ dot4 (row3 m) (mkV4 (vx p) (vy p) (vz p) 1) = 1.
Proof.
  unfold affine. intros ->. unfold f_row, fadd, fmul, dot4; cbn [q0 q1 q2 q3]. repeat first [rewrite Rmult_0_l | rewrite Rplus_0_l | rewrite fl_0].
  split; [apply fl_id, F64_1|ring].
Qed.
Lemma ne_unity_one : ne_unity 1 = false.
Proof. unfold ne_unity, EPS. apply orb_false_iff. split; apply Rltb_false; lra. Qed.
Lemma f_point_rows m p : affine m -> f_point m p = mkV (fadd (f_row (row0 m) p) (q3 (row0 m))) (fadd (f_row (row1 m) p) (q3 (row1 m))) (fadd (f_row (row2 m) p) (q3 (row2 m))).
Proof. intros H. unfold f_point. cbv zeta. destruct (affine_w m p H) as [-> _]. now rewrite ne_unity_one. Qed.
Lemma t_point_rows t p : affine (tm t) -> t_point t p = mkV (row_exact (row0 (tm t)) p + q3 (row0 (tm t))) (row_exact (row1 (tm t)) p + q3 (row1 (tm t))) (row_exact (row2 (tm t)) p + q3 (row2 (tm t))).
Proof.
  intros H. unfold t_point. cbv zeta. destruct (affine_w (tm t) p H) as [_ ->]. rewrite ne_unity_one. unfold dot4, row_exact; cbn [q0 q1 q2 q3]. apply V3_eq; cbn [vx vy vz]; ring.
Qed.

(** Points (under an affine transform), vectors and normals: each coordinate is off by at most 5 (or 4) units of 2^-53 of the sum of the sizes of
    its terms. *)
Theorem C297_point (t : transform) (p : vec) : affine (tm t) ->
  let m := tm t in let q := f_point m p in let e := t_point t p in
  accurate 5 (vx q) (vx e) (size3 (q0 (row0 m)) (q1 (row0 m)) (q2 (row0 m)) p + Rabs (q3 (row0 m))) /\
  accurate 5 (vy q) (vy e) (size3 (q0 (row1 m)) (q1 (row1 m)) (q2 (row1 m)) p + Rabs (q3 (row1 m))) /\
  accurate 5 (vz q) (vz e) (size3 (q0 (row2 m)) (q1 (row2 m)) (q2 (row2 m)) p + Rabs (q3 (row2 m))).
Proof.
  intros A m q e. unfold q, e, m. rewrite f_point_rows, t_point_rows by exact A. cbn [vx vy vz].
  repeat split; (eapply near_accurate; [apply near_point_row|lra|lra]).
Qed.
Print Assumptions C297_point.
Lemma vector_rows t v : t_vector t v = mkV (row_exact (row0 (tm t)) v) (row_exact (row1 (tm t)) v) (row_exact (row2 (tm t)) v).
Proof. unfold t_vector, dot4, row_exact; cbn [q0 q1 q2 q3]. apply V3_eq; cbn [vx vy vz]; ring. Qed.
Theorem C297_vector (t : transform) (v : vec) :
  let m := tm t in let q := f_vector m v in let e := t_vector t v in
  accurate 4 (vx q) (vx e) (size3 (q0 (row0 m)) (q1 (row0 m)) (q2 (row0 m)) v) /\
  accurate 4 (vy q) (vy e) (size3 (q0 (row1 m)) (q1 (row1 m)) (q2 (row1 m)) v) /\
  accurate 4 (vz q) (vz e) (size3 (q0 (row2 m)) (q1 (row2 m)) (q2 (row2 m)) v).
Proof.
  intros m q e. unfold q, e, m. rewrite vector_rows. unfold f_vector. cbn [vx vy vz].
  repeat split; (eapply near_accurate; [apply near_row|lra|lra]).
Qed.
Print Assumptions C297_vector.
Theorem C297_normal (t : transform) (n : vec) :
  let i := tinv t in let q := f_normal i n in let e := t_normal t n in
  accurate 4 (vx q) (vx e) (size3 (q0 (row0 i)) (q0 (row1 i)) (q0 (row2 i)) n) /\
  accurate 4 (vy q) (vy e) (size3 (q1 (row0 i)) (q1 (row1 i)) (q1 (row2 i)) n) /\
  accurate 4 (vz q) (vz e) (size3 (q2 (row0 i)) (q2 (row1 i)) (q2 (row2 i)) n).
Proof.
  intros i q e. unfold q, e, i. assert (E : t_normal t n = mkV (row_exact (col0 (tinv t)) n) (row_exact (col1 (tinv t)) n) (row_exact (col2 (tinv t)) n)).
  { unfold t_normal, dot4, row_exact; cbn [q0 q1 q2 q3]. apply V3_eq; cbn [vx vy vz]; ring. }
  rewrite E. unfold f_normal. cbn [vx vy vz].
  split; [|split]; (eapply near_accurate; [apply near_row|lra|lra]).
Qed.
Print Assumptions C297_normal.
(** Products of transforms: the same for every entry of both matrices. *)
Definition entry (m : M4) (i j : nat) : R := mget m i j.
Theorem C297_product (a b : transform) (i j : nat) : (i < 4)%nat -> (j < 4)%nat ->
  let s := fun x y : M4 => Rabs (entry x i 0) * Rabs (entry y 0 j) + Rabs (entry x i 1) * Rabs (entry y 1 j) + Rabs (entry x i 2) * Rabs (entry y 2 j)
    + Rabs (entry x i 3) * Rabs (entry y 3 j) in
  accurate 5 (entry (f_mmul (tm a) (tm b)) i j) (entry (tm (t_mul a b)) i j) (s (tm a) (tm b)) /\
  accurate 5 (entry (f_mmul (tinv b) (tinv a)) i j) (entry (tinv (t_mul a b)) i j) (s (tinv b) (tinv a)).
Proof.
  intros I J s. unfold t_mul; cbn [tm tinv].
  assert (G : forall x y : M4, accurate 5 (entry (f_mmul x y) i j) (entry (mmul x y) i j) (s x y)).
  { intros x y. unfold s. destruct i as [|[|[|[|]]]]; try lia; destruct j as [|[|[|[|]]]]; try lia;
      unfold entry, mget, f_mmul, mmul; cbn [vnth4 row0 row1 row2 row3 q0 q1 q2 q3];
      match goal with |- accurate _ (f_dot4 ?u ?v) _ _ => exact (near_accurate _ _ 5 _ _ _ (near_dot4 u v) ltac:(lra) ltac:(lra)) end. }
  split; apply G.
Qed.
Print Assumptions C297_product.
(** An affine transform followed by its inverse: how far the point comes back from where it was. *)
Definition round_trip_size (m i : M4) (p : vec) (ri : V4) : R :=
  let q := mkV (size3 (q0 (row0 m)) (q1 (row0 m)) (q2 (row0 m)) p + Rabs (q3 (row0 m)))
               (size3 (q0 (row1 m)) (q1 (row1 m)) (q2 (row1 m)) p + Rabs (q3 (row1 m)))
               (size3 (q0 (row2 m)) (q1 (row2 m)) (q2 (row2 m)) p + Rabs (q3 (row2 m))) in
  size3 (q0 ri) (q1 ri) (q2 ri) q + Rabs (q3 ri).
Lemma second_pass (r : V4) (Q q S : vec) : 
  Rabs (vx q) <= vx S -> Rabs (vy q) <= vy S -> Rabs (vz q) <= vz S ->
  accurate 5 (vx Q) (vx q) (vx S) -> accurate 5 (vy Q) (vy q) (vy S) -> accurate 5 (vz Q) (vz q) (vz S) ->
  Rabs (fadd (f_row r Q) (q3 r) - (row_exact r q + q3 r)) <=
    11 * bpow radix2 (-53) * (size3 (q0 r) (q1 r) (q2 r) S + Rabs (q3 r)) + 2 * (1 + Rabs (q0 r) + Rabs (q1 r) + Rabs (q2 r)) * bpow radix2 (-1070).
Proof.
  intros B1 B2 B3 A1 A2 A3. destruct (near_point_row r Q) as [_ N]. unfold accurate in *. rewrite tiny_1070 in *. fold u53 in *.
  pose proof u53_range as U. pose proof tiny_pos as T. pose proof (Rabs_pos (q0 r)) as R0. pose proof (Rabs_pos (q1 r)) as R1. pose proof (Rabs_pos (q2 r)) as R2. pose proof (Rabs_pos (q3 r)) as R3.
  pose proof (Rabs_pos (vx q)) as P1. pose proof (Rabs_pos (vy q)) as P2. pose proof (Rabs_pos (vz q)) as P3.
  assert (Z : forall X x s, Rabs x <= s -> Rabs (X - x) <= 5 * u53 * s + 32 * tiny -> Rabs X <= s + (5 * u53 * s + 32 * tiny)).
  { intros X x s Hx HX. replace X with (x + (X - x)) by ring. eapply Rle_trans; [apply Rabs_triang|]. lra. }
  pose proof (Z _ _ _ B1 A1) as C1. pose proof (Z _ _ _ B2 A2) as C2. pose proof (Z _ _ _ B3 A3) as C3. clear Z.
  set (e1 := 5 * u53 * vx S + 32 * tiny) in *. set (e2 := 5 * u53 * vy S + 32 * tiny) in *. set (e3 := 5 * u53 * vz S + 32 * tiny) in *.
  set (W := Rabs (q0 r) * vx S + Rabs (q1 r) * vy S + Rabs (q2 r) * vz S).
  set (E := Rabs (q0 r) * e1 + Rabs (q1 r) * e2 + Rabs (q2 r) * e3).
  assert (D : Rabs (row_exact r Q - row_exact r q) <= E).
  { unfold row_exact. replace (q0 r * vx Q + q1 r * vy Q + q2 r * vz Q - (q0 r * vx q + q1 r * vy q + q2 r * vz q)) with
      (q0 r * (vx Q - vx q) + q1 r * (vy Q - vy q) + q2 r * (vz Q - vz q)) by ring.
    eapply Rle_trans; [apply Rabs_triang|]. eapply Rle_trans; [apply Rplus_le_compat_r, Rabs_triang|]. rewrite !Rabs_mult. unfold E.
    repeat apply Rplus_le_compat; apply Rmult_le_compat_l; assumption. }
  assert (RS : row_size r Q <= W + E).
  { unfold row_size, W, E. assert (Rabs (q0 r) * Rabs (vx Q) <= Rabs (q0 r) * (vx S + e1)) by (apply Rmult_le_compat_l; assumption).
    assert (Rabs (q1 r) * Rabs (vy Q) <= Rabs (q1 r) * (vy S + e2)) by (apply Rmult_le_compat_l; assumption).
    assert (Rabs (q2 r) * Rabs (vz Q) <= Rabs (q2 r) * (vz S + e3)) by (apply Rmult_le_compat_l; assumption). lra. }
  assert (EV : E = 5 * (u53 * W) + 32 * (Rabs (q0 r) + Rabs (q1 r) + Rabs (q2 r)) * tiny) by (unfold E, e1, e2, e3, W; ring).
  assert (W0 : 0 <= W). { unfold W. repeat apply Rplus_le_le_0_compat; apply Rmult_le_pos; lra. }
  assert (UW : 0 <= u53 * W) by (apply Rmult_le_pos; lra). assert (U3 : 0 <= u53 * Rabs (q3 r)) by (apply Rmult_le_pos; lra).
  set (k := Rabs (q0 r) + Rabs (q1 r) + Rabs (q2 r)) in *. assert (K0 : 0 <= k) by (unfold k; lra). assert (KT : 0 <= k * tiny) by (apply Rmult_le_pos; lra).
  assert (UE : u53 * E <= / 1000 * E) by (apply Rmult_le_compat_r; [rewrite EV; lra|lra]).
  assert (UR : u53 * (row_size r Q + Rabs (q3 r)) <= u53 * W + u53 * E + u53 * Rabs (q3 r)).
  { replace (u53 * W + u53 * E + u53 * Rabs (q3 r)) with (u53 * (W + E + Rabs (q3 r))) by ring. apply Rmult_le_compat_l; lra. }
  assert (TR : Rabs (fadd (f_row r Q) (q3 r) - (row_exact r q + q3 r)) <= Rabs (fadd (f_row r Q) (q3 r) - (row_exact r Q + q3 r)) + Rabs (row_exact r Q - row_exact r q)).
  { replace (fadd (f_row r Q) (q3 r) - (row_exact r q + q3 r)) with ((fadd (f_row r Q) (q3 r) - (row_exact r Q + q3 r)) + (row_exact r Q - row_exact r q)) by ring. apply Rabs_triang. }
  unfold size3. change (Rabs (q0 r) * Rabs (vx S) + Rabs (q1 r) * Rabs (vy S) + Rabs (q2 r) * Rabs (vz S)) with (Rabs (q0 r) * Rabs (vx S) + Rabs (q1 r) * Rabs (vy S) + Rabs (q2 r) * Rabs (vz S)).
  rewrite (Rabs_pos_eq (vx S)), (Rabs_pos_eq (vy S)), (Rabs_pos_eq (vz S)) by lra. fold W. replace (1 + Rabs (q0 r) + Rabs (q1 r) + Rabs (q2 r)) with (1 + k) by (unfold k; ring).
  replace (11 * u53 * (W + Rabs (q3 r)) + 2 * (1 + k) * (32 * tiny)) with (11 * (u53 * W) + 11 * (u53 * Rabs (q3 r)) + 64 * tiny + 64 * (k * tiny)) by ring.
  rewrite EV in *. lra.
Qed.
Lemma round_trip_close (t : transform) (p : vec) : affine (tm t) -> affine (tinv t) -> t_point (t_inverse t) (t_point t p) = p ->
  let m := tm t in let i := tinv t in let r := f_point i (f_point m p) in
  let close := fun X x ri => Rabs (X - x) <= 11 * bpow radix2 (-53) * round_trip_size m i p ri + 2 * (1 + Rabs (q0 ri) + Rabs (q1 ri) + Rabs (q2 ri)) * bpow radix2 (-1070) in
  close (vx r) (vx p) (row0 i) /\ close (vy r) (vy p) (row1 i) /\ close (vz r) (vz p) (row2 i).
Proof.
  intros A B RT m i r close. set (Q := f_point m p) in *. set (q := t_point t p) in *.
  assert (EP : p = mkV (row_exact (row0 i) q + q3 (row0 i)) (row_exact (row1 i) q + q3 (row1 i)) (row_exact (row2 i) q + q3 (row2 i))).
  { rewrite <- RT at 1. rewrite t_point_rows by exact B. reflexivity. }
  pose proof (C297_point t p A) as (A1 & A2 & A3). fold m q in A1, A2, A3. fold Q in A1, A2, A3.
  assert (SZ : forall rr, Rabs (row_exact rr p + q3 rr) <= size3 (q0 rr) (q1 rr) (q2 rr) p + Rabs (q3 rr)) by (intros rr; apply (near_point_row rr p)).
  assert (QE : q = mkV (row_exact (row0 m) p + q3 (row0 m)) (row_exact (row1 m) p + q3 (row1 m)) (row_exact (row2 m) p + q3 (row2 m))) by (apply t_point_rows; exact A).
  set (S := mkV (size3 (q0 (row0 m)) (q1 (row0 m)) (q2 (row0 m)) p + Rabs (q3 (row0 m))) (size3 (q0 (row1 m)) (q1 (row1 m)) (q2 (row1 m)) p + Rabs (q3 (row1 m)))
               (size3 (q0 (row2 m)) (q1 (row2 m)) (q2 (row2 m)) p + Rabs (q3 (row2 m)))).
  assert (B1 : Rabs (vx q) <= vx S) by (rewrite QE; apply SZ). assert (B2 : Rabs (vy q) <= vy S) by (rewrite QE; apply SZ). assert (B3 : Rabs (vz q) <= vz S) by (rewrite QE; apply SZ).
  pose proof (fun rr => second_pass rr Q q S B1 B2 B3 A1 A2 A3) as SP.
  assert (RE : r = mkV (fadd (f_row (row0 i) Q) (q3 (row0 i))) (fadd (f_row (row1 i) Q) (q3 (row1 i))) (fadd (f_row (row2 i) Q) (q3 (row2 i)))) by (apply f_point_rows; exact B).
  unfold close. rewrite RE. cbn [vx vy vz].
  assert (E1 : vx p = row_exact (row0 i) q + q3 (row0 i)) by (rewrite EP at 1; reflexivity).
  assert (E2 : vy p = row_exact (row1 i) q + q3 (row1 i)) by (rewrite EP at 1; reflexivity).
  assert (E3 : vz p = row_exact (row2 i) q + q3 (row2 i)) by (rewrite EP at 1; reflexivity).
  rewrite E1, E2, E3. split; [exact (SP (row0 i))|]. split; [exact (SP (row1 i))|exact (SP (row2 i))].
Qed.
(** A transform made by the constructors, products and inverses, followed by its inverse. *)
Theorem C297_round_trip (t : transform) (p : vec) : built t ->
  let m := tm t in let i := tinv t in let r := f_point i (f_point m p) in
  let close := fun X x ri => Rabs (X - x) <= 11 * bpow radix2 (-53) * round_trip_size m i p ri + 2 * (1 + Rabs (q0 ri) + Rabs (q1 ri) + Rabs (q2 ri)) * bpow radix2 (-1070) in
  close (vx r) (vx p) (row0 i) /\ close (vy r) (vy p) (row1 i) /\ close (vz r) (vz p) (row2 i).
Proof.
  intros B. destruct (built_valid t B) as (A1 & A2 & _). apply round_trip_close; [exact A1|exact A2|].
  exact (proj1 (C12_round_trip t B) p).
Qed.
Print Assumptions C297_round_trip.
(** A scaling by 1000 about the origin and back moves the point (1,1,1) by less than 2^-49. *)
Example C297_ex : let t := t_scale 1000 1000 1000 in built t /\ let i := tinv t in
  11 * bpow radix2 (-53) * round_trip_size (tm t) i (mkV 1 1 1) (row0 i) + 2 * (1 + Rabs (q0 (row0 i)) + Rabs (q1 (row0 i)) + Rabs (q2 (row0 i))) * bpow radix2 (-1070) <= bpow radix2 (-49).
Proof.
  intros t. split; [constructor; lra|]. intros i. unfold round_trip_size, size3, i, t, t_scale; cbn [tm tinv row0 row1 row2 q0 q1 q2 q3 vx vy vz].
  rewrite !Rabs_R0, !Rabs_R1. rewrite (Rabs_pos_eq 1000) by lra. rewrite (Rabs_pos_eq (1 / 1000)) by lra.
  rewrite !(Rabs_pos_eq (1000 * 1 + 0 * 1 + 0 * 1 + 0)) by lra.
  assert (T : bpow radix2 (-1070) <= bpow radix2 (-53)) by (apply bpow_le; lia). pose proof (bpow_gt_0 radix2 (-1070)).
  change (-49)%Z with (4 + -53)%Z. rewrite bpow_plus. change (bpow radix2 4) with 16. pose proof (bpow_gt_0 radix2 (-53)). 
  match goal with |- 11 * ?b * ?a + 2 * ?c * ?d <= _ => replace a with 1 by field end. lra.
Qed.
