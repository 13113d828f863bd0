(** Property theorems C298: points along transformed rays in float64. *)
From Coq Require Import Reals ZArith List Bool Lra Lia.
From Flocq Require Import Core.
From Verif Require Import Base M_Geometry S_Geometry M_Transform S_Transform M_Float M_Float2 M_Float5 M_Float6 P_Float P_Transform P_Transform2 Props_Transform Props_Float9.
Open Scope R_scope.
Local Opaque fl.

(** as [near], with the underflow part of any size *)
Definition nearE (j e : R) (X x P : R) : Prop := Rabs x <= P /\ Rabs (X - x) <= j * (u53 * P) + e.
Lemma nearE_fl j e X x P : 0 <= j <= 100 -> 0 <= e -> nearE j e X x P -> nearE (j + 1 + / 1000) (e + / 1000 * e + tiny) (fl X) x P.
Proof.
  intros J E0 [B D]. split; [exact B|]. pose proof (fl_dist X) as F. fold u53 tiny in F. pose proof u53_range as U. pose proof tiny_pos as T.
  assert (P0 : 0 <= P) by (pose proof (Rabs_pos x); lra).
  set (w := u53 * P) in *. assert (W : 0 <= w) by (unfold w; apply Rmult_le_pos; lra).
  assert (XB : Rabs X <= P + (j * w + e)). { replace X with (x + (X - x)) by ring. eapply Rle_trans; [apply Rabs_triang|]. lra. }
  assert (F2 : Rabs (fl X - x) <= Rabs (fl X - X) + Rabs (X - x)). { replace (fl X - x) with ((fl X - X) + (X - x)) by ring. apply Rabs_triang. }
  assert (K : u53 * Rabs X <= w + / 1000 * w + / 1000 * e).
  { apply Rle_trans with (u53 * (P + (j * w + e))); [apply Rmult_le_compat_l; lra|].
    assert (A1 : u53 * j <= / 1000) by (apply Rle_trans with (/ 1000000 * 100); [apply Rmult_le_compat; lra|lra]).
    assert (u53 * j * w <= / 1000 * w) by (apply Rmult_le_compat_r; assumption). assert (u53 * e <= / 1000 * e) by (apply Rmult_le_compat_r; lra).
    replace (u53 * (P + (j * w + e))) with (w + u53 * j * w + u53 * e) by (unfold w; ring). lra. }
  lra.
Qed.
Lemma nearE_more j e j' e' X x P : nearE j e X x P -> j <= j' -> e <= e' -> nearE j' e' X x P.
Proof.
  intros [B D] J E. split; [exact B|]. pose proof u53_range as U. assert (P0 : 0 <= P) by (pose proof (Rabs_pos x); lra).
  assert (W : 0 <= u53 * P) by (apply Rmult_le_pos; lra). assert (j * (u53 * P) <= j' * (u53 * P)) by (apply Rmult_le_compat_r; lra). lra.
Qed.
Lemma nearE_add j e X x P f Y y Q : nearE j e X x P -> nearE j f Y y Q -> nearE j (e + f) (X + Y) (x + y) (P + Q).
Proof.
  intros [A B] [C D]. split.
  - eapply Rle_trans; [apply Rabs_triang|]. lra.
  - replace (X + Y - (x + y)) with ((X - x) + (Y - y)) by ring. eapply Rle_trans; [apply Rabs_triang|]. lra.
Qed.
Lemma nearE_scale j e X x P t : nearE j e X x P -> nearE j (Rabs t * e) (X * t) (x * t) (P * Rabs t).
Proof.
  intros [A B]. pose proof (Rabs_pos t) as T. split.
  - rewrite Rabs_mult. apply Rmult_le_compat_r; assumption.
  - replace (X * t - x * t) with ((X - x) * t) by ring. rewrite Rabs_mult.
    replace (j * (u53 * (P * Rabs t)) + Rabs t * e) with ((j * (u53 * P) + e) * Rabs t) by ring. apply Rmult_le_compat_r; assumption.
Qed.
Lemma near_nearE j t X x P : near j t X x P -> nearE j (t * tiny) X x P.
Proof. intros H. exact H. Qed.
Lemma nearE_0 x : nearE 0 0 x x (Rabs x).
Proof. split; [lra|]. rewrite Rminus_diag_eq, Rabs_R0 by reflexivity. lra. Qed.

(** one coordinate of the point along a ray whose origin and direction were computed *)
Lemma along j s (A a P D d Q t : R) : 0 <= j <= 20 -> 0 <= s <= 20 -> near j s A a P -> near j s D d Q ->
  Rabs (fadd A (fmul D t) - (a + d * t)) <= (j + 3) * u53 * (P + Q * Rabs t) + 32 * (1 + Rabs t) * tiny.
Proof.
  intros J Z NA ND. pose proof tiny_pos as T. pose proof u53_range as U. pose proof (Rabs_pos t) as T0. pose proof (Rabs_pos a) as A0. pose proof (Rabs_pos d) as D0.
  pose proof (nearE_scale _ _ _ _ _ t (near_nearE _ _ _ _ _ ND)) as M. apply nearE_fl in M; [|lra|repeat apply Rmult_le_pos; lra].
  fold (fmul D t) in M.
  pose proof (nearE_more _ _ (j + 1 + / 1000) (s * tiny) _ _ _ (near_nearE _ _ _ _ _ NA) ltac:(lra) ltac:(lra)) as N.
  pose proof (nearE_add _ _ _ _ _ _ _ _ _ N M) as G. set (st := s * tiny) in *.
  assert (ST : 0 <= st <= 20 * tiny) by (unfold st; split; [apply Rmult_le_pos; lra|apply Rmult_le_compat_r; lra]).
  assert (SR : 0 <= Rabs t * st <= 20 * (Rabs t * tiny)).
  { split; [apply Rmult_le_pos; lra|]. replace (20 * (Rabs t * tiny)) with (Rabs t * (20 * tiny)) by ring. apply Rmult_le_compat_l; lra. }
  apply nearE_fl in G; [|lra|lra]. fold (fadd A (fmul D t)) in G. destruct G as [_ G]. eapply Rle_trans; [exact G|].
  destruct NA as [PA _]. destruct ND as [PD _].
  assert (PQ : 0 <= P + Q * Rabs t) by (apply Rplus_le_le_0_compat; [lra|apply Rmult_le_pos; lra]).
  assert (W : 0 <= u53 * (P + Q * Rabs t)) by (apply Rmult_le_pos; lra). set (w := u53 * (P + Q * Rabs t)) in *.
  replace ((j + 3) * u53 * (P + Q * Rabs t)) with ((j + 3) * w) by (unfold w; ring).
  assert (H1 : (j + 1 + / 1000 + 1 + / 1000) * w <= (j + 3) * w) by (apply Rmult_le_compat_r; lra).
  assert (TT : 0 <= Rabs t * tiny) by (apply Rmult_le_pos; lra).
  replace (32 * (1 + Rabs t) * tiny) with (32 * tiny + 32 * (Rabs t * tiny)) by ring. lra.
Qed.
Lemma along_exact (a d t : R) : Rabs (fadd a (fmul d t) - (a + d * t)) <= 3 * u53 * (Rabs a + Rabs d * Rabs t) + 3 * tiny.
Proof.
  pose proof tiny_pos as T. pose proof u53_range as U.
  pose proof (near_more _ _ (1 + / 1000) 0 _ _ _ (near_0 a) ltac:(lra) ltac:(lra)) as N.
  pose proof (near_add _ _ _ _ _ _ _ _ _ N (near_mul d t)) as G. apply near_fl in G; [|lra|lra]. fold (fadd a (fmul d t)) in G.
  destruct (near_more _ _ 3 3 _ _ _ G ltac:(lra) ltac:(lra)) as [_ H]. lra.
Qed.

(** ** Statements *)
(** The point at parameter t of a ray. *)
Theorem C298_point (r : ray) (t : R) : let p := f_ray_at (ro r) (rd r) t in let e := ray_at r t in
  accurate 3 (vx p) (vx e) (Rabs (vx (ro r)) + Rabs (vx (rd r)) * Rabs t) /\
  accurate 3 (vy p) (vy e) (Rabs (vy (ro r)) + Rabs (vy (rd r)) * Rabs t) /\
  accurate 3 (vz p) (vz e) (Rabs (vz (ro r)) + Rabs (vz (rd r)) * Rabs t).
Proof.
  intros p e. unfold p, e, f_ray_at, ray_at, vadd, vscale, vmap, vmap2, accurate; cbn [vx vy vz]. pose proof tiny_pos as T. rewrite tiny_1070. fold u53.
  rewrite !(Rmult_comm t). repeat split; (eapply Rle_trans; [apply along_exact|lra]).
Qed.
Print Assumptions C298_point.
(** the size of the terms of a coordinate of the transformed point at parameter t *)
Definition ray_size (row : V4) (o d : vec) (t : R) : R := size3 (q0 row) (q1 row) (q2 row) o + Rabs (q3 row) + size3 (q0 row) (q1 row) (q2 row) d * Rabs t.
Definition ray_close (k : R) (X x : R) (row : V4) (o d : vec) (t : R) : Prop :=
  Rabs (X - x) <= k * bpow radix2 (-53) * ray_size row o d t + (1 + Rabs t) * bpow radix2 (-1070).
Lemma ray_row k row o d t : k = 8 -> ray_close k (fadd (fadd (f_row row o) (q3 row)) (fmul (f_row row d) t)) (row_exact row o + q3 row + row_exact row d * t) row o d t.
Proof.
  intros ->. unfold ray_close. rewrite tiny_1070. fold u53. pose proof tiny_pos as T. pose proof (Rabs_pos t) as T0. pose proof u53_range as U.
  assert (ND : near 4.02 8 (f_row row d) (row_exact row d) (row_size row d)) by (eapply near_more; [apply near_row|lra|lra]).
  pose proof (along 4.02 8 _ _ _ _ _ _ t ltac:(lra) ltac:(lra) (near_point_row row o) ND) as A. eapply Rle_trans; [exact A|].
  unfold ray_size, size3. fold (row_size row o) (row_size row d).
  assert (O : 0 <= row_size row o) by (unfold row_size; repeat apply Rplus_le_le_0_compat; apply Rmult_le_pos; apply Rabs_pos).
  assert (D : 0 <= row_size row d) by (unfold row_size; repeat apply Rplus_le_le_0_compat; apply Rmult_le_pos; apply Rabs_pos).
  pose proof (Rabs_pos (q3 row)) as Q. assert (DT : 0 <= row_size row d * Rabs t) by (apply Rmult_le_pos; lra).
  set (w := row_size row o + Rabs (q3 row) + row_size row d * Rabs t) in *. assert (UW : 0 <= u53 * w) by (apply Rmult_le_pos; [lra|unfold w; lra]).
  rewrite !Rmult_assoc. fold w. set (uw := u53 * w) in *.
  replace ((1 + Rabs t) * (32 * tiny)) with (32 * (1 + Rabs t) * tiny) by ring. lra.
Qed.
(** A ray carried through an affine transform: the computed point at parameter t of the computed ray is close to the transform of the exact point at
    the same parameter t of the given ray. *)
Theorem C298_transformed (tr : transform) (r : ray) (t : R) : affine (tm tr) ->
  let m := tm tr in let p := f_ray_at (f_point m (ro r)) (f_vector m (rd r)) t in let e := t_point tr (ray_at r t) in
  ray_close 8 (vx p) (vx e) (row0 m) (ro r) (rd r) t /\ ray_close 8 (vy p) (vy e) (row1 m) (ro r) (rd r) t /\ ray_close 8 (vz p) (vz e) (row2 m) (ro r) (rd r) t.
Proof.
  intros A m p e.
  assert (PE : e = mkV (row_exact (row0 m) (ro r) + q3 (row0 m) + row_exact (row0 m) (rd r) * t)
                       (row_exact (row1 m) (ro r) + q3 (row1 m) + row_exact (row1 m) (rd r) * t)
                       (row_exact (row2 m) (ro r) + q3 (row2 m) + row_exact (row2 m) (rd r) * t)).
  { unfold e. rewrite t_point_rows by exact A. fold m. unfold ray_at, vadd, vscale, vmap, vmap2, row_exact; cbn [vx vy vz]. apply V3_eq; cbn [vx vy vz]; ring. }
  assert (PP : p = mkV (fadd (fadd (f_row (row0 m) (ro r)) (q3 (row0 m))) (fmul (f_row (row0 m) (rd r)) t))
                       (fadd (fadd (f_row (row1 m) (ro r)) (q3 (row1 m))) (fmul (f_row (row1 m) (rd r)) t))
                       (fadd (fadd (f_row (row2 m) (ro r)) (q3 (row2 m))) (fmul (f_row (row2 m) (rd r)) t))).
  { unfold p. rewrite f_point_rows by exact A. unfold f_ray_at, f_vector; cbn [vx vy vz]. reflexivity. }
  rewrite PE, PP. cbn [vx vy vz]. split; [|split]; apply ray_row; reflexivity.
Qed.
Print Assumptions C298_transformed.
(** Transforming the computed point of the world ray instead. *)
Theorem C298_world (tr : transform) (r : ray) (t : R) : affine (tm tr) ->
  let m := tm tr in let p := f_point m (f_ray_at (ro r) (rd r) t) in let e := t_point tr (ray_at r t) in
  let close := fun X x row => Rabs (X - x) <= 11 * bpow radix2 (-53) * ray_size row (ro r) (rd r) t
    + 2 * (1 + Rabs (q0 row) + Rabs (q1 row) + Rabs (q2 row)) * bpow radix2 (-1070) in
  close (vx p) (vx e) (row0 m) /\ close (vy p) (vy e) (row1 m) /\ close (vz p) (vz e) (row2 m).
Proof.
  intros A m p e close. set (Q := f_ray_at (ro r) (rd r) t) in *. set (q := ray_at r t) in *.
  set (S3 := mkV (Rabs (vx (ro r)) + Rabs (vx (rd r)) * Rabs t) (Rabs (vy (ro r)) + Rabs (vy (rd r)) * Rabs t) (Rabs (vz (ro r)) + Rabs (vz (rd r)) * Rabs t)).
  destruct (C298_point r t) as (A1 & A2 & A3). fold Q q in A1, A2, A3.
  assert (SZ : forall a d, Rabs (a + t * d) <= Rabs a + Rabs d * Rabs t).
  { intros a d. eapply Rle_trans; [apply Rabs_triang|]. rewrite Rabs_mult. lra. }
  assert (N0 : forall a d, 0 <= Rabs a + Rabs d * Rabs t).
  { intros a d. apply Rplus_le_le_0_compat; [apply Rabs_pos|apply Rmult_le_pos; apply Rabs_pos]. }
  assert (W : forall X x s, 0 <= s -> accurate 3 X x s -> accurate 5 X x s).
  { intros X x s S0 H. unfold accurate in *. fold u53 in *. pose proof u53_range. assert (0 <= u53 * s) by (apply Rmult_le_pos; lra). lra. }
  assert (SP := fun rr => second_pass rr Q q S3 (SZ _ _) (SZ _ _) (SZ _ _) (W _ _ _ (N0 _ _) A1) (W _ _ _ (N0 _ _) A2) (W _ _ _ (N0 _ _) A3)).
  assert (SE : forall row, size3 (q0 row) (q1 row) (q2 row) S3 + Rabs (q3 row) = ray_size row (ro r) (rd r) t).
  { intros row. unfold size3, ray_size, size3, S3; cbn [vx vy vz]. rewrite !(Rabs_pos_eq (_ + _ * Rabs t)) by apply N0. ring. }
  assert (PP : p = mkV (fadd (f_row (row0 m) Q) (q3 (row0 m))) (fadd (f_row (row1 m) Q) (q3 (row1 m))) (fadd (f_row (row2 m) Q) (q3 (row2 m)))) by (apply f_point_rows; exact A).
  assert (PE : e = mkV (row_exact (row0 m) q + q3 (row0 m)) (row_exact (row1 m) q + q3 (row1 m)) (row_exact (row2 m) q + q3 (row2 m))) by (apply t_point_rows; exact A).
  rewrite PP, PE. unfold close. cbn [vx vy vz]. rewrite <- !SE. split; [|split]; apply SP.
Qed.
Print Assumptions C298_world.
(** Hence a parameter found in object space gives, on the world ray, the point where the object-space ray is: for the translation by (10,0,0) and rays
    within 100 units of the origin, to within 2^-40. *)
Example C298_ex : forall r t, Rabs (vx (ro r)) <= 100 -> Rabs (vx (rd r)) <= 1 -> Rabs t <= 100 ->
  let tr := t_translate (mkV 10 0 0) in affine (tm tr) /\
  Rabs (vx (f_ray_at (f_point (tm tr) (ro r)) (f_vector (tm tr) (rd r)) t) - vx (f_point (tm tr) (f_ray_at (ro r) (rd r) t))) <= bpow radix2 (-40).
Proof.
  intros r t HO HD HT tr. assert (AF : affine (tm tr)) by reflexivity. split; [exact AF|].
  destruct (C298_transformed tr r t AF) as (A & _). destruct (C298_world tr r t AF) as (B & _). cbv zeta in A, B. unfold ray_close in A.
  assert (SZ : ray_size (row0 (tm tr)) (ro r) (rd r) t <= 300).
  { unfold ray_size, size3, tr, t_translate; cbn [tm row0 q0 q1 q2 q3]. rewrite Rabs_R1, Rabs_R0. cbn [vx]. rewrite (Rabs_pos_eq 10) by lra.
    assert (Rabs (vx (rd r)) * Rabs t <= 1 * 100) by (apply Rmult_le_compat; try apply Rabs_pos; assumption). 
    lra. }
  assert (QS : Rabs (q0 (row0 (tm tr))) + Rabs (q1 (row0 (tm tr))) + Rabs (q2 (row0 (tm tr))) = 1).
  { unfold tr, t_translate; cbn [tm row0 q0 q1 q2 q3]. rewrite Rabs_R1, Rabs_R0. lra. }
  set (X := vx (f_ray_at _ _ t)) in *. set (Y := vx (f_point (tm tr) (f_ray_at _ _ t))) in *. set (x := vx (t_point tr (ray_at r t))) in *.
  assert (TR : Rabs (X - Y) <= Rabs (X - x) + Rabs (Y - x)). { replace (X - Y) with ((X - x) - (Y - x)) by ring. eapply Rle_trans; [apply Rabs_triang|]. rewrite Rabs_Ropp. lra. }
  pose proof (bpow_gt_0 radix2 (-53)) as U. set (s := ray_size (row0 (tm tr)) (ro r) (rd r) t) in *. pose proof (bpow_gt_0 radix2 (-1070)) as T.
  assert (U2 : bpow radix2 (-1070) <= bpow radix2 (-53)) by (apply bpow_le; lia).
  assert (US : bpow radix2 (-53) * s <= bpow radix2 (-53) * 300) by (apply Rmult_le_compat_l; lra).
  assert (TT : Rabs t * bpow radix2 (-1070) <= 100 * bpow radix2 (-53)) by (apply Rmult_le_compat; try lra; apply Rabs_pos).
  replace (1 + Rabs (q0 (row0 (tm tr))) + Rabs (q1 (row0 (tm tr))) + Rabs (q2 (row0 (tm tr)))) with 2 in B by lra.
  change (-40)%Z with (13 + -53)%Z. rewrite bpow_plus. change (bpow radix2 13) with 8192. lra.
Qed.
