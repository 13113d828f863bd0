(** numpy.linalg.inv modelled by cofactors is the inverse, and it fails exactly on singular matrices. *)
From Coq Require Import Reals Lra.
From Verif Require Import Base M_Geometry M_Transform.
Open Scope R_scope.

Lemma M4_ext (a b : M4) : row0 a = row0 b -> row1 a = row1 b -> row2 a = row2 b -> row3 a = row3 b -> a = b.
Proof. destruct a, b; cbn; congruence. Qed.
Lemma V4_ext (a b : V4) : q0 a = q0 b -> q1 a = q1 b -> q2 a = q2 b -> q3 a = q3 b -> a = b.
Proof. destruct a, b; cbn; congruence. Qed.
Lemma div_diag n d : n = d -> d <> 0 -> n / d = 1. Proof. intros -> H. now field. Qed.
Lemma div_off n d : n = 0 -> n / d = 0. Proof. intros ->. unfold Rdiv; ring. Qed.
Lemma cofinv_r m : det4 m <> 0 -> mmul m (cofinv m) = I4.
Proof.
  destruct m as [[a00 a01 a02 a03] [a10 a11 a12 a13] [a20 a21 a22 a23] [a30 a31 a32 a33]].
  unfold mmul, cofinv, I4. set (d := det4 _). intros Hd. cbv [row0 row1 row2 row3].
  apply M4_ext; cbv [row0 row1 row2 row3]; apply V4_ext; cbv [q0 q1 q2 q3 dot4 col0 col1 col2 col3 row0 row1 row2 row3];
  (match goal with |- ?x = 1 => replace x with (d / d); [now field|] | |- ?x = 0 => replace x with (0 / d); [unfold Rdiv; ring|] end);
  unfold Rdiv; rewrite <- ?Rmult_assoc, <- ?Rmult_plus_distr_r; f_equal; unfold d, det4; cbv [row0 row1 row2 row3]; ring.
Qed.
Lemma cofinv_l m : det4 m <> 0 -> mmul (cofinv m) m = I4.
Proof.
  destruct m as [[a00 a01 a02 a03] [a10 a11 a12 a13] [a20 a21 a22 a23] [a30 a31 a32 a33]].
  unfold mmul, cofinv, I4. set (d := det4 _). intros Hd. cbv [row0 row1 row2 row3].
  apply M4_ext; cbv [row0 row1 row2 row3]; apply V4_ext; cbv [q0 q1 q2 q3 dot4 col0 col1 col2 col3 row0 row1 row2 row3];
  (match goal with |- ?x = 1 => replace x with (/ d * d); [now field|] | |- ?x = 0 => replace x with (/ d * 0); [ring|] end);
  unfold Rdiv; match goal with |- _ = ?a * / d * ?x + ?b * / d * ?y + ?c * / d * ?z + ?e * / d * ?w =>
    replace (a * / d * x + b * / d * y + c * / d * z + e * / d * w) with (/ d * (a * x + b * y + c * z + e * w)) by ring end;
  f_equal; unfold d, det4; cbv [row0 row1 row2 row3]; ring.
Qed.
Lemma det4_mul a b : det4 (mmul a b) = det4 a * det4 b.
Proof.
  destruct a as [[a00 a01 a02 a03] [a10 a11 a12 a13] [a20 a21 a22 a23] [a30 a31 a32 a33]].
  destruct b as [[b00 b01 b02 b03] [b10 b11 b12 b13] [b20 b21 b22 b23] [b30 b31 b32 b33]].
  unfold det4, mmul. cbv [q0 q1 q2 q3 dot4 col0 col1 col2 col3 row0 row1 row2 row3]. ring.
Qed.
Lemma det4_I : det4 I4 = 1.
Proof. unfold det4, I4; cbv [row0 row1 row2 row3]. ring. Qed.
Lemma of_matrix_inverse m t : t_of_matrix m = Ok t -> tm t = m /\ mmul m (tinv t) = I4 /\ mmul (tinv t) m = I4.
Proof.
  unfold t_of_matrix, minv. destruct (Reqb (det4 m) 0) eqn:B; [discriminate|]. apply Reqb_false in B. cbn [bind].
  intros E. injection E as <-. split; [reflexivity|]. split; [now apply cofinv_r|now apply cofinv_l].
Qed.
Lemma of_matrix_fails m : (exists e, t_of_matrix m = Err e) <-> ~ exists n, mmul m n = I4.
Proof.
  unfold t_of_matrix, minv. destruct (Reqb (det4 m) 0) eqn:B; cbn [bind].
  - apply Reqb_true in B. split; [|eauto]. intros _ [n H]. apply (f_equal det4) in H. rewrite det4_mul, B, det4_I in H. lra.
  - apply Reqb_false in B. split; [intros [e E]; discriminate|]. intros N. exfalso. apply N. exists (cofinv m). now apply cofinv_r.
Qed.
