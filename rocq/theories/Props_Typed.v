(** C231-C234: arithmetic, NaN and equality of points, vectors and normals *)
From Coq Require Import Reals Lra Lia List Bool.
From Verif Require Import Base M_Geometry M_Typed P_Geometry.
Import ListNotations.
Open Scope R_scope.
(** a finite object *)
Definition fin (c : cls) (v : vec) : tv := mkT c (vmap Fin v).
Lemma esub_fin x y : esub (Fin x) (Fin y) = Fin (x - y). Proof. reflexivity. Qed.
Ltac vc := unfold fin, t_add, t_neg, t_scale, vmap, vmap2, vadd, vsub, vneg, vscale; cbn; repeat f_equal; try ring.

(** ** C231: differences of points *)
Theorem C231_difference (p q v : vec) :
  t_sub (fin CPoint p) (Obj (fin CPoint q)) = Ok (fin CVector (vsub p q)) /\
  t_sub (fin CPoint p) (Obj (fin CVector v)) = Ok (fin CPoint (vsub p v)) /\
  t_add (fin CPoint p) (Obj (fin CVector v)) = fin CPoint (vadd p v).
Proof. repeat split; destruct p, q, v; vc. Qed.
(** going from q by the difference arrives at p; stepping back and forth by v returns *)
Theorem C231_round_trip (p q v : vec) :
  (exists d, t_sub (fin CPoint p) (Obj (fin CPoint q)) = Ok d /\ tcls d = CVector /\ t_add (fin CPoint q) (Obj d) = fin CPoint p) /\
  (exists b, t_sub (fin CPoint p) (Obj (fin CVector v)) = Ok b /\ tcls b = CPoint /\ t_add b (Obj (fin CVector v)) = fin CPoint p).
Proof.
  split.
  - exists (fin CVector (vsub p q)). split; [apply (C231_difference p q p)|]. split; [reflexivity|]. destruct p, q; vc.
  - exists (fin CPoint (vsub p v)). split; [apply (C231_difference p p v)|]. split; [reflexivity|]. destruct p, v; vc.
Qed.
(** numbers and normals cannot be taken from a point, and a point cannot be decreased in place, whatever the values *)
Theorem C231_refused (p : V3 E) : (forall s, t_sub (mkT CPoint p) (Num s) = Err TypeError) /\
  (forall n, t_sub (mkT CPoint p) (Obj (mkT CNormal n)) = Err TypeError) /\ (forall b, t_isub (mkT CPoint p) b = Err TypeError).
Proof. repeat split. Qed.
Theorem C231_face_forward (a b : cls) (n v : vec) : t_face_forward (a, n) (b, v) =
  match a, b with CNormal, CVector => Ok (CNormal, if Rltb (vdot n v) 0 then vneg n else n) | _, _ => Err TypeError end /\
  (forall c m, t_face_forward (a, n) (b, v) = Ok (c, m) -> c = CNormal /\ (m = n \/ m = vneg n) /\ 0 <= vdot m v).
Proof.
  split; [destruct a, b; reflexivity|]. intros c m. unfold t_face_forward. cbn [fst snd].
  destruct a; try discriminate. destruct b; try discriminate. intros [= <- <-]. split; [reflexivity|].
  destruct (Rltb (vdot n v) 0) eqn:Q; Rb; [|split; [now left|lra]].
  split; [now right|]. unfold vdot, vneg, vmap in *; cbn. lra.
Qed.
Print Assumptions C231_difference.
Print Assumptions C231_round_trip.
Print Assumptions C231_refused.
Print Assumptions C231_face_forward.
Example C231_ex : t_sub (fin CPoint (mkV 1 2 3)) (Obj (fin CPoint (mkV 1 1 1))) = Ok (fin CVector (mkV 0 1 2)).
Proof. vc. Qed.

(** ** C232: sums respect the kinds *)
Theorem C232_sums_partial (p v w : V3 E) : tcls (t_add (mkT CPoint p) (Obj (mkT CVector v))) = CPoint /\
  tcls (t_add (mkT CVector v) (Obj (mkT CVector w))) = CVector /\ (forall c s, tcls (t_scale s (mkT c v)) = c) /\
  (forall c, tcls (t_neg (mkT c v)) = c).
Proof. repeat split. Qed.
(** a vector plus a point is called a vector, two points can be added, a number can be added to a point *)
Theorem C232_sums_refuted (p q v : V3 E) (s : E) : tcls (t_add (mkT CVector v) (Obj (mkT CPoint p))) = CVector /\
  tcls (t_add (mkT CPoint p) (Obj (mkT CPoint q))) = CPoint /\ tcls (t_add (mkT CPoint p) (Num s)) = CPoint.
Proof. repeat split. Qed.
Print Assumptions C232_sums_partial.
Print Assumptions C232_sums_refuted.

(** ** C233: no NaN *)
Definition clean (t : tv) : Prop := notnan (vx (tc t)) /\ notnan (vy (tc t)) /\ notnan (vz (tc t)).
Lemma make_clean c x y z t : t_make c x y z = Ok t -> clean t /\ tcls t = c /\ tc t = mkV x y z.
Proof.
  unfold t_make. destruct x, y, z; cbn; try discriminate; intros [= <-]; (split; [|split; reflexivity]); repeat split; discriminate.
Qed.
Theorem C233_constructor (c : cls) (x y z : E) : t_make c x y z = (if is_nan x || is_nan y || is_nan z then Err ValueError else Ok (mkT c (mkV x y z))) /\
  ((exists t, t_make c x y z = Ok t) <-> notnan x /\ notnan y /\ notnan z) /\ (forall t, t_make c x y z = Ok t -> clean t).
Proof.
  split; [reflexivity|]. split; [|intros t H; apply (make_clean _ _ _ _ _ H)].
  split; [intros [t H]; destruct (make_clean _ _ _ _ _ H) as ((A & B & D) & _ & Q); rewrite Q in A, B, D; auto|].
  intros (A & B & D). unfold t_make. destruct x; try congruence; destruct y; try congruence; destruct z; try congruence; eexists; reflexivity.
Qed.
Theorem C233_from_arr (c : cls) (l : list E) (t : tv) : t_from_arr c l = Ok t -> length l = 3%nat /\ clean t.
Proof.
  destruct l as [|x [|y [|z [|w l]]]]; try discriminate. intros H. split; [reflexivity|]. apply (make_clean _ _ _ _ _ H).
Qed.
(** subtracting from a point never yields NaN: infinite coordinates that cancel raise *)
Theorem C233_point_difference (p : V3 E) (b : operand) (t : tv) : t_sub (mkT CPoint p) b = Ok t -> clean t.
Proof. destruct b as [[[| |] q]|s]; cbn; try discriminate; intros H; apply (make_clean _ _ _ _ _ H). Qed.
Theorem C233_finite_partial (a b : cls) (u v : vec) (s : R) : clean (t_add (fin a u) (Obj (fin b v))) /\ clean (t_add (fin a u) (Num (Fin s))) /\
  clean (t_scale (Fin s) (fin a u)) /\ clean (t_neg (fin a u)) /\ (forall t, t_sub (fin a u) (Obj (fin b v)) = Ok t -> clean t) /\
  (forall t, t_isub (fin a u) (Obj (fin b v)) = Ok t -> clean t).
Proof.
  split; [repeat split; discriminate|]. split; [repeat split; discriminate|]. split; [repeat split; discriminate|]. split; [repeat split; discriminate|].
  split; intros t; destruct a, b; cbn; try discriminate; intros [= <-]; repeat split; discriminate.
Qed.
(** sums, products and differences of vectors with infinite components do create NaN objects *)
Theorem C233_infinite_refuted : let i := mkT CVector (mkV PInf (Fin 0) (Fin 0)) in
  ~ clean (t_add i (Obj (t_neg i))) /\ ~ clean (t_scale (Fin 0) i) /\ (exists t, t_sub i (Obj i) = Ok t /\ ~ clean t) /\
  ~ clean (t_add (mkT CPoint (tc i)) (Obj (t_neg i))).
Proof.
  intros i. split; [intros (A & _); now apply A|]. split.
  { intros (A & _). apply A. unfold t_scale, i; cbn. unfold esgn_inf. replace (Reqb 0 0) with true by (symmetry; now apply Reqb_true). reflexivity. }
  split; [eexists; split; [reflexivity|intros (A & _); now apply A]|intros (A & _); now apply A].
Qed.
Print Assumptions C233_constructor.
Print Assumptions C233_from_arr.
Print Assumptions C233_point_difference.
Print Assumptions C233_finite_partial.
Print Assumptions C233_infinite_refuted.

(** ** C234: equality *)
Theorem C234_meaning (a b : tv) : (t_eq a b = true <-> clean a /\ clean b /\ tc a = tc b) /\ t_ne a b = negb (t_eq a b).
Proof.
  split; [|reflexivity].
  assert (K : forall x y, eeqb x y = true <-> notnan x /\ notnan y /\ x = y).
  { intros x y. destruct x, y; cbn; split; intros H; try discriminate; try (repeat split; discriminate); try (destruct H as (A & B & C); congruence).
    - apply Reqb_true in H. subst. repeat split; discriminate.
    - destruct H as (_ & _ & [= ->]). now apply Reqb_true. }
  unfold t_eq. rewrite !andb_true_iff, !K. unfold clean. destruct a as [ca [ax ay az]], b as [cb [bx by_ bz]]; cbn. split.
  - intros ((A & B) & C). destruct A as (? & ? & ->), B as (? & ? & ->), C as (? & ? & ->). repeat split; auto.
  - intros (A & B & [= -> -> ->]). tauto.
Qed.
Theorem C234_equivalence (a b c : tv) : (clean a <-> t_eq a a = true) /\ (t_eq a b = t_eq b a) /\ (t_eq a b = true -> t_eq b c = true -> t_eq a c = true).
Proof.
  split; [rewrite (proj1 (C234_meaning a a)); tauto|]. split.
  - destruct (t_eq a b) eqn:A, (t_eq b a) eqn:B; auto; exfalso.
    + rewrite (proj1 (C234_meaning a b)) in A. enough (t_eq b a = true) by congruence. apply (proj1 (C234_meaning b a)). destruct A as (? & ? & ->); auto.
    + rewrite (proj1 (C234_meaning b a)) in B. enough (t_eq a b = true) by congruence. apply (proj1 (C234_meaning a b)). destruct B as (? & ? & ->); auto.
  - intros A B. apply (proj1 (C234_meaning a b)) in A. apply (proj1 (C234_meaning b c)) in B. apply (proj1 (C234_meaning a c)).
    destruct A as (? & ? & A), B as (? & ? & B). split; [tauto|]. split; [tauto|]. congruence.
Qed.
(** the class is not compared *)
Theorem C234_class_ignored (x y : cls) (v : vec) : t_eq (fin x v) (fin y v) = true.
Proof. apply (proj1 (C234_meaning _ _)). repeat split; discriminate. Qed.
Print Assumptions C234_meaning.
Print Assumptions C234_equivalence.
Print Assumptions C234_class_ignored.
Example C234_ex : clean (fin CPoint (mkV 1 2 3)) /\ t_eq (mkT CPoint (mkV NaN (Fin 0) (Fin 0))) (mkT CPoint (mkV NaN (Fin 0) (Fin 0))) = false.
Proof. split; [repeat split; discriminate|reflexivity]. Qed.
