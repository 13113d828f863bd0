(** Shared vocabulary of the model: Python exceptions as values, decidable
    comparisons on the reals, 3-tuples, and an extended number type with the
    IEEE-754 rules for infinities and NaN. *)
From Coq Require Import Reals Lra Lia List Bool ZArith Psatz.
Import ListNotations.
Open Scope R_scope.

#[global] Arguments Nat.ltb : simpl never.

(** ** Exceptions *)
Inductive exn :=
| AssertionError | TypeError | ValueError | IndexError | KeyError
| AttributeError | RuntimeError | UnboundLocalError | NameError
| NotImplementedError | ZeroDivisionError.

Inductive res (A : Type) := Ok (a : A) | Err (e : exn).
Arguments Ok {A} _. Arguments Err {A} _.

Definition bind {A B} (x : res A) (f : A -> res B) : res B :=
  match x with Ok a => f a | Err e => Err e end.
Notation "'do' x <- e1 ; e2" := (bind e1 (fun x => e2))
  (at level 200, x pattern, e1 at level 100, e2 at level 200).

Definition is_ok {A} (x : res A) : bool := match x with Ok _ => true | Err _ => false end.

(** ** Decidable comparisons on R (Python <, <=, == on finite floats) *)
Definition Rltb (a b : R) : bool := if Rlt_dec a b then true else false.
Definition Rleb (a b : R) : bool := if Rle_dec a b then true else false.
Definition Reqb (a b : R) : bool := if Req_EM_T a b then true else false.

Lemma Rltb_true a b : Rltb a b = true <-> a < b.
Proof. unfold Rltb; destruct (Rlt_dec a b); split; intros; auto; discriminate. Qed.
Lemma Rltb_false a b : Rltb a b = false <-> b <= a.
Proof. unfold Rltb; destruct (Rlt_dec a b); split; intros; auto; try discriminate; lra. Qed.
Lemma Rleb_true a b : Rleb a b = true <-> a <= b.
Proof. unfold Rleb; destruct (Rle_dec a b); split; intros; auto; discriminate. Qed.
Lemma Rleb_false a b : Rleb a b = false <-> b < a.
Proof. unfold Rleb; destruct (Rle_dec a b); split; intros; auto; try discriminate; lra. Qed.
Lemma Reqb_true a b : Reqb a b = true <-> a = b.
Proof. unfold Reqb; destruct (Req_EM_T a b); split; intros; auto; discriminate. Qed.
Lemma Reqb_false a b : Reqb a b = false <-> a <> b.
Proof. unfold Reqb; destruct (Req_EM_T a b); split; intros; auto; try discriminate; contradiction. Qed.

(** Turn boolean hypotheses about R into propositions. *)
Ltac Rb :=
  repeat match goal with
  | H : Rltb _ _ = true |- _ => apply Rltb_true in H
  | H : Rltb _ _ = false |- _ => apply Rltb_false in H
  | H : Rleb _ _ = true |- _ => apply Rleb_true in H
  | H : Rleb _ _ = false |- _ => apply Rleb_false in H
  | H : Reqb _ _ = true |- _ => apply Reqb_true in H
  | H : Reqb _ _ = false |- _ => apply Reqb_false in H
  | H : true = Rltb _ _ |- _ => symmetry in H
  | H : false = Rltb _ _ |- _ => symmetry in H
  end.

(** Case split on every boolean comparison in the goal. *)
Ltac Rcase :=
  repeat match goal with
  | |- context [Rltb ?a ?b] => let H := fresh "C" in destruct (Rltb a b) eqn:H
  | |- context [Rleb ?a ?b] => let H := fresh "C" in destruct (Rleb a b) eqn:H
  | |- context [Reqb ?a ?b] => let H := fresh "C" in destruct (Reqb a b) eqn:H
  end; Rb.

(** Python's [min(a, b)] is [b if b < a else a]; [max(a,b)] is [b if b > a else a]. *)
Definition pmin (a b : R) : R := if Rltb b a then b else a.
Definition pmax (a b : R) : R := if Rltb a b then b else a.

Lemma pmin_le_l a b : pmin a b <= a. Proof. unfold pmin; Rcase; lra. Qed.
Lemma pmin_le_r a b : pmin a b <= b. Proof. unfold pmin; Rcase; lra. Qed.
Lemma pmax_ge_l a b : a <= pmax a b. Proof. unfold pmax; Rcase; lra. Qed.
Lemma pmax_ge_r a b : b <= pmax a b. Proof. unfold pmax; Rcase; lra. Qed.
Lemma pmin_Rmin a b : pmin a b = Rmin a b.
Proof. unfold pmin, Rmin; Rcase; destruct (Rle_dec a b); lra. Qed.
Lemma pmax_Rmax a b : pmax a b = Rmax a b.
Proof. unfold pmax, Rmax; Rcase; destruct (Rle_dec a b); lra. Qed.

(** numpy.clip(x, lo, hi) = minimum(maximum(x, lo), hi). *)
Definition clip (x lo hi : R) : R := Rmin (Rmax x lo) hi.

Lemma clip_range x lo hi : lo <= hi -> lo <= clip x lo hi <= hi.
Proof. intros; unfold clip, Rmin, Rmax; repeat destruct Rle_dec; lra. Qed.
Lemma clip_id x lo hi : lo <= x <= hi -> clip x lo hi = x.
Proof. intros; unfold clip, Rmin, Rmax; repeat destruct Rle_dec; lra. Qed.

(** Python's [int(x)] truncates toward zero. *)
Definition Ztrunc (r : R) : Z := if Rle_dec 0 r then Int_part r else (- Int_part (- r))%Z.
(** numpy.floor / numpy.ceil followed by int. *)
Definition Zfloor (r : R) : Z := Int_part r.
Definition Zceil (r : R) : Z := (- Int_part (- r))%Z.

Lemma Zfloor_spec r : IZR (Zfloor r) <= r < IZR (Zfloor r) + 1.
Proof. unfold Zfloor. destruct (base_Int_part r). lra. Qed.
Lemma Zceil_spec r : IZR (Zceil r) - 1 < r <= IZR (Zceil r).
Proof. unfold Zceil. rewrite opp_IZR. destruct (base_Int_part (-r)). lra. Qed.

Lemma Zfloor_unique r z : IZR z <= r < IZR z + 1 -> Zfloor r = z.
Proof.
  intros [H1 H2]. destruct (Zfloor_spec r) as [H3 H4].
  assert (IZR (Zfloor r) < IZR (z + 1)) by (rewrite plus_IZR; lra).
  assert (IZR z < IZR (Zfloor r + 1)) by (rewrite plus_IZR; lra).
  apply lt_IZR in H, H0. lia.
Qed.
Lemma Zceil_unique r z : IZR z - 1 < r <= IZR z -> Zceil r = z.
Proof.
  intros [H1 H2]. destruct (Zceil_spec r) as [H3 H4].
  assert (IZR (Zceil r) < IZR (z + 1)) by (rewrite plus_IZR; lra).
  assert (IZR z < IZR (Zceil r + 1)) by (rewrite plus_IZR; lra).
  apply lt_IZR in H, H0. lia.
Qed.
Lemma Zfloor_IZR z : Zfloor (IZR z) = z.
Proof. apply Zfloor_unique; lra. Qed.
Lemma Zceil_IZR z : Zceil (IZR z) = z.
Proof. apply Zceil_unique; lra. Qed.
Lemma Zfloor_mono a b : a <= b -> (Zfloor a <= Zfloor b)%Z.
Proof.
  intros H. destruct (Zfloor_spec a), (Zfloor_spec b).
  assert (IZR (Zfloor a) < IZR (Zfloor b + 1)) by (rewrite plus_IZR; lra).
  apply lt_IZR in H4. lia.
Qed.
Lemma Zceil_mono a b : a <= b -> (Zceil a <= Zceil b)%Z.
Proof.
  intros H. destruct (Zceil_spec a), (Zceil_spec b).
  assert (IZR (Zceil a) < IZR (Zceil b + 1)) by (rewrite plus_IZR; lra).
  apply lt_IZR in H4. lia.
Qed.
Lemma Zfloor_ge r z : IZR z <= r -> (z <= Zfloor r)%Z.
Proof. intros. rewrite <- (Zfloor_IZR z). now apply Zfloor_mono. Qed.
Lemma Zceil_le r z : r <= IZR z -> (Zceil r <= z)%Z.
Proof. intros. rewrite <- (Zceil_IZR z). now apply Zceil_mono. Qed.
Lemma Zfloor_lt r z : r < IZR z -> (Zfloor r < z)%Z.
Proof. intros. apply lt_IZR. destruct (Zfloor_spec r). lra. Qed.
Lemma Zceil_gt r z : IZR z < r -> (z < Zceil r)%Z.
Proof. intros. apply lt_IZR. destruct (Zceil_spec r). lra. Qed.
Lemma Ztrunc_nonneg r : 0 <= r -> Ztrunc r = Zfloor r.
Proof. intros; unfold Ztrunc; destruct Rle_dec; [reflexivity|lra]. Qed.
Lemma Ztrunc_neg r : r < 0 -> Ztrunc r = Zceil r.
Proof. intros; unfold Ztrunc; destruct Rle_dec; [lra|reflexivity]. Qed.

(** ** Triples *)
Record V3 (A : Type) := mkV { vx : A; vy : A; vz : A }.
Arguments mkV {A} _ _ _. Arguments vx {A} _. Arguments vy {A} _. Arguments vz {A} _.

Definition vec := V3 R.

Lemma V3_eq {A} (u v : V3 A) : vx u = vx v -> vy u = vy v -> vz u = vz v -> u = v.
Proof. destruct u, v; cbn; congruence. Qed.

(** Array indexing v[i] for i in 0..2 (any other index is out of the modelled domain: it is
    never produced by the modelled code). *)
Definition vnth {A} (v : V3 A) (i : nat) : A :=
  match i with O => vx v | S O => vy v | _ => vz v end.

Definition vmap {A B} (f : A -> B) (v : V3 A) : V3 B := mkV (f (vx v)) (f (vy v)) (f (vz v)).
Definition vmap2 {A B C} (f : A -> B -> C) (u : V3 A) (v : V3 B) : V3 C :=
  mkV (f (vx u) (vx v)) (f (vy u) (vy v)) (f (vz u) (vz v)).

(** numpy arithmetic on 3-arrays is componentwise. *)
Definition vadd : vec -> vec -> vec := vmap2 Rplus.
Definition vsub : vec -> vec -> vec := vmap2 Rminus.
Definition vscale (k : R) (v : vec) : vec := vmap (Rmult k) v.
Definition vneg (v : vec) : vec := vmap Ropp v.
Definition vdot (u v : vec) : R := vx u * vx v + vy u * vy v + vz u * vz v.
Definition vzero : vec := mkV 0 0 0.

(** ** Extended numbers with the IEEE rules for infinities and NaN *)
Inductive E := Fin (r : R) | PInf | NInf | NaN.

(** IEEE [<], [<=], [==]: any comparison with NaN is False. *)
Definition eltb (a b : E) : bool :=
  match a, b with
  | NaN, _ | _, NaN => false
  | Fin x, Fin y => Rltb x y
  | PInf, _ => false
  | _, NInf => false
  | NInf, _ => true
  | Fin _, PInf => true
  end.
Definition eleb (a b : E) : bool :=
  match a, b with
  | NaN, _ | _, NaN => false
  | Fin x, Fin y => Rleb x y
  | NInf, _ => true
  | _, PInf => true
  | PInf, _ => false
  | Fin _, NInf => false
  end.
Definition eeqb (a b : E) : bool :=
  match a, b with
  | Fin x, Fin y => Reqb x y
  | PInf, PInf | NInf, NInf => true
  | _, _ => false
  end.

(** Python's builtin min/max on floats (asymmetric on NaN). *)
Definition emin (a b : E) : E := if eltb b a then b else a.
Definition emax (a b : E) : E := if eltb a b then b else a.
(** numpy.fmin / numpy.fmax ignore NaN. *)
Definition fmin (a b : E) : E :=
  match a, b with NaN, _ => b | _, NaN => a | _, _ => emin a b end.
Definition fmax (a b : E) : E :=
  match a, b with NaN, _ => b | _, NaN => a | _, _ => emax a b end.

Definition eopp (a : E) : E :=
  match a with Fin x => Fin (- x) | PInf => NInf | NInf => PInf | NaN => NaN end.
Definition eadd (a b : E) : E :=
  match a, b with
  | NaN, _ | _, NaN => NaN
  | Fin x, Fin y => Fin (x + y)
  | PInf, NInf | NInf, PInf => NaN
  | PInf, _ | _, PInf => PInf
  | NInf, _ | _, NInf => NInf
  end.
Definition esub (a b : E) : E := eadd a (eopp b).
(** finite times infinity: NaN for zero, else by sign *)
Definition esgn_inf (x : R) (pos : bool) : E :=
  if Reqb x 0 then NaN else if Bool.eqb (Rltb 0 x) pos then PInf else NInf.
Definition emul (a b : E) : E :=
  match a, b with
  | NaN, _ | _, NaN => NaN
  | Fin x, Fin y => Fin (x * y)
  | Fin x, PInf | PInf, Fin x => esgn_inf x true
  | Fin x, NInf | NInf, Fin x => esgn_inf x false
  | PInf, PInf | NInf, NInf => PInf
  | PInf, NInf | NInf, PInf => NInf
  end.
(** Division of a finite numerator by a finite denominator whose sign bit, when it is zero,
    is [nz] (true: negative zero). *)
Definition edivz (nz : bool) (x y : R) : E :=
  if Reqb y 0
  then (if Reqb x 0 then NaN else if xorb (Rltb 0 x) nz then PInf else NInf)
  else Fin (x / y).

(** Order facts used throughout. *)
Definition ele (a b : E) : Prop := eleb a b = true.
Definition elt (a b : E) : Prop := eltb a b = true.
Definition notnan (a : E) : Prop := a <> NaN.

Lemma ele_refl a : notnan a -> ele a a.
Proof. unfold ele, notnan; destruct a; cbn; intros; auto; try congruence. apply Rleb_true; lra. Qed.
Lemma ele_trans a b c : ele a b -> ele b c -> ele a c.
Proof.
  unfold ele; destruct a, b, c; cbn; intros; auto; try discriminate.
  Rb; apply Rleb_true; lra.
Qed.
Lemma ele_antisym a b : ele a b -> ele b a -> a = b.
Proof.
  unfold ele; destruct a, b; cbn; intros; auto; try discriminate. Rb. f_equal; lra.
Qed.
Lemma ele_notnan_l a b : ele a b -> notnan a.
Proof. unfold ele, notnan; destruct a; cbn; intros; congruence. Qed.
Lemma ele_notnan_r a b : ele a b -> notnan b.
Proof. unfold ele, notnan; destruct a, b; cbn; intros; congruence. Qed.
Lemma eltb_false_ele a b : notnan a -> notnan b -> eltb a b = false -> ele b a.
Proof.
  unfold notnan, ele; destruct a, b; cbn; intros; auto; try congruence.
  Rb. apply Rleb_true; lra.
Qed.
Lemma elt_ele a b : elt a b -> ele a b.
Proof. unfold elt, ele; destruct a, b; cbn; intros; auto. Rb; apply Rleb_true; lra. Qed.
Lemma ele_Fin a b : ele (Fin a) (Fin b) <-> a <= b.
Proof. unfold ele; cbn; apply Rleb_true. Qed.
Lemma elt_Fin a b : elt (Fin a) (Fin b) <-> a < b.
Proof. unfold elt; cbn; apply Rltb_true. Qed.
Lemma elt_not_ele a b : elt a b -> ~ ele b a.
Proof. unfold elt, ele; destruct a, b; cbn; intros; auto; try discriminate. Rb. intro; Rb; lra. Qed.
Lemma ele_total a b : notnan a -> notnan b -> ele a b \/ ele b a.
Proof.
  intros. destruct (eltb a b) eqn:C; [left; now apply elt_ele|right; now apply eltb_false_ele].
Qed.

Lemma emin_glb a b c : notnan a -> notnan b -> (ele c (emin a b) <-> ele c a /\ ele c b).
Proof.
  intros Ha Hb. unfold emin. destruct (eltb b a) eqn:C.
  - apply elt_ele in C. split; [intros; split; auto; eapply ele_trans; eauto|tauto].
  - apply eltb_false_ele in C; auto. split; [intros; split; auto; eapply ele_trans; eauto|tauto].
Qed.
Lemma emax_lub a b c : notnan a -> notnan b -> (ele (emax a b) c <-> ele a c /\ ele b c).
Proof.
  intros Ha Hb. unfold emax. destruct (eltb a b) eqn:C.
  - apply elt_ele in C. split; [intros; split; auto; eapply ele_trans; eauto|tauto].
  - apply eltb_false_ele in C; auto. split; [intros; split; auto; eapply ele_trans; eauto|tauto].
Qed.
Lemma emin_notnan a b : notnan a -> notnan b -> notnan (emin a b).
Proof. unfold emin; destruct (eltb b a); auto. Qed.
Lemma emax_notnan a b : notnan a -> notnan b -> notnan (emax a b).
Proof. unfold emax; destruct (eltb a b); auto. Qed.
Lemma emin_Fin a b : emin (Fin a) (Fin b) = Fin (Rmin a b).
Proof. unfold emin; cbn. rewrite <- pmin_Rmin. unfold pmin. now destruct (Rltb b a). Qed.
Lemma emax_Fin a b : emax (Fin a) (Fin b) = Fin (Rmax a b).
Proof. unfold emax; cbn. rewrite <- pmax_Rmax. unfold pmax. now destruct (Rltb a b). Qed.

(** Project constant: pytracer/__init__.py:23 [EPS = 1e-5]. *)
Definition EPS : R := / 100000.
Lemma EPS_pos : 0 < EPS. Proof. unfold EPS; lra. Qed.
