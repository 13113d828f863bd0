(** Specification vocabulary for the Monte Carlo properties. *)
From Coq Require Import Reals List.
From Verif Require Import Base.
Import ListNotations.
Open Scope R_scope.

Definition rsum (l : list R) : R := fold_right Rplus 0 l.

(** The integral over [0,x] of the step function that takes the value [nth i arr] on
    the cell [i/n, (i+1)/n], n = length arr: every cell contributes its value times the length of
    its intersection with [0,x]. *)
Fixpoint mass_from (n : R) (i : nat) (arr : list R) (x : R) : R :=
  match arr with
  | [] => 0
  | f :: arr' => f * Rmax 0 (Rmin (/ n) (x - INR i / n)) + mass_from n (S i) arr' x
  end.
Definition mass (arr : list R) (x : R) : R := mass_from (INR (length arr)) 0 arr x.

(** A usable table: non-negative entries, not all zero. *)
Definition table_ok (arr : list R) : Prop := Forall (fun x => 0 <= x) arr /\ 0 < rsum arr.

(** x lies in cell i of n equal cells of [0,1] (closed). *)
Definition in_cell (x : R) (i n : nat) : Prop := INR i / INR n <= x <= INR (S i) / INR n.

(** A rectangular table with nv rows of nu >= 1 columns, non-negative, not all zero. *)
Definition table2_ok (arr : list (list R)) (nu : nat) : Prop :=
  (0 < nu)%nat /\ Forall (fun row => length row = nu /\ Forall (fun x => 0 <= x) row) arr /\
  0 < rsum (map rsum arr).
(** Average of the whole table = integral over the unit square. *)
Definition mean2 (arr : list (list R)) (nu : nat) : R :=
  rsum (map rsum arr) / (INR nu * INR (length arr)).
