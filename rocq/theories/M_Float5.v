(** Float64 arithmetic, continued (see M_Float, M_Float2): normals and products of transforms.  numpy's dot product is modelled as the sum from
    left to right. *)
From Coq Require Import Reals List Bool ZArith.
From Verif Require Import Base M_Geometry M_Transform M_Float M_Float2.
Open Scope R_scope.

(** transform/__init__.py:66-69 (normals): one column of m_inv[0:3, 0:3] times the argument *)
Definition f_normal (inv : M4) (n : vec) : vec := mkV (f_row (col0 inv) n) (f_row (col1 inv) n) (f_row (col2 inv) n).
(** one entry of a numpy product of two 4x4 arrays *)
Definition f_dot4 (u v : V4) : R := fadd (fadd (fadd (fmul (q0 u) (q0 v)) (fmul (q1 u) (q1 v))) (fmul (q2 u) (q2 v))) (fmul (q3 u) (q3 v)).
(** transform/__init__.py:98-101 (__mul__): self.m.dot(other.m); the inverses are multiplied in the other order *)
Definition f_mmul (a b : M4) : M4 := mkM
  (mkV4 (f_dot4 (row0 a) (col0 b)) (f_dot4 (row0 a) (col1 b)) (f_dot4 (row0 a) (col2 b)) (f_dot4 (row0 a) (col3 b)))
  (mkV4 (f_dot4 (row1 a) (col0 b)) (f_dot4 (row1 a) (col1 b)) (f_dot4 (row1 a) (col2 b)) (f_dot4 (row1 a) (col3 b)))
  (mkV4 (f_dot4 (row2 a) (col0 b)) (f_dot4 (row2 a) (col1 b)) (f_dot4 (row2 a) (col2 b)) (f_dot4 (row2 a) (col3 b)))
  (mkV4 (f_dot4 (row3 a) (col0 b)) (f_dot4 (row3 a) (col1 b)) (f_dot4 (row3 a) (col2 b)) (f_dot4 (row3 a) (col3 b))).
