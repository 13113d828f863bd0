(** Specification vocabulary for the transform properties. *)
From Coq Require Import Reals Lra.
From Verif Require Import Base M_Geometry S_Geometry M_Transform.
Open Scope R_scope.

(** Transforms obtainable through the affine part of the API with non-degenerate arguments. *)
Inductive built : transform -> Prop :=
| b_id : built t_identity
| b_translate d : built (t_translate d)
| b_scale x y z : x <> 0 -> y <> 0 -> z <> 0 -> built (t_scale x y z)
| b_rx a : built (t_rotate_x a)
| b_ry a : built (t_rotate_y a)
| b_rz a : built (t_rotate_z a)
| b_rot a ax : ax <> vzero -> built (t_rotate a ax)
| b_look pos look up : look <> pos -> vcross up (vsub look pos) <> vzero -> built (t_look_at pos look up)
| b_ortho n f : n <> f -> built (t_orthographic n f)
| b_mul a b : built a -> built b -> built (t_mul a b)
| b_inv a : built a -> built (t_inverse a).

Definition affine (m : M4) : Prop := row3 m = mkV4 0 0 0 1.

(** The linear part has no negative entry. *)
Definition nonneg_linear (m : M4) : Prop :=
  forall r, r = row0 m \/ r = row1 m \/ r = row2 m -> 0 <= q0 r /\ 0 <= q1 r /\ 0 <= q2 r.

Definition qunit (q : quat) : Prop := qx q * qx q + qy q * qy q + qz q * qz q + qw q * qw q = 1.
