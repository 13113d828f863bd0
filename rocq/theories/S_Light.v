(** Specification vocabulary for lights. *)
From Coq Require Import Reals List.
From Verif Require Import Base M_Geometry M_Transform M_Light S_Geometry.
Import ListNotations.
Open Scope R_scope.

(** the parameter values a ray is tested on *)
Definition in_range (r : lray) (t : R) : Prop := l_mint r <= t /\ ele (Fin t) (l_maxt r).
(** point at fraction s of the way from p to q *)
Definition between (p q : vec) (s : R) : vec := vadd p (vscale s (vsub q p)).
(** a tester ray for the segment from p to q with margins e1 (a length) and e2 (a fraction) *)
Definition tests_segment (r : lray) (p q : vec) (e1 e2 : R) : Prop :=
  let d := vlength (vsub q p) in
  l_o r = p /\ unit (l_d r) /\
  forall s, lray_at r (s * d) = between p q s /\ (in_range r (s * d) <-> e1 / d <= s <= 1 - e2).
(** angle between a direction and the spot light's axis, in the light's frame *)
Definition spot_angle (l2w : transform) (w : vec) : R := acos (vz (normalize (t_vector (t_inverse l2w) w))).
