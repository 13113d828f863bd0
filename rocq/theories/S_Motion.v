(** Specification for moving objects and rays together. *)
From Coq Require Import Reals List ZArith.
From Verif Require Import Base M_Geometry M_Transform M_Shapes.
Open Scope R_scope.

(** The same shape, placed by the transform [A] after its own placement (Transform.__mul__). *)
Definition moved_base (A : transform) (b : base) : base :=
  mkBase (t_mul A (b_o2w b)) (t_inverse (t_mul A (b_o2w b))) (b_ro b).
(** The surface point [g'] is the surface point [g] moved by [A]: position, unit normal (by the inverse transpose), and
    the same surface parameters; ... *)
Definition moved_point (A : transform) (g g' : dgeom) : Prop :=
  dg_p g' = t_point A (dg_p g) /\ dg_nn g' = normalize (t_normal A (dg_nn g)) /\ dg_u g' = dg_u g /\ dg_v g' = dg_v g.
(** ... and the tangents are moved along. *)
Definition moved_tangents (A : transform) (g g' : dgeom) : Prop :=
  dg_dpdu g' = t_vector A (dg_dpdu g) /\ dg_dpdv g' = t_vector A (dg_dpdv g).
(** [T g g']: what is known about the two surface points.  Hits at the same ray parameter, with the same tolerance. *)
Definition moved_hit (T : dgeom -> dgeom -> Prop) (h h' : hit) : Prop :=
  h_t h' = h_t h /\ h_eps h' = h_eps h /\ T (h_dg h) (h_dg h').
Definition moved_result (T : dgeom -> dgeom -> Prop) (x x' : res (option hit)) : Prop :=
  match x, x' with
  | Ok None, Ok None => True
  | Ok (Some h), Ok (Some h') => moved_hit T h h'
  | Err e, Err e' => e = e'
  | _, _ => False
  end.
(** The (u,v) parameters used for the face starting at index [v] are not on one line (default parameters never are). *)
Definition uv_free (uv : option (list R)) (v : Z) : Prop :=
  match uv with
  | None => True
  | Some l => (0 <= v)%Z /\ let x k := nth (2 * Z.to_nat v + k) l 0 in
      (x 0%nat - x 4%nat) * (x 3%nat - x 5%nat) - (x 2%nat - x 4%nat) * (x 1%nat - x 5%nat) <> 0
  end.
