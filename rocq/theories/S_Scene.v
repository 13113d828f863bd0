(** Specification vocabulary for scenes built from triangle meshes, spheres and disks. *)
From Coq Require Import Reals List ZArith.
From Verif Require Import Base M_Geometry S_Geometry M_Transform S_Transform M_Shapes M_BVH S_BVH M_Primitive S_Shapes.
Import ListNotations.
Open Scope R_scope.

(** [touches g r t]: the ray properly meets the object at parameter [t] (not edge-on, and not closer to
    tangency than the renderer's tolerance). *)
Definition touches (g : geom) (r : ray) (t : R) : Prop :=
  match g with
  | GMesh b vi P _ _ _ =>
      exists f, (3 * f + 2 < length vi)%nat /\
        let a := corner (b_o2w b) vi P f 0 in let c := corner (b_o2w b) vi P f 1 in let d := corner (b_o2w b) vi P f 2 in
        vdot (rd r) (tri_normal a c d) <> 0 /\ in_triangle a c d (ray_at r t)
  | GSphere b rad z0 z1 pm =>
      let s := sphere_make b rad z0 z1 pm in
      EPS < discriminant (t_point (b_w2o b) (ro r)) (t_vector (b_w2o b) (rd r)) rad /\
      on_sphere rad (sp_zmin s) (sp_zmax s) (sp_phimax s) (t_point (b_w2o b) (ray_at r t))
  | GDisk b h rad ri pm =>
      EPS <= Rabs (vz (t_vector (b_w2o b) (rd r))) /\
      on_disk h rad ri (phi_max_of pm) (t_point (b_w2o b) (ray_at r t))
  end.
(** The object was built from acceptable arguments; quadrics are placed without rotation. *)
Definition geom_ok (g : geom) : Prop :=
  match g with
  | GMesh b vi P _ _ uv => (length vi mod 3 = 0)%nat /\ faces_ok vi (length P) /\
      (forall l, uv = Some l -> (2 * length vi <= length l)%nat)
  | GSphere b rad _ _ _ => base_ok b /\ nonneg_linear (tm (b_o2w b)) /\ 0 < rad
  | GDisk b _ rad _ _ => base_ok b /\ nonneg_linear (tm (b_o2w b)) /\ 0 < rad
  end.
(** The ray does not meet a disk close to its centre (where the code raises, C68). *)
Definition avoids_centre (r : ray) (g : geom) : Prop :=
  match g with
  | GDisk b _ _ ri _ => forall t, touches g r t ->
      let q := t_point (b_w2o b) (ray_at r t) in ri < vx q * vx q + vy q * vy q
  | _ => True
  end.
(** The point reported for a hit at [t]: the point of the ray, except on the axis of a sphere. *)
Definition reported_point (g : geom) (r : ray) (t : R) (p : vec) : Prop :=
  match g with
  | GSphere b rad _ _ _ => let q := t_point (b_w2o b) (ray_at r t) in
      p = ray_at r t \/ (vx q = 0 /\ vy q = 0 /\ p = t_point (b_o2w b) (mkV (EPS * rad) 0 (vz q)))
  | _ => p = ray_at r t
  end.
(** The number of nodes of the stored tree. *)
Definition scene_size (sc : option (list lnode * list gprim)) : nat := match sc with Some (nodes, _) => length nodes | None => 0%nat end.
(** What a correct nearest-hit query of a scene returns, with the record it fills in. *)
Definition scene_nearest (items : list item) (r0 : ray) (i0 : isect) (found : bool) (r' : ray) (i' : isect) : Prop :=
  if found then
    exists it t dg, In it items /\ r' = ray_set_maxt r0 (Fin t) /\ touches (it_geom it) r0 t /\
      ele (rmint r0) (Fin t) /\ ele (Fin t) (rmaxt r0) /\
      (forall it' t', In it' items -> touches (it_geom it') r0 t' -> elt (rmint r0) (Fin t') -> t <= t') /\
      is_dg i' = Some dg /\ reported_point (it_geom it) r0 t (dg_p dg) /\
      exists p, is_prim i' = Some p /\ gp_material p = it_material it /\ gp_light p = it_light it /\
        is_prim_id i' = gp_id p /\ is_shape_id i' = gp_shape_id p
  else r' = r0 /\ i' = i0 /\
    forall it t, In it items -> touches (it_geom it) r0 t -> elt (rmint r0) (Fin t) -> elt (Fin t) (rmaxt r0) -> False.
(** What a correct any-hit query returns. *)
Definition scene_any (items : list item) (r0 : ray) (b : bool) : Prop :=
  if b then exists it t, In it items /\ touches (it_geom it) r0 t /\ ele (rmint r0) (Fin t) /\ ele (Fin t) (rmaxt r0)
  else forall it t, In it items -> touches (it_geom it) r0 t -> elt (rmint r0) (Fin t) -> elt (Fin t) (rmaxt r0) -> False.
