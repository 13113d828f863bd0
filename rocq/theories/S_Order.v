(** Vocabulary for comparing scenes: rays without ties, and scenes which agree on what a ray and its sight lines meet. *)
From Coq Require Import Reals List ZArith.
From Verif Require Import Base M_Geometry M_Transform M_Shapes S_Shapes M_BVH S_BVH M_Light M_Primitive S_Scene M_World S_World.
Import ListNotations.
Local Open Scope R_scope.

(** the ray does not meet a mesh where two of its faces meet *)
Definition one_face (r : ray) (it : item) (t : R) : Prop :=
  match it_geom it with
  | GMesh b vi P _ _ _ => forall f f', (3 * f + 2 < length vi)%nat -> (3 * f' + 2 < length vi)%nat ->
      in_triangle (S_Shapes.corner (b_o2w b) vi P f 0) (S_Shapes.corner (b_o2w b) vi P f 1) (S_Shapes.corner (b_o2w b) vi P f 2) (ray_at r t) ->
      in_triangle (S_Shapes.corner (b_o2w b) vi P f' 0) (S_Shapes.corner (b_o2w b) vi P f' 1) (S_Shapes.corner (b_o2w b) vi P f' 2) (ray_at r t) -> f = f'
  | _ => True
  end.
(** nothing ambiguous along the ray: no surface exactly at its ends, no two objects or faces met at one place; no surface
    exactly at the ends of a sight line from a point the ray meets *)
Definition unambiguous (items : list item) (lamps : list lamp) (r : ray) : Prop :=
  (forall it t, In it items -> touches (it_geom it) r t -> Fin t <> rmint r /\ Fin t <> rmaxt r /\
     (forall it', In it' items -> touches (it_geom it') r t -> it' = it) /\ one_face r it t) /\
  (forall it t l it' s, In it items -> touches (it_geom it) r t -> In l lamps -> In it' items ->
     let q := sight (ray_at r t) (lp_pos l) (offset_at (it_geom it) t) (rtime r) in
     touches (it_geom it') q s -> rmint q <> Fin s /\ Fin s <> rmaxt q).
(** every object the ray, or a sight line from a point the ray meets, meets is in both scenes or in neither *)
Definition same_met (items items' : list item) (lamps : list lamp) (r : ray) : Prop :=
  (forall it t, touches (it_geom it) r t -> (In it items <-> In it items')) /\
  (forall it t l it' s, In it items -> touches (it_geom it) r t -> In l lamps ->
     touches (it_geom it') (sight (ray_at r t) (lp_pos l) (offset_at (it_geom it) t) (rtime r)) s -> (In it' items <-> In it' items')).
(** The hypotheses of C270 about a scene and a ray: acceptable shapes without area lights, a tree that is not too high, and a ray and
    sight lines that do not run along the faces of bounding boxes, through the centres of disks or the poles of spheres; no lamp on a surface point
    the ray meets. *)
Definition viewable (mp : nat) (items : list item) (ns np : Z) (lamps : list lamp) (r : ray) : Prop :=
  let prims := full_refine_items items ns np in
  (mp <= 4)%nat /\ Forall (fun it => geom_ok (it_geom it)) items /\ (forall it, In it items -> plain_item it) /\
  ((length prims <= 65)%nat \/ forall bounds t o n, prim_bounds prims = Ok bounds ->
     bvh_build SAH mp bounds = Ok (t, o, n) -> (theight t <= 64)%nat) /\
  clear_ray items prims r /\ off_poles items r /\
  (forall it t l, In it items -> touches (it_geom it) r t -> In l lamps ->
     lp_pos l <> ray_at r t /\ clear_ray items prims (sight (ray_at r t) (lp_pos l) (offset_at (it_geom it) t) (rtime r))).
