(** Model of the Scene constructor's bounding box (scene/scene.py). *)
From Coq Require Import Reals List ZArith.
From Verif Require Import Base M_Geometry M_Transform M_Shapes M_BVH M_Reflection M_Primitive.
Import ListNotations.
Open Scope R_scope.

(** bvh.py:412-414: [world_bound] returns the root node's own box object, so an in-place change of the returned
    box changes the root node of the tree. *)
Definition set_root (nodes : list lnode) (b : box) : list lnode :=
  match nodes with
  | [] => []
  | n :: l => mkL b (l_offset n) (l_nprim n) (l_axis n) :: l
  end.

(** scene.py:22-29: [self.bound = self.aggregate.world_bound(); if self.vr is not None: self.bound.union(vr.world_bound())].
    [sc] is the aggregate (as in [scene_make]), [vb] the volume's world bound if there is a volume.
    Returns the stored bound and the aggregate afterwards. *)
Definition scene_init (sc : option (list lnode * list gprim)) (vb : option box)
  : res (box * option (list lnode * list gprim)) :=
  do b <- bvh_world_bound (match sc with Some (nodes, _) => Some nodes | None => None end);
  match vb with
  | None => Ok (b, sc)
  | Some v => let b' := union_bb b v in
      Ok (b', match sc with Some (nodes, ps) => Some (set_root nodes b', ps) | None => None end)
  end.
