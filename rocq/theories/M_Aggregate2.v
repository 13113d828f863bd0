(** Model of Scene.__init__ over the exhaustive aggregate and the uniform grid (scene/scene.py:21-29 with
    aggregate/aggregate.py): world_bound() of both returns the aggregate's own box object, which the constructor
    enlarges in place when the scene has a medium. *)
From Coq Require Import Reals List ZArith Bool.
From Verif Require Import Base M_Geometry M_BVH M_Aggregate.
Import ListNotations.
Local Open Scope R_scope.

(** aggregate.py:39-51 (SimpleAggregate): the number of primitives and the box attribute *)
Record simple := mkSimple { s_n : nat; s_bounds : box }.
(** aggregate.py:39-51 (SimpleAggregate.__init__), from the world bounds of the primitives *)
Definition simple_make (bounds : list (vec * vec)) : simple := mkSimple (length bounds) (agg_bounds bounds).
(** aggregate.py:72-93 (SimpleAggregate.intersect), reading the box attribute; as in M_Aggregate.simple_intersect the
    loop does nothing without primitives *)
Definition simple_query (pi : prim_isect) (s : simple) (r : ray) : bool * ray * option nat :=
  match s_n s with
  | O => (false, r, None)
  | n => match bbox_intersect_p (vmap corner (bmin (s_bounds s))) (vmap corner (bmax (s_bounds s))) r with
         | None => (false, r, None)
         | Some (t0, t1) =>
             let st := fold_left (simple_step pi) (seq 0 n) (mkSS r t0 t1 PInf false None) in
             (ss_any st, ss_ray st, ss_rec st)
         end
  end.
(** aggregate.py:95-105 (SimpleAggregate.intersect_p) *)
Definition simple_query_p (pp : nat -> ray -> bool) (s : simple) (r : ray) : bool :=
  match s_n s with
  | O => false
  | n => match bbox_intersect_p (vmap corner (bmin (s_bounds s))) (vmap corner (bmax (s_bounds s))) r with
         | None => false
         | Some _ => existsb (fun i => pp i r) (seq 0 n)
         end
  end.
(** scene.py:21-29, aggregate.py:56-57: the scene's bound and the aggregate afterwards; [vb]: the medium's bound *)
Definition scene_simple (s : simple) (vb : option box) : box * simple :=
  match vb with
  | None => (s_bounds s, s)
  | Some v => let b := union_bb (s_bounds s) v in (b, mkSimple (s_n s) b)
  end.
(** scene.py:21-29, aggregate.py:244-245: likewise for the grid, whose voxel counts, widths and voxels stay *)
Definition scene_grid (g : grid) (vb : option box) : box * grid :=
  match vb with
  | None => (fbox (g_lo g) (g_hi g), g)
  | Some v => let b := union_bb (fbox (g_lo g) (g_hi g)) v in
      (b, mkGrid (vmap corner (bmin b)) (vmap corner (bmax b)) (g_nv g) (g_w g) (g_iw g) (g_vox g))
  end.
