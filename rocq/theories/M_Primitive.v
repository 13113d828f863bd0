(** Model of aggregate/primitive.py (GeometricPrimitive), aggregate/intersection.py and the scene queries
    scene/scene.py:25-48, with the BVH of accelerator/bvh.py as the aggregate. *)
From Coq Require Import Reals String List ZArith Bool.
From Verif Require Import Base M_Python M_Geometry M_Transform M_Shapes M_Reflection M_Light M_BVH.
Import ListNotations.
Open Scope R_scope.

(** The shapes whose constructor works: a triangle of a mesh, given by the mesh and the position of
    its first index (shape/triangle.py:107-120); sphere; disk.  (Cylinders cannot be constructed,
    C68.) *)
Inductive shape := STri (m : mesh) (v : Z) | SSph (s : sphere) | SDisk (d : disk).

(** shape.o2w, shape.w2o (shape/__init__.py:45-50; triangle.py:113-114 passes the mesh's transforms on) *)
Definition shape_base (s : shape) : base :=
  match s with STri m _ => m_base m | SSph s => sp_base s | SDisk d => dk_base d end.
(** shape.intersect(r) *)
Definition shape_intersect (s : shape) (r : ray) : res (option hit) :=
  match s with
  | STri m v => tri_intersect m v r
  | SSph s => Ok (sphere_intersect s r)
  | SDisk d => disk_intersect d r
  end.
(** shape.intersect_p(r) *)
Definition shape_intersect_p (s : shape) (r : ray) : res bool :=
  match s with
  | STri m v => tri_intersect_p m v r
  | SSph s => Ok (sphere_intersect_p s r)
  | SDisk d => Ok (disk_intersect_p d r)
  end.
(** shape.world_bound() (shape/__init__.py:63-64, triangle.py:140-144), as the pair of corners *)
Definition shape_bound (s : shape) : res (vec * vec) :=
  match s with
  | STri m v => do b <- tri_world_bound m v; Ok (vmap corner (bmin b), vmap corner (bmax b))
  | SSph s => Ok (shape_world_bound (sp_base s) (fst (sphere_object_bound s)) (snd (sphere_object_bound s)))
  | SDisk d => Ok (shape_world_bound (dk_base d) (fst (disk_object_bound d)) (snd (disk_object_bound d)))
  end.

(** primitive.py:80-84 (GeometricPrimitive.__init__): the shape, the identifiers, the material (an
    index) and the area light (intensity, or None) *)
Record gprim := mkGP { gp_shape : shape; gp_shape_id : Z; gp_id : Z; gp_material : nat; gp_light : option vec }.
(** primitive.py:28-30: creating a primitive takes the class-wide counter and increments it *)
Definition prim_new (next_id : Z) : Z * Z := (next_id, (next_id + 1)%Z).

(** intersection.py:19-27: the mutable record a query fills in; [is_prim] is the primitive *)
Record isect := mkIs { is_dg : option dgeom; is_prim : option gprim; is_w2o : option transform;
  is_o2w : option transform; is_shape_id : Z; is_prim_id : Z; is_eps : R }.
(** intersection.py:19-20: the defaults *)
Definition isect_new : isect := mkIs None None None None 0 0 0.

(** primitive.py:97-103: what a hit writes *)
Definition record_hit (p : gprim) (h : hit) : isect :=
  mkIs (Some (h_dg h)) (Some p) (Some (b_w2o (shape_base (gp_shape p)))) (Some (b_o2w (shape_base (gp_shape p))))
       (gp_shape_id p) (gp_id p) (h_eps h).
(** primitive.py:89-108 (GeometricPrimitive.intersect): (found, ray, record) *)
Definition gp_intersect (p : gprim) (r : ray) (i : isect) : res (bool * ray * isect) :=
  do h <- shape_intersect (gp_shape p) r;
  match h with
  | None => Ok (false, r, i)
  | Some h => Ok (true, ray_set_maxt r (Fin (h_t h)), record_hit p h)
  end.
(** primitive.py:110-111 *)
Definition gp_intersect_p (p : gprim) (r : ray) : res bool := shape_intersect_p (gp_shape p) r.

(** intersection.py:41-52 (le); AttributeError if the record was never filled in *)
Definition isect_le (i : isect) (w : vec) : res vec :=
  match is_prim i with
  | None => Err AttributeError
  | Some p =>
      match gp_light p with
      | None => Ok (spec 0)
      | Some e => match is_dg i with None => Err AttributeError | Some g => Ok (diffuse_l e (dg_nn g) w) end
      end
  end.

(** ** The scene: BVHAccel over geometric primitives *)
(** bvh.py:335-341: the loop over a leaf's primitives with the mutable ray and record *)
Fixpoint sc_leaf (ps : nat -> res gprim) (l : list nat) (st : bool * ray * isect) : res (bool * ray * isect) :=
  match l with
  | [] => Ok st
  | k :: l' =>
      let '(hit, r, i) := st in
      do p <- ps k;
      do (found, r', i') <- gp_intersect p r i;
      sc_leaf ps l' (if found then true else hit, r', i')
  end.
(** bvh.py:322-365 (intersect) with those primitives; stack and fuel as in [M_BVH.traverse] *)
Fixpoint sc_traverse (fuel : nat) (ps : nat -> res gprim) (nodes : list lnode) (node_idx : nat)
  (todo : list nat) (st : bool * ray * isect) : res (option (bool * ray * isect)) :=
  match fuel with
  | O => Ok None
  | S f =>
      match nth_error nodes node_idx with
      | None => Err IndexError
      | Some node =>
          let pop := fun st => match todo with
                               | [] => Ok (Some st)
                               | j :: todo' => sc_traverse f ps nodes j todo' st
                               end in
          let '(_, r, _) := st in
          if box_test (l_bounds node) r then
            if (0 <? l_nprim node)%nat then
              do st' <- sc_leaf ps (seq (l_offset node) (l_nprim node)) st; pop st'
            else if (64 <=? length todo)%nat then Err IndexError
            else if Rltb (vnth (rd r) (l_axis node)) 0
                 then sc_traverse f ps nodes (l_offset node) (S node_idx :: todo) st
                 else sc_traverse f ps nodes (S node_idx) (l_offset node :: todo) st
          else pop st
      end
  end.
(** bvh.py:383-389: any primitive of the leaf, stopping at the first *)
Fixpoint sc_leaf_p (ps : nat -> res gprim) (l : list nat) (r : ray) : res bool :=
  match l with
  | [] => Ok false
  | k :: l' => do p <- ps k; do b <- gp_intersect_p p r; if b then Ok true else sc_leaf_p ps l' r
  end.
(** bvh.py:367-410 (intersect_p) *)
Fixpoint sc_traverse_p (fuel : nat) (ps : nat -> res gprim) (nodes : list lnode) (node_idx : nat)
  (todo : list nat) (r : ray) : res (option bool) :=
  match fuel with
  | O => Ok None
  | S f =>
      match nth_error nodes node_idx with
      | None => Err IndexError
      | Some node =>
          let pop := match todo with
                     | [] => Ok (Some false)
                     | j :: todo' => sc_traverse_p f ps nodes j todo' r
                     end in
          if box_test (l_bounds node) r then
            if (0 <? l_nprim node)%nat then
              do b <- sc_leaf_p ps (seq (l_offset node) (l_nprim node)) r;
              if b then Ok (Some true) else pop
            else if (64 <=? length todo)%nat then Err IndexError
            else if Rltb (vnth (rd r) (l_axis node)) 0
                 then sc_traverse_p f ps nodes (l_offset node) (S node_idx :: todo) r
                 else sc_traverse_p f ps nodes (S node_idx) (l_offset node :: todo) r
          else pop
      end
  end.

(** ** Describing a scene by the arguments of the constructors *)
(** What create_triangle_mesh (triangle.py:18-103), Sphere (sphere.py:26-34) and Disk (disk.py:26-32) are given. *)
Inductive geom :=
| GMesh (b : base) (vi : list Z) (P : list vec) (N S : option (list vec)) (uv : option (list R))
| GSphere (b : base) (rad z0 z1 pm : R)
| GDisk (b : base) (h rad ri pm : R).
(** A GeometricPrimitive as the user creates it, with the identifiers its constructor took. *)
Record item := mkItem { it_geom : geom; it_shape_id : Z; it_id : Z; it_material : nat; it_light : option vec }.
(** triangle.py:466-472 (refine), primitive.py:119-122 (refine) and 68-75 (full_refine, list.pop() takes
    the last element, hence the reversal; C34 proves this of the general loop): the primitives the BVH
    stores for one item.  [ns], [np]: the class-wide counters.  Result: primitives and counters. *)
Definition full_refine_item (it : item) (ns np : Z) : list gprim * Z * Z :=
  match it_geom it with
  | GMesh b vi P N T uv =>
      let nt := (length vi / 3)%nat in
      let m := mesh_make b nt (length P) vi P N T uv None in
      (rev (map (fun k => mkGP (STri m (3 * Z.of_nat k)) (ns + Z.of_nat k) (np + Z.of_nat k)
                               (it_material it) (it_light it)) (seq 0 nt)),
       (ns + Z.of_nat nt)%Z, (np + Z.of_nat nt)%Z)
  | GSphere b rad z0 z1 pm =>
      ([mkGP (SSph (sphere_make b rad z0 z1 pm)) (it_shape_id it) (it_id it) (it_material it) (it_light it)], ns, np)
  | GDisk b h rad ri pm =>
      ([mkGP (SDisk (disk_make b h rad ri pm)) (it_shape_id it) (it_id it) (it_material it) (it_light it)], ns, np)
  end.
(** bvh.py:72-73 *)
Fixpoint full_refine_items (l : list item) (ns np : Z) : list gprim :=
  match l with
  | [] => []
  | it :: l => let '(ps, ns', np') := full_refine_item it ns np in ps ++ full_refine_items l ns' np'
  end.

(** bvh.py:85-107 and the bounds of the primitives: node array and reordered primitives *)
Fixpoint prim_bounds (l : list gprim) : res (list (vec * vec)) :=
  match l with
  | [] => Ok []
  | p :: l => do b <- shape_bound (gp_shape p); do bs <- prim_bounds l; Ok (b :: bs)
  end.
Definition scene_make (mp : nat) (prims : list gprim) : res (option (list lnode * list gprim)) :=
  do bounds <- prim_bounds prims;
  do t <- bvh_make SAH mp bounds;
  match t with
  | None => Ok None
  | Some (nodes, ordered) =>
      Ok (Some (nodes, map (fun k => nth k prims (mkGP (SSph (sphere_make (mkBase t_identity t_identity false) 1 0 0 0)) 0 0 0 None)) ordered))
  end.
(** Python list indexing of the primitives array (non-negative indices) *)
Definition prim_at (l : list gprim) (k : nat) : res gprim :=
  match nth_error l k with Some p => Ok p | None => Err IndexError end.
(** scene.py:41-42 with bvh.py:322-326 (found, ray, record) *)
Definition scene_intersect (fuel : nat) (sc : option (list lnode * list gprim)) (r : ray) (i : isect)
  : res (option (bool * ray * isect)) :=
  match sc with
  | None => Ok (Some (false, r, i))
  | Some (nodes, ps) => sc_traverse fuel (prim_at ps) nodes 0 [] (false, r, i)
  end.
(** scene.py:44-45 with bvh.py:367-371 *)
Definition scene_intersect_p (fuel : nat) (sc : option (list lnode * list gprim)) (r : ray) : res (option bool) :=
  match sc with
  | None => Ok (Some false)
  | Some (nodes, ps) => sc_traverse_p fuel (prim_at ps) nodes 0 [] r
  end.

(** ** Which primitive classes can be instantiated *)
(** primitive.py:38-66: the abstract methods of Primitive *)
Definition primitive_abstract : list string :=
  ["world_bound"; "can_intersect"; "intersect"; "intersect_p"; "refine"; "get_area_light"; "get_bsdf"; "get_bssrdf"]%string.
(** primitive.py:79-133: the methods GeometricPrimitive defines *)
Definition geometric_methods : list string :=
  ["__init__"; "__repr__"; "intersect"; "intersect_p"; "world_bound"; "can_intersect"; "refine"; "get_area_light";
   "get_bsdf"; "get_bssrdf"]%string.
(** primitive.py:137-185: the methods TransformedPrimitive defines *)
Definition transformed_methods : list string :=
  ["__init__"; "__repr__"; "intersect"; "intersect_p"; "world_bound"; "can_intersect"; "refine"]%string.
(** primitive.py:80-84 *)
Definition geometric_new (s : shape) (sid id : Z) (mat : nat) (light : option vec) : res gprim :=
  instantiate primitive_abstract geometric_methods (mkGP s sid id mat light).
(** primitive.py:137-141; the instance is the pair (primitive, animated transform) *)
Definition transformed_new {W} (p : gprim) (w2p : W) : res (gprim * W) :=
  instantiate primitive_abstract transformed_methods (p, w2p).
