(** Model of pytracer/shape/loopsubdiv.py seen from outside: create_loop_subdiv, the surface as an object that is refined
    more than once, its bound in the world, and its place in a scene.
    Simplification: vertex indices are natural numbers (negative ones would wrap around, C74); util.logging (a print) is
    left out. *)
From Coq Require Import Reals List Bool Arith ZArith.
From Verif Require Import Base M_Geometry M_Transform M_Shapes M_Primitive M_Loop.
Import ListNotations.
Open Scope R_scope.

(** loopsubdiv.py:38-42 and 204-211: three by three *)
Fixpoint triples {A} (l : list A) : list (V3 A) :=
  match l with a :: b :: c :: l' => mkV a b c :: triples l' | _ => [] end.
(** loopsubdiv.py:19-44.  [nlevels], [vi], [P]: the entries 'nlevels', 'indices', 'P' of the parameters, None if absent.
    Line 208 (vertices[vi[k + j]]) raises IndexError for an index that names no vertex. *)
Definition create_loop_subdiv (fuel : nat -> nat) (nlevels : option nat) (vi : option (list nat)) (P : option (list R))
  : run (option (M_Loop.mesh * nat)) :=
  let nl := match nlevels with Some n => n | None => 3%nat end in
  match vi, P with
  | Some vi, Some P =>
      if negb (length P mod 3 =? 0)%nat then ret None
      else if negb (length vi mod 3 =? 0)%nat then ret None
      else let ts := triples vi in let ps := triples P in
           if existsb (fun i => (length ps <=? i)%nat) vi then Some (Err IndexError)
           else dr m <- loop_make (fuel (length ts)) ts ps; ret (Some (m, nl))
  | _, _ => ret None
  end.
(** loopsubdiv.py:284-288 (world_bound) *)
Definition loop_world_bound (o2w : transform) (m : M_Loop.mesh) : box :=
  fold_left (fun b x => union_pt b (vmap Fin (t_point o2w (vP x)))) (mV m) bbox_empty.
(** loopsubdiv.py:293-446, 396-397: what refine() returns and the surface it leaves behind.  Lines 294-295 take the
    object's own vertices and faces, 384-385 replace them by those of the next level; so 396-397 (vv.P = Plimit[i])
    overwrite the object's own positions if there is no level. *)
Definition loop_refine (fuel : nat -> nat) (nl : nat) (m : M_Loop.mesh) : run (list nat * list vec * list vec) * M_Loop.mesh :=
  (M_Loop.refine fuel nl m,
   match nl with
   | O => match to_limit (fuel (length (mF m))) m with Some (Ok m2) => m2 | _ => m end
   | S _ => m
   end).
Fixpoint loop_refine_times (k : nat) (fuel : nat -> nat) (nl : nat) (m : M_Loop.mesh) : list (run (list nat * list vec * list vec)) * M_Loop.mesh :=
  match k with
  | O => ([], m)
  | S k => let '(r, m1) := loop_refine fuel nl m in let '(rs, m2) := loop_refine_times k fuel nl m1 in (r :: rs, m2)
  end.

(** ** In a scene *)
(** loopsubdiv.py:437-446: the mesh handed to create_triangle_mesh (M_Shapes.create_mesh), as the item of a scene *)
Definition loop_geom (fuel : nat -> nat) (nl : nat) (b : base) (m : M_Loop.mesh) : run geom :=
  dr (vi, P, N) <- M_Loop.refine fuel nl m;
  let vi := map Z.of_nat vi in
  dr _ <- lift (create_mesh b vi P (Some N) None None);
  ret (GMesh b vi P (Some N) None None).
(** What a GeometricPrimitive in the list given to the aggregate may hold. *)
Inductive geom2 := G1 (g : geom) | GLoop (b : base) (m : M_Loop.mesh) (nl : nat).
Record item2 := mkItem2 { it2_geom : geom2; it2_shape_id : Z; it2_id : Z; it2_material : nat; it2_light : option vec }.
(** primitive.py:119-122: refine() makes one GeometricPrimitive from the list [mesh] that LoopSubdiv.refine returns; its
    shape and the primitive take the next identifiers.  primitive.py:68-75 (full_refine) then refines that one. *)
Definition full_refine_item2 (fuel : nat -> nat) (it : item2) (ns np : Z) : run (list gprim * Z * Z) :=
  match it2_geom it with
  | G1 g => ret (full_refine_item (mkItem g (it2_shape_id it) (it2_id it) (it2_material it) (it2_light it)) ns np)
  | GLoop b m nl =>
      dr g <- loop_geom fuel nl b m;
      ret (full_refine_item (mkItem g ns np (it2_material it) (it2_light it)) (ns + 1) (np + 1))
  end.
(** bvh.py:72-73 *)
Fixpoint full_refine_items2 (fuel : nat -> nat) (l : list item2) (ns np : Z) : run (list gprim) :=
  match l with
  | [] => ret []
  | it :: l => dr (ps, ns', np') <- full_refine_item2 fuel it ns np; dr qs <- full_refine_items2 fuel l ns' np'; ret (ps ++ qs)
  end.
