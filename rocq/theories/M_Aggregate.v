(** Model of pytracer/aggregate/primitive.py and pytracer/aggregate/aggregate.py
    (SimpleAggregate, GridAccel, Voxel on intersectable primitives; the lazy refinement done by
    Voxel under the grid's lock is modelled in M_VoxelThreads).
    As in M_BVH, a primitive in an aggregate is its position in the list together with its world
    bound (a box with finite corners) and its intersect / intersect_p functions. *)
From Coq Require Import Reals Lra List Bool ZArith Arith.
From Verif Require Import Base M_Geometry M_BVH.
Import ListNotations.
Open Scope R_scope.

(** ** Refinement hierarchies *)
(** A shape: can_intersect() = True, or the list its refine() returns (shape/__init__.py:63-69).
    [nat] names the shape. *)
Inductive shp := SLeaf (s : nat) | SComp (s : nat) (subs : list shp).
Definition shp_can_intersect (s : shp) : bool := match s with SLeaf _ => true | SComp _ _ => false end.
Definition shp_refine (s : shp) : list shp := match s with SLeaf _ => [] | SComp _ l => l end.

(** primitive.py:79-84 (GeometricPrimitive): identifier, shape, material, area light (None
    allowed); materials and lights are named by numbers. *)
Record gprim := mkGP { gp_id : nat; gp_shape : shp; gp_mat : nat; gp_light : option nat }.

(** primitive.py:28-30, 80-84: a new primitive takes the value of the class counter
    Primitive.next_primitiveId, which is then incremented. *)
Definition gp_new (next : nat) (s : shp) (m : nat) (a : option nat) : gprim * nat :=
  (mkGP next s m a, S next).

(** primitive.py:119-122 (GeometricPrimitive.refine): appends to the list it is given *)
Fixpoint gp_refine_loop (subs : list shp) (m : nat) (a : option nat) (refined : list gprim) (next : nat)
  : list gprim * nat :=
  match subs with
  | [] => (refined, next)
  | s :: subs' => let '(p, next') := gp_new next s m a in
                  gp_refine_loop subs' m a (refined ++ [p]) next'
  end.
Definition gp_refine (p : gprim) (refined : list gprim) (next : nat) : list gprim * nat :=
  gp_refine_loop (shp_refine (gp_shape p)) (gp_mat p) (gp_light p) refined next.

(** primitive.py:68-75 (full_refine); list.pop() takes the last element.  [fuel] counts loop
    iterations; None: not finished. *)
Fixpoint full_refine_loop (fuel : nat) (todo refined : list gprim) (next : nat)
  : option (list gprim * nat) :=
  match rev todo with
  | [] => Some (refined, next)
  | p :: rest =>
      match fuel with
      | O => None
      | S f =>
          let todo := rev rest in
          if shp_can_intersect (gp_shape p) then full_refine_loop f todo (refined ++ [p]) next
          else let '(todo', next') := gp_refine p todo next in full_refine_loop f todo' refined next'
      end
  end.
Definition full_refine (fuel : nat) (p : gprim) (refined : list gprim) (next : nat) :=
  full_refine_loop fuel [p] refined next.

(** aggregate.py:42-47 = 175-180: refine_imm *)
Fixpoint refine_all (fuel : nat) (ps refined : list gprim) (next : nat) : option (list gprim * nat) :=
  match ps with
  | [] => Some (refined, next)
  | p :: ps' => match full_refine fuel p refined next with
                | Some (r, n) => refine_all fuel ps' r n
                | None => None
                end
  end.

(** ** Exhaustive aggregate *)
(** aggregate.py:49-51 = 183-187 *)
Definition agg_bounds (bounds : list (vec * vec)) : box :=
  fold_left (fun b p => union_bb b (fbox (fst p) (snd p))) bounds bbox_empty.
Definition agg_lo (bounds : list (vec * vec)) : vec := vmap corner (bmin (agg_bounds bounds)).
Definition agg_hi (bounds : list (vec * vec)) : vec := vmap corner (bmax (agg_bounds bounds)).

(** aggregate.py:72-93 (SimpleAggregate.intersect): loop state *)
Record sstate := mkSS { ss_ray : ray; ss_t0 : E; ss_t1 : E; ss_mint : E; ss_any : bool; ss_rec : option nat }.
(** aggregate.py:83-91 *)
Definition simple_step (pi : prim_isect) (st : sstate) (i : nat) : sstate :=
  match pi i (ss_ray st) with
  | None => st
  | Some t =>
      let r := ray_set_maxt (ss_ray st) (Fin t) in
      let t0 := emax (ss_t0 st) (rmaxt r) in
      let t1 := emin (ss_t1 st) (rmaxt r) in
      if eltb t1 t0 then mkSS r t0 t1 (ss_mint st) (ss_any st) (ss_rec st)
      else if eltb (rmaxt r) (ss_mint st) then mkSS r t0 t1 (rmaxt r) true (Some i)
      else mkSS r t0 t1 (ss_mint st) true (ss_rec st)
  end.
(** aggregate.py:72-93.  With no primitives the loop body never runs, so the result is False
    whatever the test of the (empty) bounds gives. *)
Definition simple_intersect (pi : prim_isect) (bounds : list (vec * vec)) (r : ray)
  : bool * ray * option nat :=
  match bounds with
  | [] => (false, r, None)
  | _ => match bbox_intersect_p (agg_lo bounds) (agg_hi bounds) r with
         | None => (false, r, None)
         | Some (t0, t1) =>
             let st := fold_left (simple_step pi) (seq 0 (length bounds)) (mkSS r t0 t1 PInf false None) in
             (ss_any st, ss_ray st, ss_rec st)
         end
  end.
(** aggregate.py:95-105 *)
Definition simple_intersect_p (pp : nat -> ray -> bool) (bounds : list (vec * vec)) (r : ray) : bool :=
  match bounds with
  | [] => false
  | _ => match bbox_intersect_p (agg_lo bounds) (agg_hi bounds) r with
         | None => false
         | Some _ => existsb (fun i => pp i r) (seq 0 (length bounds))
         end
  end.

(** ** Uniform grid *)
Record grid := mkGrid {
  g_lo : vec; g_hi : vec;
  g_nv : V3 Z;                 (* n_voxels, integral floats *)
  g_w : vec; g_iw : vec;       (* width, invWidth *)
  g_vox : list (list nat) }.   (* [] for a voxel that is None *)

Definition Zclip (v lo hi : Z) : Z := Z.min (Z.max v lo) hi.

(** aggregate.py:234-236 (pos2voxel); [p] finite *)
Definition pos2voxel_ (lo iw : vec) (nv : V3 Z) (p : vec) (axis : nat) : Z :=
  Zclip (Ztrunc ((vnth p axis - vnth lo axis) * vnth iw axis)) 0 (vnth nv axis - 1).
Definition pos2voxel (g : grid) := pos2voxel_ (g_lo g) (g_iw g) (g_nv g).
(** aggregate.py:238-239 (voxel2pos) *)
Definition voxel2pos (g : grid) (i : Z) (axis : nat) : R :=
  vnth (g_lo g) axis + IZR i * vnth (g_w g) axis.
(** aggregate.py:241-242 (offset) *)
Definition goffset (nv : V3 Z) (x y z : Z) : Z := (z * vx nv * vy nv + y * vx nv + x)%Z.

(** Python range(a, b) *)
Definition zrange (a b : Z) : list Z := map (fun k => (a + Z.of_nat k)%Z) (seq 0 (Z.to_nat (b - a))).

(** aggregate.py:218-226: register primitive [i] in one voxel *)
Definition vox_add (nv : V3 Z) (i : nat) (x y z : Z) (vox : list (list nat)) : res (list (list nat)) :=
  let o := Z.to_nat (goffset nv x y z) in
  match nth_error vox o with
  | None => Err IndexError
  | Some l => Ok (aset vox o (l ++ [i]))
  end.
Fixpoint for_each {A S} (f : A -> S -> res S) (l : list A) (s : S) : res S :=
  match l with [] => Ok s | a :: l' => do s' <- f a s; for_each f l' s' end.
(** aggregate.py:210-226: the voxels of primitive [i] with bounds [lo,hi] *)
Definition vox_add_prim (glo iw : vec) (nv : V3 Z) (p : nat * (vec * vec)) (vox : list (list nat))
  : res (list (list nat)) :=
  let '(i, (lo, hi)) := p in
  let vmin := pos2voxel_ glo iw nv lo in
  let vmax := pos2voxel_ glo iw nv hi in
  for_each (fun z => for_each (fun y => for_each (fun x => vox_add nv i x y z)
    (zrange (vmin 0%nat) (vmax 0%nat + 1))) (zrange (vmin 1%nat) (vmax 1%nat + 1)))
    (zrange (vmin 2%nat) (vmax 2%nat + 1)) vox.

(** aggregate.py:189-204: resolution and voxel sizes; [n] primitives, delta = hi - lo.  The cube
    root is computed by numpy.power(n, 1./3.). *)
Definition n_vox (n : nat) (dmax d : R) : Z :=
  Zclip (Ztrunc (d * (3 * Rpower (INR n) (/ 3) * (1 / dmax)))) 1 64.
Definition inv_width (w : R) : R := if Reqb w 0 then 0 else 1 / w.

(** aggregate.py:173-229 (GridAccel.__init__).  No primitives, or bounds of zero extent: int(nan)
    raises ValueError at line 200. *)
Definition grid_make (bounds : list (vec * vec)) : res grid :=
  match bounds with
  | [] => Err ValueError
  | _ =>
      let lo := agg_lo bounds in let hi := agg_hi bounds in
      let delta := vsub hi lo in
      let dmax := vnth delta (maximum_extent (agg_bounds bounds)) in
      if Reqb dmax 0 then Err ValueError
      else
        let nv := vmap (n_vox (length bounds) dmax) delta in
        let w := vmap2 (fun d n => d / IZR n) delta nv in
        let iw := vmap inv_width w in
        let nvox := Z.to_nat (vx nv * vy nv * vz nv)%Z in
        do vox <- for_each (vox_add_prim lo iw nv) (combine (seq 0 (length bounds)) bounds) (repeat [] nvox);
        Ok (mkGrid lo hi nv w iw vox)
  end.

(** aggregate.py:267-268, 272-279: next crossing, increment, step and limit per axis *)
Definition g_next (g : grid) (r : ray) (ray_t : R) (gi : vec) (pos : Z) (axis : nat) : E :=
  let d := vnth (rd r) axis in
  let q := edivz (vnth (rdz r) axis) (vnth gi axis) d in
  esub (Fin (ray_t + voxel2pos g (if Rltb d 0 then pos else pos + 1)%Z axis)) q.
Definition g_delta (g : grid) (r : ray) (axis : nat) : E :=
  let d := vnth (rd r) axis in
  let q := edivz (vnth (rdz r) axis) (vnth (g_w g) axis) d in
  if Rltb d 0 then eopp q else q.
Definition g_step (r : ray) (axis : nat) : Z := if Rltb (vnth (rd r) axis) 0 then (-1)%Z else 1%Z.
Definition g_out (g : grid) (r : ray) (axis : nat) : Z :=
  if Rltb (vnth (rd r) axis) 0 then (-1)%Z else vnth (g_nv g) axis.
Definition vset {A} (v : V3 A) (i : nat) (x : A) : V3 A :=
  match i with O => mkV x (vy v) (vz v) | S O => mkV (vx v) x (vz v) | _ => mkV (vx v) (vy v) x end.

(** One query against the primitives of a voxel, threading a state [S]:
    aggregate.py:137-144 (Voxel.intersect) and 163-168 (Voxel.intersect_p) *)
(** aggregate.py:283-296 = 333-346: the walk.  [visit] queries one voxel; [maxt] reads ray.maxt
    from the state. *)
Fixpoint grid_walk {S : Type} (fuel : nat) (g : grid) (r : ray) (visit : list nat -> S -> S) (maxt : S -> E)
  (pos : V3 Z) (nc : V3 E) (st : S) : res (option S) :=
  match fuel with
  | O => Ok None
  | Datatypes.S f =>
      match nth_error (g_vox g) (Z.to_nat (goffset (g_nv g) (vx pos) (vy pos) (vz pos))) with
      | None => Err IndexError
      | Some l =>
          let st := visit l st in
          let ax := argmin [vx nc; vy nc; vz nc] in
          if eltb (maxt st) (vnth nc ax) then Ok (Some st)
          else
            let p := (vnth pos ax + g_step r ax)%Z in
            let pos := vset pos ax p in
            if (p =? g_out g r ax)%Z then Ok (Some st)
            else grid_walk f g r visit maxt pos (vset nc ax (eadd (vnth nc ax) (g_delta g r ax))) st
      end
  end.
(** aggregate.py:258-281 = 308-332: set up and start the walk *)
Definition grid_start {S : Type} (fuel : nat) (g : grid) (r : ray) (ray_t : R) (visit : list nat -> S -> S)
  (maxt : S -> E) (st : S) : res (option S) :=
  let gi := ray_at r ray_t in
  let pos := mkV (pos2voxel g gi 0) (pos2voxel g gi 1) (pos2voxel g gi 2) in
  let nc := mkV (g_next g r ray_t gi (vx pos) 0) (g_next g r ray_t gi (vy pos) 1) (g_next g r ray_t gi (vz pos) 2) in
  grid_walk fuel g r visit maxt pos nc st.

(** aggregate.py:250-298 (GridAccel.intersect); ray.mint finite (ray(ray.mint) of an infinite
    parameter is outside the model: ValueError here). *)
Definition grid_intersect (fuel : nat) (g : grid) (pi : prim_isect) (r : ray)
  : res (option (ray * option nat)) :=
  match rmint r with
  | Fin m =>
      let visit := fun l st => leaf_loop pi l st in
      let maxt := fun st : ray * option nat => rmaxt (fst st) in
      if inside (fbox (g_lo g) (g_hi g)) (ray_at r m) then grid_start fuel g r m visit maxt (r, None)
      else match bbox_intersect_p (g_lo g) (g_hi g) r with
           | None => Ok (Some (r, None))
           | Some _ => grid_start fuel g r 0 visit maxt (r, None)
           end
  | _ => Err ValueError
  end.
(** aggregate.py:300-348 (GridAccel.intersect_p).  Line 305 tests a non-empty tuple, which is
    always true, so the early exit is never taken. *)
Definition grid_intersect_p (fuel : nat) (g : grid) (pp : nat -> ray -> bool) (r : ray)
  : res (option bool) :=
  match rmint r with
  | Fin m =>
      let visit := fun l st => st || existsb (fun i => pp i r) l in
      let ray_t := if inside (fbox (g_lo g) (g_hi g)) (ray_at r m) then m else 0 in
      grid_start fuel g r ray_t visit (fun _ => rmaxt r) false
  | _ => Err ValueError
  end.
