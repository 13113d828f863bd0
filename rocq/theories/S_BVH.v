(** Specification vocabulary for the BVH properties. *)
From Coq Require Import Reals List Permutation Arith.
From Verif Require Import Base M_Geometry S_Geometry M_BVH.
Import ListNotations.

(** The contents of the segment [s, e) of an array. *)
Definition slice (d : list bprim) (s e : nat) : list bprim := map (aget d) (seq s (e - s)).

(** Union of the bounds of a list of primitives. *)
Definition bounds_of (ps : list bprim) : box :=
  accumulate bbox_empty (map (fun p => GB (bp_bounds p)) ps).

(** [describes t ps off]: tree [t] stores exactly the primitives [ps], in this order, at
    positions [off, off+1, ...] of the ordered list; every node's bounds is the union of the
    bounds of the primitives below it; no leaf is empty. *)
Inductive describes : tree -> list bprim -> nat -> Prop :=
| d_leaf ps off : ps <> [] -> describes (Leaf (bounds_of ps) off (length ps)) ps off
| d_node ax c0 c1 ps0 ps1 off :
    describes c0 ps0 off -> describes c1 ps1 (off + length ps0) ->
    describes (Node (bounds_of (ps0 ++ ps1)) ax c0 c1) (ps0 ++ ps1) off.

Fixpoint tsize (t : tree) : nat :=
  match t with Leaf _ _ _ => 1 | Node _ _ a b => S (tsize a + tsize b) end.
(** number of interior nodes on the longest path *)
Fixpoint theight (t : tree) : nat :=
  match t with Leaf _ _ _ => 0 | Node _ _ a b => S (Nat.max (theight a) (theight b)) end.

(** [laid_out nodes i t]: the array [nodes] stores [t] in pre-order from position [i]: first child
    next, second child at the stored offset, which is just behind the first child. *)
Fixpoint laid_out (nodes : list lnode) (i : nat) (t : tree) : Prop :=
  match t with
  | Leaf b first n => nth_error nodes i = Some (mkL b first n 0)
  | Node b ax c0 c1 =>
      nth_error nodes i = Some (mkL b (S i + tsize c0) 0 ax) /\
      laid_out nodes (S i) c0 /\ laid_out nodes (S i + tsize c0) c1
  end.

Open Scope R_scope.

(** [surf i t]: the point of the ray with parameter [t] lies on primitive [i].
    [nearest_contract]: what BVH traversal may assume of Primitive.intersect - it reports the
    smallest parameter of the primitive in the ray's closed range, or a miss if there is none. *)
Definition nearest_contract (surf : nat -> R -> Prop) (pi : prim_isect) (r0 : ray) : Prop :=
  forall i m, notnan m -> let r := ray_set_maxt r0 m in
    match pi i r with
    | Some t => surf i t /\ ele (rmint r) (Fin t) /\ ele (Fin t) m /\
                (forall t', surf i t' -> ele (rmint r) (Fin t') -> t <= t')
    | None => forall t', surf i t' -> ele (rmint r) (Fin t') -> ele (Fin t') m -> False
    end.
(** Primitive.intersect_p reports whether the primitive meets the closed range. *)
Definition any_contract (surf : nat -> R -> Prop) (pp : nat -> ray -> bool) (r0 : ray) : Prop :=
  forall i, pp i r0 = true <-> exists t, surf i t /\ ele (rmint r0) (Fin t) /\ ele (Fin t) (rmaxt r0).

(** The surface of a primitive lies inside its reported bounds. *)
Definition within_bounds (surf : nat -> R -> Prop) (bounds : nat -> vec * vec) (r0 : ray) (n : nat) : Prop :=
  forall i t, (i < n)%nat -> surf i t -> between (fst (bounds i)) (ray_at r0 t) (snd (bounds i)).

(** Zero direction components are +0.0, and a ray parallel to the x slabs does not start exactly
    on an x face plane of a primitive's bounds. *)
Definition pos_zero (r : ray) : Prop :=
  (vx (rd r) = 0 -> vx (rdz r) = false) /\ (vy (rd r) = 0 -> vy (rdz r) = false) /\
  (vz (rd r) = 0 -> vz (rdz r) = false).
Definition off_x_faces (r : ray) (lo hi : vec) : Prop :=
  vx (rd r) = 0 -> vx (ro r) <> vx lo /\ vx (ro r) <> vx hi.

(** What a correct nearest-hit query returns. *)
Definition nearest_hit (surf : nat -> R -> Prop) (n : nat) (r0 : ray) (r' : ray) (hit : option nat) : Prop :=
  match hit with
  | None => r' = r0 /\
      forall i t, (i < n)%nat -> surf i t -> elt (rmint r0) (Fin t) -> elt (Fin t) (rmaxt r0) -> False
  | Some i => (i < n)%nat /\ exists t, r' = ray_set_maxt r0 (Fin t) /\ surf i t /\
      ele (rmint r0) (Fin t) /\ ele (Fin t) (rmaxt r0) /\
      forall j t', (j < n)%nat -> surf j t' -> elt (rmint r0) (Fin t') -> t <= t'
  end.

(** What a correct any-hit query returns: True only if something is in the closed parameter range,
    False only if nothing is in the open one. *)
Definition any_hit (surf : nat -> R -> Prop) (n : nat) (r0 : ray) (b : bool) : Prop :=
  if b then exists i t, (i < n)%nat /\ surf i t /\ ele (rmint r0) (Fin t) /\ ele (Fin t) (rmaxt r0)
  else forall i t, (i < n)%nat -> surf i t -> elt (rmint r0) (Fin t) -> elt (Fin t) (rmaxt r0) -> False.

(** The primitives stored below a node: what its leaves refer to in the ordered list. *)
Fixpoint stored (ordered : list nat) (t : tree) : list nat :=
  match t with
  | Leaf _ first n => firstn n (skipn first ordered)
  | Node _ _ a b => stored ordered a ++ stored ordered b
  end.
Inductive subtree (s : tree) : tree -> Prop :=
| sub_refl : subtree s s
| sub_l b ax c0 c1 : subtree s c0 -> subtree s (Node b ax c0 c1)
| sub_r b ax c0 c1 : subtree s c1 -> subtree s (Node b ax c0 c1).
(** The given bounds of primitive [i]. *)
Definition given_bounds (bounds : list (vec * vec)) (i : nat) : box :=
  let '(lo, hi) := nth i bounds (vzero, vzero) in fbox lo hi.
(** The centre of the given bounds of primitive [i] along an axis. *)
Definition centre (bounds : list (vec * vec)) (i ax : nat) : R :=
  let '(lo, hi) := nth i bounds (vzero, vzero) in (vnth lo ax + vnth hi ax) / 2.
