(** Model of pytracer/aggregate/accelerator/bvh.py.
    Primitives are represented by their position in the refined list together with their world
    bound, which is taken to be a box with finite corners lo, hi (what BBox(p1,p2) yields).
    Not modelled: Python's recursion limit (bvh.py:96-102). *)
From Coq Require Import String.
From Coq Require Import Reals Lra List Bool ZArith Arith.
From Verif Require Import Base M_Geometry.
Import ListNotations.
Open Scope R_scope.

(** Division of extended numbers, zero denominators counted as +0.0 (surface areas). *)
Definition ediv (a b : E) : E :=
  match a, b with
  | NaN, _ | _, NaN => NaN
  | Fin x, Fin y => edivz false x y
  | Fin _, _ => Fin 0
  | PInf, Fin y => if Rltb y 0 then NInf else PInf
  | NInf, Fin y => if Rltb y 0 then PInf else NInf
  | _, _ => NaN
  end.
(** Python int(x): NaN raises ValueError (infinities raise OverflowError, identified with
    ValueError here). *)
Definition eint (e : E) : res Z := match e with Fin r => Ok (Ztrunc r) | _ => Err ValueError end.

(** bvh.py:31-35 (_BVHPrimitive) *)
Record bprim := mkBP { bp_idx : nat; bp_lo : vec; bp_hi : vec }.
Definition bp_bounds (p : bprim) : box := fbox (bp_lo p) (bp_hi p).
(** bvh.py:35: centroid = .5 * (pMin + pMax) *)
Definition bp_centroid (p : bprim) : vec := vscale (/ 2) (vadd (bp_lo p) (bp_hi p)).

(** bvh.py:40-58 (_BVHNode): a leaf (init_leaf, 48-51) or an interior node (init_inter, 53-58) *)
Inductive tree :=
| Leaf (b : box) (first n : nat)
| Node (b : box) (axis : nat) (c0 c1 : tree).
Definition tbounds (t : tree) : box := match t with Leaf b _ _ => b | Node b _ _ _ => b end.

(** bvh.py:26-29 (SplitMethod) *)
Inductive split_method := MIDDLE | SAH.

(** bvh.py:74-83: choice of the split method from the constructor's string, already lower-cased;
    'equal' names a member the enum does not have. *)
Definition method_of (s : String.string) : res split_method :=
  if String.eqb s "sah"%string then Ok SAH
  else if String.eqb s "middle"%string then Ok MIDDLE
  else if String.eqb s "equal"%string then Err AttributeError
  else Ok SAH.

(** Python list cells.  All indices produced by the code are in range (proved in P_BVH). *)
Definition dflt : bprim := mkBP 0 vzero vzero.
Definition aget (d : list bprim) (i : nat) : bprim := nth i d dflt.
Fixpoint aset {A} (d : list A) (i : nat) (x : A) : list A :=
  match d, i with
  | [], _ => []
  | _ :: d', O => x :: d'
  | y :: d', S i' => y :: aset d' i' x
  end.
(** bvh.py:118, 148: data[i], data[k] = data[k], data[i] *)
Definition aswap (d : list bprim) (i k : nat) : list bprim :=
  let x := aget d i in let y := aget d k in aset (aset d i y) k x.

(** The while loop of bvh.py:114-120 and 138-150; [goes_left] is the loop's test (which may raise).
    [fuel] only makes the recursion structural: [k - i] decreases at every step. *)
Fixpoint part_loop (fuel : nat) (goes_left : bprim -> res bool) (d : list bprim) (i k : nat)
  : res (list bprim * nat) :=
  match fuel with
  | O => Ok (d, k)
  | S f =>
      if (i <? k)%nat then
        do l <- goes_left (aget d i);
        if (l : bool) then part_loop f goes_left d (S i) k
        else part_loop f goes_left (aswap d i k) i (k - 1)
      else Ok (d, k)
  end.

(** bvh.py:109-120 (_partition) *)
Definition partition_mid (d : list bprim) (start end_ : nat) (mid : R) (dim : nat)
  : res (list bprim * nat) :=
  part_loop (end_ - start) (fun p => Ok (Rltb (vnth (bp_centroid p) dim) mid)) d start (end_ - 1).

(** bvh.py:139-143 = 221-227: the bucket of a primitive, with the assertion *)
Definition n_buckets : Z := 12.
Definition bucket_of (cb : box) (dim : nat) (p : bprim) : res nat :=
  let mn := vnth (bmin cb) dim in let mx := vnth (bmax cb) dim in
  do b <- eint (emul (Fin (IZR n_buckets))
                     (ediv (esub (Fin (vnth (bp_centroid p) dim)) mn) (esub mx mn)));
  let b := if (b =? n_buckets)%Z then (b - 1)%Z else b in
  if ((0 <=? b)%Z && (b <? n_buckets)%Z) then Ok (Z.to_nat b) else Err AssertionError.

(** bvh.py:132-150 (_bucket_partition) *)
Definition bucket_partition (d : list bprim) (start end_ min_cost_idx dim : nat) (cb : box)
  : res (list bprim * nat) :=
  part_loop (end_ - start)
    (fun p => do b <- bucket_of cb dim p; Ok (b <=? min_cost_idx)%nat) d start (end_ - 1).

(** bvh.py:127-130: inner loop of _insertion_sort *)
Fixpoint ins_loop (k : nat) (start dim : nat) (dk : bprim) (d : list bprim) : list bprim :=
  match k with
  | O => aset d k dk
  | S k' =>
      if (start <? k)%nat && Rltb (vnth (bp_centroid dk) dim) (vnth (bp_centroid (aget d k')) dim)
      then ins_loop k' start dim dk (aset d k (aget d k'))
      else aset d k dk
  end.
(** bvh.py:122-130 (_insertion_sort): for i in range(start, end) *)
Definition insertion_sort (d : list bprim) (start end_ dim : nat) : list bprim :=
  fold_left (fun d i => ins_loop i start dim (aget d i) d) (seq start (end_ - start)) d.

(** bvh.py:166-168 and 181-183: bounds of primitives / of centroids in a segment *)
Definition seg_bounds (d : list bprim) (start end_ : nat) : box :=
  fold_left (fun b i => union_bb b (bp_bounds (aget d i))) (seq start (end_ - start)) bbox_empty.
Definition seg_centroids (d : list bprim) (start end_ : nat) : box :=
  fold_left (fun b i => union_pt b (vmap Fin (bp_centroid (aget d i)))) (seq start (end_ - start)) bbox_empty.

(** bvh.py:219-230: fill the buckets *)
Definition bucket := (nat * box)%type.
Fixpoint fill_buckets (d : list bprim) (cb : box) (dim : nat) (is : list nat) (bs : list bucket)
  : res (list bucket) :=
  match is with
  | [] => Ok bs
  | i :: is' =>
      do b <- bucket_of cb dim (aget d i);
      let '(c, bb) := nth b bs (0%nat, bbox_empty) in
      fill_buckets d cb dim is' (aset bs b (S c, union_bb bb (bp_bounds (aget d i))))
  end.
(** bvh.py:235-243: union of a range of buckets *)
Definition merge_buckets (bs : list bucket) : bucket :=
  fold_left (fun acc b => (fst acc + fst b, union_bb (snd acc) (snd b))%nat) bs (0%nat, bbox_empty).
(** bvh.py:246-247: cost of splitting after bucket i *)
Definition split_cost (bs : list bucket) (whole : box) (i : nat) : E :=
  let '(c0, b0) := merge_buckets (firstn (S i) bs) in
  let '(c1, b1) := merge_buckets (skipn (S i) bs) in
  eadd (Fin (/ 8))
    (ediv (eadd (emul (Fin (INR c0)) (surface_area b0)) (emul (Fin (INR c1)) (surface_area b1)))
          (surface_area whole)).
(** bvh.py:250: numpy.argmin (first minimum; a NaN counts as minimal) *)
Fixpoint argmin_from (best : E) (ibest i : nat) (l : list E) : nat :=
  match l with
  | [] => ibest
  | x :: l' =>
      match best, x with
      | NaN, _ => ibest
      | _, NaN => argmin_from NaN i (S i) l'
      | _, _ => if eltb x best then argmin_from x i (S i) l' else argmin_from best ibest (S i) l'
      end
  end.
Definition argmin (l : list E) : nat :=
  match l with [] => 0%nat | x :: l' => argmin_from x 0 1 l' end.

(** bvh.py:211-265: choice of the split position in the surface-area branch.
    [None]: create a leaf (line 260). *)
Definition sah_split (max_prim : nat) (d : list bprim) (start end_ dim : nat) (cb bbox : box)
  : res (list bprim * option nat) :=
  let n_prim := (end_ - start)%nat in
  if (n_prim <=? 4)%nat then
    Ok (insertion_sort d start end_ dim, Some ((start + end_) / 2)%nat)
  else
    do bs <- fill_buckets d cb dim (seq start (end_ - start)) (repeat (0%nat, bbox_empty) 12);
    let costs := map (split_cost bs bbox) (seq 0 11) in
    let mi := argmin costs in
    if (max_prim <? n_prim)%nat || eltb (nth mi costs NaN) (Fin (INR n_prim)) then
      do (d', mid) <- bucket_partition d start end_ mi dim cb;
      let mid := if (mid =? start)%nat then S mid
                 else if (mid =? end_)%nat then (mid - 1)%nat else mid in
      Ok (d', Some mid)
    else Ok (d, None).

(** bvh.py:152-275 (_recursive_build).  State: the data array, the list of ordered primitives
    (by index) and the node counter segment[2].  [fuel] bounds the recursion depth; it is never
    exhausted when [end_ - start <= fuel] (segments shrink strictly). Fuel exhaustion is reported
    as RuntimeError (RecursionError). *)
Definition bstate := (list bprim * list nat * nat)%type.
Definition emit_leaf (d : list bprim) (start end_ : nat) (ordered : list nat) : list nat :=
  ordered ++ map (fun i => bp_idx (aget d i)) (seq start (end_ - start)).

Fixpoint build (fuel : nat) (method : split_method) (max_prim : nat) (start end_ : nat) (st : bstate)
  : res (tree * bstate) :=
  match fuel with
  | O => Err RuntimeError
  | S f =>
    let '(d, ordered, total) := st in
    if negb (start <? end_)%nat then Err AssertionError      (* line 156 *)
    else
      let total := S total in                                (* line 162 *)
      let bbox := seg_bounds d start end_ in                 (* 166-168 *)
      let n_prim := (end_ - start)%nat in
      let leaf := Ok (Leaf bbox (length ordered) n_prim, (d, emit_leaf d start end_ ordered, total)) in
      let recurse := fun d mid dim =>                        (* 267-273 = 195-201 *)
        if (mid =? end_)%nat || (mid =? start)%nat then Err AssertionError
        else
          do (c0, st1) <- build f method max_prim start mid (d, ordered, total);
          do (c1, st2) <- build f method max_prim mid end_ st1;
          Ok (Node (union_bb (tbounds c0) (tbounds c1)) dim c0 c1, st2) in
      if (n_prim =? 1)%nat then leaf                         (* 171-177 *)
      else
        let mid := ((start + end_) / 2)%nat in
        let cb := seg_centroids d start end_ in
        let dim := maximum_extent cb in
        if eeqb (vnth (bmax cb) dim) (vnth (bmin cb) dim) then   (* 187 *)
          if (n_prim <=? max_prim)%nat then leaf else recurse d mid dim
        else
          match method with
          | MIDDLE =>                                        (* 206-208 *)
              match emul (Fin (/ 2)) (eadd (vnth (bmax cb) dim) (vnth (bmin cb) dim)) with
              | Fin pmid =>
                  do (d', mid) <- partition_mid d start end_ pmid dim;
                  recurse d' mid dim
              | _ => Err ValueError  (* unreachable: centroids are finite *)
              end
          | SAH =>
              do (d', mid) <- sah_split max_prim d start end_ dim cb bbox;
              match mid with
              | Some mid => recurse d' mid dim
              | None => Err TypeError                        (* 263: list index by an object *)
              end
          end
  end.

(** bvh.py:91-107: build data, root call and node array *)
Definition build_data (bounds : list (vec * vec)) : list bprim :=
  map (fun '(i, (lo, hi)) => mkBP i lo hi) (combine (seq 0 (length bounds)) bounds).
Definition bvh_build (method : split_method) (max_prim : nat) (bounds : list (vec * vec))
  : res (tree * list nat * nat) :=
  let d := build_data bounds in
  do (t, (_, ordered, total)) <- build (length bounds) method max_prim 0 (length bounds) (d, [], 0%nat);
  Ok (t, ordered, total).

(** bvh.py:60-66 (_LinearNode) *)
Record lnode := mkL { l_bounds : box; l_offset : nat; l_nprim : nat; l_axis : nat }.
Definition lnode0 : lnode := mkL bbox_empty 0 0 0.

(** bvh.py:277-293 (_flatten_tree): writes into the node array, threading the next free slot;
    returns (array, next slot).  The entry written by a call is the slot it was given. *)
Fixpoint flatten (t : tree) (nodes : list lnode) (off : nat) : res (list lnode * nat) :=
  if (off <? length nodes)%nat then
    match t with
    | Leaf b first n => Ok (aset nodes off (mkL b first n 0), S off)
    | Node b axis c0 c1 =>
        do (nodes1, off1) <- flatten c0 (aset nodes off (mkL b 0 0 axis)) (S off);
        do (nodes2, off2) <- flatten c1 nodes1 off1;
        Ok (aset nodes2 off (mkL b off1 0 axis), off2)
    end
  else Err IndexError.
Definition bvh_flatten (t : tree) (total : nat) : res (list lnode) :=
  do (nodes, _) <- flatten t (repeat lnode0 total) 0; Ok nodes.

(** bvh.py:295-320 (_intersect_p).  inv_dir = 1. / ray.d (line 327) and dir_neg = ray.d < 0.
    (line 328); a zero component has an infinite inverse of the sign of that zero. *)
Definition inv_comp (d : R) (nz : bool) : E := edivz nz 1 d.
Definition slab_lo (lo hi o d : R) (nz : bool) : E :=
  emul (Fin ((if Rltb d 0 then hi else lo) - o)) (inv_comp d nz).
Definition slab_hi (lo hi o d : R) (nz : bool) : E :=
  emul (Fin ((if Rltb d 0 then lo else hi) - o)) (inv_comp d nz).
Definition bvh_box_test (lo hi : vec) (r : ray) : bool :=
  let s := fun i => slab_lo (vnth lo i) (vnth hi i) (vnth (ro r) i) (vnth (rd r) i) (vnth (rdz r) i) in
  let e := fun i => slab_hi (vnth lo i) (vnth hi i) (vnth (ro r) i) (vnth (rd r) i) (vnth (rdz r) i) in
  let tmin := s 0%nat in let tmax := e 0%nat in
  let tmin_y := s 1%nat in let tmax_y := e 1%nat in
  if eltb tmax_y tmin || eltb tmax tmin_y then false
  else
    let tmin := if eltb tmin tmin_y then tmin_y else tmin in
    let tmax := if eltb tmax_y tmax then tmax_y else tmax in
    let tmin_z := s 2%nat in let tmax_z := e 2%nat in
    if eltb tmax_z tmin || eltb tmax tmin_z then false
    else
      let tmin := if eltb tmin tmin_z then tmin_z else tmin in
      let tmax := if eltb tmax_z tmax then tmax_z else tmax in
      eltb tmin (rmaxt r) && eltb (rmint r) tmax.

(** Corners of a node box; node boxes of a built tree are finite (P_BVH), the other case is
    the value for an empty box, never stored in a node. *)
Definition corner (e : E) : R := match e with Fin x => x | _ => 0 end.
Definition box_test (b : box) (r : ray) : bool :=
  bvh_box_test (vmap corner (bmin b)) (vmap corner (bmax b)) r.

(** A primitive's intersect(ray, isect): None for a miss, or the new ray.maxt.
    The intersection record is represented by the index (in the ordered list) of the primitive. *)
Definition prim_isect := nat -> ray -> option R.

(** bvh.py:339-341: test all primitives of a leaf *)
Fixpoint leaf_loop (pi : prim_isect) (is : list nat) (st : ray * option nat) : ray * option nat :=
  match is with
  | [] => st
  | i :: is' =>
      match pi i (fst st) with
      | Some t => leaf_loop pi is' (ray_set_maxt (fst st) (Fin t), Some i)
      | None => leaf_loop pi is' st
      end
  end.

(** bvh.py:322-365 (intersect).  The todo array of 64 entries with its fill index is a stack;
    a push onto a full stack is the IndexError of line 350/355.  Result: None while out of fuel. *)
Fixpoint traverse (fuel : nat) (pi : prim_isect) (nodes : list lnode) (node_idx : nat)
  (todo : list nat) (st : ray * option nat) : res (option (ray * option nat)) :=
  match fuel with
  | O => Ok None
  | S f =>
      match nth_error nodes node_idx with
      | None => Err IndexError
      | Some node =>
          let pop := fun st => match todo with
                               | [] => Ok (Some st)
                               | j :: todo' => traverse f pi nodes j todo' st
                               end in
          if box_test (l_bounds node) (fst st) then
            if (0 <? l_nprim node)%nat then
              pop (leaf_loop pi (seq (l_offset node) (l_nprim node)) st)
            else if (64 <=? length todo)%nat then Err IndexError
            else if Rltb (vnth (rd (fst st)) (l_axis node)) 0
                 then traverse f pi nodes (l_offset node) (S node_idx :: todo) st
                 else traverse f pi nodes (S node_idx) (l_offset node :: todo) st
          else pop st
      end
  end.

(** bvh.py:367-410 (intersect_p); [pp i r] is the primitive's own predicate. *)
Fixpoint traverse_p (fuel : nat) (pp : nat -> ray -> bool) (nodes : list lnode) (node_idx : nat)
  (todo : list nat) (r : ray) : res (option bool) :=
  match fuel with
  | O => Ok None
  | S f =>
      match nth_error nodes node_idx with
      | None => Err IndexError
      | Some node =>
          let pop := match todo with
                     | [] => Ok (Some false)
                     | j :: todo' => traverse_p f pp nodes j todo' r
                     end in
          if box_test (l_bounds node) r then
            if (0 <? l_nprim node)%nat then
              if existsb (fun i => pp i r) (seq (l_offset node) (l_nprim node)) then Ok (Some true)
              else pop
            else if (64 <=? length todo)%nat then Err IndexError
            else if Rltb (vnth (rd r) (l_axis node)) 0
                 then traverse_p f pp nodes (l_offset node) (S node_idx :: todo) r
                 else traverse_p f pp nodes (S node_idx) (l_offset node :: todo) r
          else pop
      end
  end.

(** bvh.py:85-107: the constructed object: None for no primitives (self.nodes = None), else the
    node array and the reordered primitives. *)
Definition bvh_make (method : split_method) (max_prim : nat) (bounds : list (vec * vec))
  : res (option (list lnode * list nat)) :=
  match bounds with
  | [] => Ok None
  | _ => do (t, ordered, total) <- bvh_build method max_prim bounds;
         do nodes <- bvh_flatten t total;
         Ok (Some (nodes, ordered))
  end.
(** bvh.py:322-365 with the entry test of 324-325; [fuel] as in [traverse]. *)
Definition bvh_intersect (fuel : nat) (pi : prim_isect) (nodes : option (list lnode)) (r : ray)
  : res (option (ray * option nat)) :=
  match nodes with
  | None => Ok (Some (r, None))
  | Some ns => traverse fuel pi ns 0 [] (r, None)
  end.
(** bvh.py:367-410 *)
Definition bvh_intersect_p (fuel : nat) (pp : nat -> ray -> bool) (nodes : option (list lnode)) (r : ray)
  : res (option bool) :=
  match nodes with
  | None => Ok (Some false)
  | Some ns => traverse_p fuel pp ns 0 [] r
  end.
(** bvh.py:412-415 (world_bound) *)
Definition bvh_world_bound (nodes : option (list lnode)) : res box :=
  match nodes with
  | None => Ok bbox_empty
  | Some ns => match nth_error ns 0 with Some n => Ok (l_bounds n) | None => Err IndexError end
  end.
