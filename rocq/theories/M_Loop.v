(** Model of shape/loopsubdiv.py (Loop subdivision surfaces).  References between Python objects are indices: a face is
    its position in the list of faces of its level, a vertex its position in the list of vertices.  Every loop that
    follows references takes a bound [fuel]; [None] means the bound was used up. *)
From Coq Require Import Reals List Bool Arith ZArith.
From Verif Require Import Base M_Geometry.
Import ListNotations.
Open Scope R_scope.

(** [run A]: a computation that may raise or run forever *)
Definition run (A : Type) := option (res A).
Definition ret {A} (a : A) : run A := Some (Ok a).
Definition rbind {A B} (x : run A) (f : A -> run B) : run B :=
  match x with None => None | Some (Err e) => Some (Err e) | Some (Ok a) => f a end.
Notation "'dr' x <- e1 ; e2" := (rbind e1 (fun x => e2)) (at level 60, x pattern, e1 at level 59, e2 at level 60, right associativity).
Definition lift {A} (x : res A) : run A := Some x.
(** a Python for loop collecting one result per element *)
Fixpoint mapR {A B} (f : A -> run B) (l : list A) : run (list B) :=
  match l with [] => ret [] | a :: l' => dr b <- f a; dr bs <- mapR f l'; ret (b :: bs) end.

(** ** Corners of a face: indices 0, 1, 2 *)
Inductive c3 := k0 | k1 | k2.
Definition cnum (k : c3) : nat := match k with k0 => 0 | k1 => 1 | k2 => 2 end%nat.
(** shape/__init__.py:28-29 (NEXT: (i+1) mod 3) *)
Definition NEXT (k : c3) : c3 := match k with k0 => k1 | k1 => k2 | k2 => k0 end.
(** shape/__init__.py:32-33 (PREV: (i+2) mod 3) *)
Definition PREV (k : c3) : c3 := match k with k0 => k2 | k1 => k0 | k2 => k1 end.
Definition at3 {A} (t : V3 A) (k : c3) : A := match k with k0 => vx t | k1 => vy t | k2 => vz t end.
Definition tab3 {A} (g : c3 -> A) : V3 A := mkV (g k0) (g k1) (g k2).
Definition c3_eqb (j k : c3) : bool := Nat.eqb (cnum j) (cnum k).

(** loopsubdiv.py:54-65 (SDVertex), 137-140 (SDFace): [fv] its vertices, [ff] its neighbours, [ff k] across the edge
    from corner k to corner NEXT k *)
Record face := mkF { fv : V3 nat; ff : V3 (option nat) }.
Record vert := mkVt { vP : vec; vstart : nat; vbnd : bool; vreg : bool }.
Record mesh := mkMesh { mF : list face; mV : list vert }.
(** following a reference (references never dangle in Python; the defaults are never used, see P_Loop.v) *)
Definition getF (m : mesh) (F : nat) : face := nth F (mF m) (mkF (mkV 0 0 0)%nat (mkV None None None)).
Definition getV (m : mesh) (v : nat) : vert := nth v (mV m) (mkVt vzero 0 false false).
Definition posn (m : mesh) (v : nat) : vec := vP (getV m v).

(** loopsubdiv.py:145-149 *)
Definition vnum (f : face) (v : nat) : res c3 :=
  if Nat.eqb (at3 (fv f) k0) v then Ok k0 else if Nat.eqb (at3 (fv f) k1) v then Ok k1
  else if Nat.eqb (at3 (fv f) k2) v then Ok k2 else Err RuntimeError.
(** loopsubdiv.py:151-161 *)
Definition next_face (m : mesh) (v F : nat) : res (option nat) := do k <- vnum (getF m F) v; Ok (at3 (ff (getF m F)) k).
Definition prev_face (m : mesh) (v F : nat) : res (option nat) := do k <- vnum (getF m F) v; Ok (at3 (ff (getF m F)) (PREV k)).
Definition next_vert (m : mesh) (v F : nat) : res nat := do k <- vnum (getF m F) v; Ok (at3 (fv (getF m F)) (NEXT k)).
Definition prev_vert (m : mesh) (v F : nat) : res nat := do k <- vnum (getF m F) v; Ok (at3 (fv (getF m F)) (PREV k)).
(** loopsubdiv.py:163-167 *)
Definition other_vert (f : face) (a b : nat) : res nat :=
  let ok i := negb (Nat.eqb (at3 (fv f) i) a) && negb (Nat.eqb (at3 (fv f) i) b) in
  if ok k0 then Ok (at3 (fv f) k0) else if ok k1 then Ok (at3 (fv f) k1) else if ok k2 then Ok (at3 (fv f) k2)
  else Err RuntimeError.

(** The loops "while f is not stop: ...; f = step(f)" (85-87, 93-95, 98-100, 110-112, 117-119, 124-126, 236-237): the
    faces visited, and whether the loop ended at [stop] (true) or at None (false) *)
Fixpoint walk (step : nat -> res (option nat)) (stop : option nat) (fuel : nat) (f : option nat) : run (list nat * bool) :=
  match fuel with
  | O => None
  | S n =>
      match f with
      | None => ret ([], false)
      | Some g =>
          if match stop with Some s => Nat.eqb g s | None => false end then ret ([], true)
          else dr f' <- lift (step g); dr (l, b) <- walk step stop n f'; ret (g :: l, b)
      end
  end.
(** loopsubdiv.py:82-88, 107-112: the faces around an interior vertex, starting with startFace.  Reaching None is
    None.next_face(...), an AttributeError.  (valence and one_ring run the same loop.) *)
Definition fan (m : mesh) (fuel v : nat) : run (list nat) :=
  let s := vstart (getV m v) in
  dr f <- lift (next_face m v s); dr (l, b) <- walk (next_face m v) (Some s) fuel f;
  if b then ret (s :: l) else Some (Err AttributeError).
(** loopsubdiv.py:79-101 *)
Definition valence (m : mesh) (fuel v : nat) : run nat :=
  if vbnd (getV m v) then
    let s := vstart (getV m v) in
    dr f <- lift (next_face m v s); dr (a, _) <- walk (next_face m v) None fuel f;
    dr g <- lift (prev_face m v s); dr (b, _) <- walk (prev_face m v) None fuel g;
    ret (1 + length a + length b + 1)%nat
  else dr l <- fan m fuel v; ret (length l).
(** loopsubdiv.py:103-128: the neighbouring vertices in order (the code collects their positions) *)
Definition one_ring (m : mesh) (fuel v : nat) : run (list nat) :=
  if vbnd (getV m v) then
    let s := vstart (getV m v) in
    dr f <- lift (next_face m v s); dr (a, _) <- walk (next_face m v) None fuel f;
    let e := last a s in
    dr n <- lift (next_vert m v e); dr p <- lift (prev_vert m v e);
    dr g <- lift (prev_face m v e); dr (b, _) <- walk (prev_face m v) None fuel g;
    dr ps <- mapR (fun F => lift (prev_vert m v F)) b;
    ret (n :: p :: ps)
  else dr l <- fan m fuel v; mapR (fun F => lift (next_vert m v F)) l.

(** ** Construction *)
(** loopsubdiv.py:176-177: an edge is the pair of its ends, ordered by identity; here by index.  (All uses are symmetric
    in the two ends.) *)
Definition ekey (a b : nat) : nat * nat := if Nat.ltb a b then (a, b) else (b, a).
Definition key_eqb (x y : nat * nat) : bool := Nat.eqb (fst x) (fst y) && Nat.eqb (snd x) (snd y).
Definition slots (nf : nat) : list (nat * c3) := flat_map (fun F => [(F, k0); (F, k1); (F, k2)]) (seq 0 nf).
Definition tri_at (ts : list (V3 nat)) (F : nat) (k : c3) : nat := at3 (nth F ts (mkV 0 0 0)%nat) k.
Definition slot_key (ts : list (V3 nat)) (s : nat * c3) : nat * nat :=
  ekey (tri_at ts (fst s) (snd s)) (tri_at ts (fst s) (NEXT (snd s))).
(** loopsubdiv.py:204-210: the last face of the list that has v as a corner; None if there is none *)
Definition start_face (ts : list (V3 nat)) (v : nat) : option nat :=
  fold_left (fun acc s => if Nat.eqb (tri_at ts (fst s) (snd s)) v then Some (fst s) else acc) (slots (length ts)) None.
(** loopsubdiv.py:213-229: one step of the loop over faces and edges; the dictionary maps an edge to its first face and
    edge number *)
Definition nbrs := nat -> c3 -> option nat.
Definition set_nbr (n : nbrs) (F : nat) (k : c3) (G : nat) : nbrs :=
  fun F' k' => if Nat.eqb F' F && c3_eqb k' k then Some G else n F' k'.
Definition lookup {A} (d : list ((nat * nat) * A)) (e : nat * nat) : option A :=
  option_map snd (find (fun x => key_eqb (fst x) e) d).
Definition remove_key {A} (d : list ((nat * nat) * A)) (e : nat * nat) : list ((nat * nat) * A) :=
  filter (fun x => negb (key_eqb (fst x) e)) d.
Definition link_step (ts : list (V3 nat)) (st : nbrs * list ((nat * nat) * (nat * c3))) (s : nat * c3) :=
  let '(n, d) := st in
  let e := slot_key ts s in
  match lookup d e with
  | Some (F0, e0) => (set_nbr (set_nbr n F0 e0 (fst s)) (fst s) (snd s) F0, remove_key d e)
  | None => (n, d ++ [(e, s)])
  end.
Definition link (ts : list (V3 nat)) : nbrs :=
  fst (fold_left (link_step ts) (slots (length ts)) (fun _ _ => None, [])).
(** loopsubdiv.py:200-229: faces with their vertices and neighbours; vertices with their start face.  The flags are
    set in the loop 232-247. *)
Definition linked_faces (ts : list (V3 nat)) : list face :=
  map (fun F => mkF (nth F ts (mkV 0 0 0)%nat) (tab3 (link ts F))) (seq 0 (length ts)).
Definition upd_vert (m : mesh) (v : nat) (x : vert) : mesh :=
  mkMesh (mF m) (firstn v (mV m) ++ x :: skipn (S v) (mV m)).
Definition finish_vertex (fuel : nat) (ts : list (V3 nat)) (m : mesh) (v : nat) : run mesh :=
  match start_face ts v with
  | None => Some (Err AttributeError)   (* None.next_face *)
  | Some s =>
      dr f <- lift (next_face m v s); dr (_, b) <- walk (next_face m v) (Some s) fuel f;
      let m1 := upd_vert m v (mkVt (posn m v) s (negb b) false) in
      dr val <- valence m1 fuel v;
      ret (upd_vert m1 v (mkVt (posn m v) s (negb b)
             (if negb b then Nat.eqb val 4 else Nat.eqb val 6)))
  end.
Definition foldR {A B} (f : A -> B -> run A) := fix go (l : list B) (a : A) : run A :=
  match l with [] => ret a | b :: l' => dr a' <- f a b; go l' a' end.
(** loopsubdiv.py:195-247.  [ts]: the index triples, [ps]: the positions *)
Definition loop_make (fuel : nat) (ts : list (V3 nat)) (ps : list vec) : run mesh :=
  let start v := match start_face ts v with Some s => s | None => 0%nat end in
  foldR (finish_vertex fuel ts)
        (seq 0 (length ps))
        (mkMesh (linked_faces ts) (map (fun v => mkVt (nth v ps vzero) (start v) false false) (seq 0 (length ps)))).

(** ** Subdivision *)
(** loopsubdiv.py:252-257 *)
Definition beta (n : nat) : R := if Nat.eqb n 3 then 3 / 16 else 3 / (8 * INR n).
(** loopsubdiv.py:259-261 *)
Definition gamma (n : nat) : R := 1 / (INR n + 3 / (8 + beta n)).
Definition vsum (l : list vec) : vec := fold_right vadd vzero l.
(** loopsubdiv.py:263-269 *)
Definition weight_one_ring (m : mesh) (fuel v : nat) (b : R) : run vec :=
  dr n <- valence m fuel v; dr ring <- one_ring m fuel v;
  ret (fold_left (fun P w => vadd P (vscale b (posn m w))) ring (vscale (1 - INR n * b) (posn m v))).
(** loopsubdiv.py:271-276 *)
Definition weight_boundary (m : mesh) (fuel v : nat) (b : R) : run vec :=
  dr n <- valence m fuel v; dr ring <- one_ring m fuel v;
  match ring with
  | [] => Some (Err IndexError)
  | r0 :: _ => ret (vadd (vscale (1 - 2 * b) (posn m v)) (vscale b (vadd (posn m r0) (posn m (last ring 0%nat)))))
  end.
(** loopsubdiv.py:313-324 *)
Definition even_pos (m : mesh) (fuel v : nat) : run vec :=
  if negb (vbnd (getV m v)) then
    if vreg (getV m v) then weight_one_ring m fuel v (1 / 16)
    else dr n <- valence m fuel v; weight_one_ring m fuel v (beta n)
  else weight_boundary m fuel v (1 / 8).
Definition tris (m : mesh) : list (V3 nat) := map fv (mF m).
(** loopsubdiv.py:327-349: the edges in order of creation, each with the face and corner it was first met at; the i-th
    becomes new vertex number nv + i *)
Definition first_slots (ts : list (V3 nat)) : list ((nat * nat) * (nat * c3)) :=
  fold_left (fun d s => match lookup d (slot_key ts s) with Some _ => d | None => d ++ [(slot_key ts s, s)] end)
            (slots (length ts)) [].
Fixpoint index_of (e : nat * nat) (l : list (nat * nat)) : nat :=
  match l with [] => 0 | x :: l' => if key_eqb x e then 0 else S (index_of e l') end%nat.
(** edge_verts[SDEdge(a, b)] (377); every edge looked up is present *)
Definition odd_id (m : mesh) (F : nat) (k : c3) : nat :=
  (length (mV m) + index_of (slot_key (tris m) (F, k)) (map fst (first_slots (tris m))))%nat.
(** loopsubdiv.py:335-349 *)
Definition odd_vert (m : mesh) (x : (nat * nat) * (nat * c3)) : run vert :=
  let '((a, b), (F, k)) := x in
  match at3 (ff (getF m F)) k with
  | None => ret (mkVt (vadd (vscale (1 / 2) (posn m a)) (vscale (1 / 2) (posn m b))) (4 * F + 3) true true)
  | Some G =>
      dr c <- lift (other_vert (getF m F) a b); dr d <- lift (other_vert (getF m G) a b);
      ret (mkVt (vadd (vadd (vadd (vscale (3 / 8) (posn m a)) (vscale (3 / 8) (posn m b))) (vscale (1 / 8) (posn m c)))
                      (vscale (1 / 8) (posn m d))) (4 * F + 3) false true)
  end.
(** loopsubdiv.py:300-304, 354-356 *)
Definition even_vert (m : mesh) (fuel v : nat) : run vert :=
  dr P <- even_pos m fuel v;
  let s := vstart (getV m v) in
  dr k <- lift (vnum (getF m s) v);
  ret (mkVt P (4 * s + cnum k) (vbnd (getV m v)) (vreg (getV m v))).
(** loopsubdiv.py:366-369: the child of neighbour [g] at vertex [v] *)
Definition child_at (m : mesh) (g : option nat) (v : nat) : run (option nat) :=
  match g with None => ret None | Some G => dr j <- lift (vnum (getF m G) v); ret (Some (4 * G + cnum j)%nat) end.
(** loopsubdiv.py:359-380: child k of face F (k = 0, 1, 2) ... *)
Definition corner_child (m : mesh) (F : nat) (k : c3) : run face :=
  let f := getF m F in
  dr a <- child_at m (at3 (ff f) k) (at3 (fv f) k);
  dr b <- child_at m (at3 (ff f) (PREV k)) (at3 (fv f) k);
  let g j := if c3_eqb j k then a else if c3_eqb j (PREV k) then b else Some (4 * F + 3)%nat in
  let w j := if c3_eqb j k then at3 (fv f) k else if c3_eqb j (NEXT k) then odd_id m F k else odd_id m F (PREV k) in
  ret (mkF (tab3 w) (tab3 g)).
(** ... and the middle child *)
Definition middle_child (m : mesh) (F : nat) : face :=
  mkF (tab3 (odd_id m F)) (tab3 (fun k => Some (4 * F + cnum (NEXT k))%nat)).
Definition children (m : mesh) (F : nat) : run (list face) :=
  dr a <- corner_child m F k0; dr b <- corner_child m F k1; dr c <- corner_child m F k2;
  ret [a; b; c; middle_child m F].
(** loopsubdiv.py:297-384: one level *)
Definition refine1 (fuel : nat) (m : mesh) : run mesh :=
  dr evens <- mapR (even_vert m fuel) (seq 0 (length (mV m)));
  dr odds <- mapR (odd_vert m) (first_slots (tris m));
  dr fs <- mapR (children m) (seq 0 (length (mF m)));
  ret (mkMesh (concat fs) (evens ++ odds)).
(** loopsubdiv.py:296: n levels; [fuel i]: bound for the reference chains at a level with i faces *)
Fixpoint levels (n : nat) (fuel : nat -> nat) (m : mesh) : run mesh :=
  match n with O => ret m | S n' => dr m' <- refine1 (fuel (length (mF m))) m; levels n' fuel m' end.
(** loopsubdiv.py:387-392 *)
Definition limit_pos (m : mesh) (fuel v : nat) : run vec :=
  if vbnd (getV m v) then weight_boundary m fuel v (1 / 5)
  else dr n <- valence m fuel v; weight_one_ring m fuel v (gamma n).
Definition set_pos (m : mesh) (ps : list vec) : mesh :=
  mkMesh (mF m) (map (fun x => mkVt (snd x) (vstart (fst x)) (vbnd (fst x)) (vreg (fst x))) (combine (mV m) ps)).
Definition to_limit (fuel : nat) (m : mesh) : run mesh :=
  dr ps <- mapR (limit_pos m fuel) (seq 0 (length (mV m))); ret (set_pos m ps).
(** loopsubdiv.py:401-430: the tangents S, T of one vertex.  [st]: S and T as left behind by the previous vertices, None
    before the first assignment: then "S += ..." raises.  Pring[k] for k < valence. *)
Definition tangents (m : mesh) (fuel v : nat) (st : option (vec * vec)) : run (vec * vec) :=
  dr n <- valence m fuel v; dr ring <- one_ring m fuel v;
  let p i := posn m (nth i ring 0%nat) in
  if negb (vbnd (getV m v)) then
    match st with
    | None => Some (Err UnboundLocalError)
    | Some (S0, T0) =>
        ret (vadd S0 (vsum (map (fun k => vscale (cos (2 * PI * INR k * (1 / INR n))) (p k)) (seq 0 n))),
             vadd T0 (vsum (map (fun k => vscale (sin (2 * PI * INR k * (1 / INR n))) (p k)) (seq 0 n))))
    end
  else
    let S1 := vsub (p (n - 1)%nat) (p 0%nat) in
    let T1 :=
      if Nat.eqb n 2 then vsub (vadd (p 0%nat) (p 1%nat)) (vscale 2 (posn m v))
      else if Nat.eqb n 3 then vsub (p 1%nat) (posn m v)
      else if Nat.eqb n 4 then
        vadd (vadd (vadd (vadd (vneg (p 0%nat)) (vscale 2 (p 1%nat))) (vscale 2 (p 2%nat))) (vneg (p 3%nat))) (vscale (-2) (posn m v))
      else
        let th := PI / INR (n - 1) in
        vneg (vadd (vscale (sin th) (vadd (p 0%nat) (p (length ring - 1)%nat)))
                   (vsum (map (fun k => vscale ((2 * cos th - 2) * sin (INR k * th)) (p k)) (seq 0 (n - 1))))) in
    ret (S1, T1).
Fixpoint normals (m : mesh) (fuel : nat) (vs : list nat) (st : option (vec * vec)) : run (list vec) :=
  match vs with
  | [] => ret []
  | v :: vs' => dr (s, t) <- tangents m fuel v st; dr ns <- normals m fuel vs' (Some (s, t)); ret (vcross s t :: ns)
  end.
(** loopsubdiv.py:293-443: the triangle mesh handed to create_triangle_mesh: indices, positions, normals *)
Definition refine (fuel : nat -> nat) (nl : nat) (m : mesh) : run (list nat * list vec * list vec) :=
  dr m1 <- levels nl fuel m;
  dr m2 <- to_limit (fuel (length (mF m1))) m1;
  dr ns <- normals m2 (fuel (length (mF m1))) (seq 0 (length (mV m2))) None;
  ret (flat_map (fun t => [vx t; vy t; vz t]) (tris m2), map vP (mV m2), ns).
(** loopsubdiv.py:278-282 (object_bound) *)
Definition loop_object_bound (m : mesh) : box := fold_left (fun b x => union_pt b (vmap Fin (vP x))) (mV m) bbox_empty.
