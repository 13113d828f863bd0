(** Specification vocabulary for Loop subdivision: triangle complexes given by index triples, independent of the
    reference structure the code builds. *)
From Coq Require Import Reals List Bool Arith Relations.
From Verif Require Import Base M_Loop.
Import ListNotations.
Open Scope R_scope.

(** corner k of triangle F *)
Definition corner (ts : list (V3 nat)) (F : nat) (k : c3) (v : nat) : Prop := (F < length ts)%nat /\ tri_at ts F k = v.
(** triangle F has an edge running from a to b *)
Definition dedge (ts : list (V3 nat)) (a b F : nat) : Prop :=
  (F < length ts)%nat /\ exists k, tri_at ts F k = a /\ tri_at ts F (NEXT k) = b.
Definition touches (ts : list (V3 nat)) (F v : nat) : Prop := exists k, corner ts F k v.
(** F and G are neighbours across an edge at v *)
Definition around (ts : list (V3 nat)) (v F G : nat) : Prop := exists w, dedge ts v w F /\ dedge ts w v G.
(** v and w are the ends of an edge *)
Definition linked (ts : list (V3 nat)) (v w : nat) : Prop := exists F, dedge ts v w F \/ dedge ts w v F.
(** an edge with a triangle on one side only, running from a to b in that triangle *)
Definition border (ts : list (V3 nat)) (a b : nat) : Prop := (exists F, dedge ts a b F) /\ ~ exists G, dedge ts b a G.
(** v has an edge with a triangle on one side only *)
Definition on_border (ts : list (V3 nat)) (v : nat) : Prop := exists w, border ts v w.
(** a triangulated surface with vertices 0 .. nv-1: proper triangles, consistently oriented (an edge runs in a given
    direction in at most one triangle, so it belongs to at most two), no two triangles on the same three vertices, every
    vertex used, and the triangles at a vertex form one connected fan *)
Definition surface (ts : list (V3 nat)) (nv : nat) : Prop :=
  (forall F k, (F < length ts)%nat -> (tri_at ts F k < nv)%nat) /\
  (forall F j k, (F < length ts)%nat -> tri_at ts F j = tri_at ts F k -> j = k) /\
  (forall a b F G, dedge ts a b F -> dedge ts a b G -> F = G) /\
  (forall F G, (F < length ts)%nat -> (G < length ts)%nat -> (forall k, touches ts G (tri_at ts F k)) -> F = G) /\
  (forall v, (v < nv)%nat -> exists F, touches ts F v) /\
  (forall v F G, touches ts F v -> touches ts G v -> clos_refl_sym_trans nat (around ts v) F G).
(** v has exactly n edges *)
Definition degree (ts : list (V3 nat)) (v n : nat) : Prop :=
  exists ws, NoDup ws /\ length ws = n /\ forall w, In w ws <-> linked ts v w.
(** the references of a mesh describe its index triples: neighbours, start faces, border and regularity flags *)
Definition mesh_ok (m : mesh) : Prop :=
  let ts := tris m in
  (forall F k G, (F < length ts)%nat ->
     (at3 (ff (getF m F)) k = Some G <-> dedge ts (tri_at ts F (NEXT k)) (tri_at ts F k) G)) /\
  (forall v, (v < length (mV m))%nat -> touches ts (vstart (getV m v)) v) /\
  (forall v, (v < length (mV m))%nat -> (vbnd (getV m v) = true <-> on_border ts v)) /\
  (forall v, (v < length (mV m))%nat ->
     (vreg (getV m v) = true <-> degree ts v (if vbnd (getV m v) then 4 else 6))).
(** the numbers of undirected edges: each listed once, with its smaller end first *)
Definition edge_count (ts : list (V3 nat)) (n : nat) : Prop :=
  exists es, NoDup es /\ length es = n /\ forall a b, In (a, b) es <-> (a < b)%nat /\ linked ts a b.

(** position p lies in the convex hull of the positions ps: in every half-space that contains them *)
Definition in_hull (ps : list vec) (p : vec) : Prop :=
  forall a c, (forall q, In q ps -> vdot a q <= c) -> vdot a p <= c.
(** affine maps *)
Definition affine (A : vec -> vec) : Prop :=
  exists r1 r2 r3 t, forall p, A p = vadd (mkV (vdot r1 p) (vdot r2 p) (vdot r3 p)) t.
Definition move (A : vec -> vec) (m : mesh) : mesh :=
  mkMesh (mF m) (map (fun x => mkVt (A (vP x)) (vstart x) (vbnd x) (vreg x)) (mV m)).

(** Loop's rules.  Interior vertex of degree n: (1 - n b) v + b (sum of the neighbours); border vertex: 3/4 v + 1/8 of
    each neighbour along the border; new vertex on an inner edge: 3/8 of its ends, 1/8 of the opposite corners; new
    vertex on a border edge: the midpoint. *)
Definition loop_beta (n : nat) : R := match n with 3%nat => 3 / 16 | _ => 3 / (8 * INR n) end.
Definition inner_rule (ts : list (V3 nat)) (P : nat -> vec) (w : nat -> R) (v : nat) (p : vec) : Prop :=
  exists ws, NoDup ws /\ (forall u, In u ws <-> linked ts v u) /\
    p = vadd (vscale (1 - INR (length ws) * w (length ws)) (P v)) (vscale (w (length ws)) (vsum (map P ws))).
Definition border_rule (ts : list (V3 nat)) (P : nat -> vec) (w : R) (v : nat) (p : vec) : Prop :=
  exists a b, border ts v a /\ border ts b v /\ p = vadd (vscale (1 - 2 * w) (P v)) (vscale w (vadd (P a) (P b))).
(** the new vertex on the edge between a and b *)
Definition edge_rule (ts : list (V3 nat)) (P : nat -> vec) (a b : nat) (p : vec) : Prop :=
  ((border ts a b \/ border ts b a) /\ p = vadd (vscale (1 / 2) (P a)) (vscale (1 / 2) (P b))) \/
  (exists c d F G, dedge ts a b F /\ dedge ts b c F /\ c <> a /\ dedge ts b a G /\ dedge ts a d G /\ d <> b /\
     p = vadd (vscale (3 / 8) (vadd (P a) (P b))) (vscale (1 / 8) (vadd (P c) (P d)))).
(** x is the vertex inserted on the edge between a and b: new, and joined to both *)
Definition edge_point (nv : nat) (ts' : list (V3 nat)) (a b x : nat) : Prop := (nv <= x)%nat /\ linked ts' a x /\ linked ts' b x.
(** [ts'] splits every triangle (a, b, c) of [ts] into four through the points x, y, z inserted on its edges *)
Definition split4 (ts ts' : list (V3 nat)) (nv : nat) : Prop :=
  length ts' = (4 * length ts)%nat /\
  forall F a b c, nth_error ts F = Some (mkV a b c) -> exists x y z,
    edge_point nv ts' a b x /\ edge_point nv ts' b c y /\ edge_point nv ts' c a z /\
    nth_error ts' (4 * F) = Some (mkV a x z) /\ nth_error ts' (4 * F + 1) = Some (mkV x b y) /\
    nth_error ts' (4 * F + 2) = Some (mkV z y c) /\ nth_error ts' (4 * F + 3) = Some (mkV x y z).
(** [m] is the mesh that subdivision holds after n levels of the surface given by [ts] and [ps] *)
Definition mesh_at (fuel : nat -> nat) (ts : list (V3 nat)) (ps : list vec) (n : nat) (m : mesh) : Prop :=
  exists m0, loop_make (fuel (length ts)) ts ps = ret m0 /\ levels n fuel m0 = ret m.
(** bounds long enough for every chain of references *)
Definition enough (fuel : nat -> nat) : Prop := forall i, (i <= fuel i)%nat.
