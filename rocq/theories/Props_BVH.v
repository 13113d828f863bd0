(** Property theorems C07-C11 (bounding volume hierarchy).  Vocabulary: S_Geometry.v, S_BVH.v. *)
From Coq Require Import String.
From Coq Require Import Reals Lra Lia List Bool ZArith Arith Permutation.
From Verif Require Import Base M_Geometry S_Geometry P_Geometry M_BVH S_BVH P_BVH P_BVHTrav P_BVHWit.
Import ListNotations.
Open Scope R_scope.

(** C07.  Full claim: construction succeeds for every list, every method and every max_prim.
    Proved: it succeeds for the default method with max_prim <= 4 (the default is 4), and whenever
    it succeeds, with any method, nothing is lost.  Refuted below outside that domain. *)
Theorem C07_sah_total_partial mp bounds : (mp <= 4)%nat ->
  exists r, bvh_make SAH mp bounds = Ok r /\ (r = None <-> bounds = []).
Proof.
  exact (fun Hmp => match bounds as b return (exists r, bvh_make SAH mp b = Ok r /\ (r = None <-> b = [])) with
   | [] => ex_intro _ None (conj eq_refl (conj (fun _ => eq_refl) (fun _ => eq_refl)))
   | x :: l => bvh_make_total mp x l Hmp
   end).
Qed.
Print Assumptions C07_sah_total_partial.

Theorem C195_no_primitive_lost method mp bounds nodes ordered :
  bvh_make method mp bounds = Ok (Some (nodes, ordered)) ->
  Permutation ordered (seq 0 (length bounds)) /\
  exists t, bvh_build method mp bounds = Ok (t, ordered, length nodes) /\
    stored ordered t = ordered /\ length nodes = tsize t.
Proof. exact (bvh_make_lossless method mp bounds nodes ordered). Qed.
Print Assumptions C195_no_primitive_lost.
Example C07_ex : exists nodes ordered,
  bvh_make SAH 4 [(vzero, mkV 1 1 1); (mkV 2 0 0, mkV 3 1 1)] = Ok (Some (nodes, ordered)).
Proof.
  destruct (bvh_make_total 4 (vzero, mkV 1 1 1) [(mkV 2 0 0, mkV 3 1 1)]) as ([[n o]|]&H&Hn); [lia| |].
  - eauto.
  - discriminate (proj1 Hn eq_refl).
Qed.

(** The 'middle' method raises AssertionError on two primitives listed in the wrong order. *)
Theorem C07_middle_refuted mp :
  bvh_build MIDDLE mp [(mkV 1 0 0, mkV 1 0 0); (mkV 0 0 0, mkV 0 0 0)] = Err AssertionError.
Proof. exact (middle_two_fails mp (or_intror I)). Qed.
Print Assumptions C07_middle_refuted.
(** With max_prim >= 5 the leaf branch of the surface-area method raises TypeError. *)
Theorem C07_large_leaf_refuted mp : (5 <= mp)%nat ->
  bvh_build SAH mp [(mkV 0 0 0, mkV 0 0 0); (mkV 1 0 0, mkV 1 0 0); (mkV 2 0 0, mkV 2 0 0);
                    (mkV 3 0 0, mkV 3 0 0); (mkV 4 0 0, mkV 4 0 0)] = Err TypeError.
Proof. exact (sah_five_fails mp). Qed.
Print Assumptions C07_large_leaf_refuted.
(** The documented method name 'equal' raises AttributeError. *)
Theorem C07_equal_refuted : method_of "equal"%string = Err AttributeError.
Proof. exact eq_refl. Qed.
Print Assumptions C07_equal_refuted.

(** C08 *)
Theorem C08_bounds_enclose method mp bounds t ordered n :
  bvh_build method mp bounds = Ok (t, ordered, n) ->
  (forall s, subtree s t -> forall i, In i (stored ordered s) ->
     box_le (given_bounds bounds i) (tbounds s)) /\
  tbounds t = accumulate bbox_empty (map (fun b => GB (fbox (fst b) (snd b))) bounds).
Proof.
  exact (fun H => match bvh_nodes_enclose method mp bounds t ordered n H with
    conj _ (conj A B) => conj (fun s Hs i Hi => proj2 (proj2 (A s Hs) i Hi)) B end).
Qed.
Print Assumptions C08_bounds_enclose.
Theorem C08_world_bound method mp bounds nodes ordered :
  bvh_make method mp bounds = Ok (Some (nodes, ordered)) ->
  bvh_world_bound (Some nodes) = Ok (accumulate bbox_empty (map (fun b => GB (fbox (fst b) (snd b))) bounds)).
Proof. exact (bvh_world_bound_union method mp bounds nodes ordered). Qed.
Print Assumptions C08_world_bound.

(** C09 *)
Theorem C09_layout method mp bounds nodes ordered :
  bvh_make method mp bounds = Ok (Some (nodes, ordered)) ->
  exists t, bvh_build method mp bounds = Ok (t, ordered, length nodes) /\
    laid_out nodes 0 t /\ length nodes = tsize t.
Proof. exact (bvh_make_layout method mp bounds nodes ordered). Qed.
Print Assumptions C09_layout.
(** every index stored in the array is in range: leaves refer to primitives that exist, interior
    nodes to entries of the array *)
Theorem C09_indices_in_range method mp bounds nodes ordered :
  bvh_make method mp bounds = Ok (Some (nodes, ordered)) ->
  forall j nd, nth_error nodes j = Some nd ->
    if (0 <? l_nprim nd)%nat then (l_offset nd + l_nprim nd <= length ordered)%nat
    else (S j < length nodes)%nat /\ (S j < l_offset nd < length nodes)%nat.
Proof. exact (bvh_indices method mp bounds nodes ordered). Qed.
Print Assumptions C09_indices_in_range.

(** C10.  Full claim: for every set of primitives and every ray.  Proved for at most 65 primitives
    (or any number when the tree has at most 64 interior nodes on a path), rays whose zero direction
    components are +0.0 and which, if parallel to the x slabs, do not start on an x face plane. *)
Theorem C10_nearest_partial method mp bounds nodes ordered surf pi r0 fuel :
  bvh_make method mp bounds = Ok (Some (nodes, ordered)) -> (length bounds <= 65)%nat ->
  pos_zero r0 -> (forall b, In b bounds -> off_x_faces r0 (fst b) (snd b)) -> notnan (rmaxt r0) ->
  within_bounds surf (fun i => nth i bounds (vzero, vzero)) r0 (length bounds) ->
  nearest_contract surf pi r0 -> (length nodes <= fuel)%nat ->
  exists r' hit, bvh_intersect fuel (fun k => pi (nth k ordered 0%nat)) (Some nodes) r0 = Ok (Some (r', hit)) /\
    nearest_hit surf (length bounds) r0 r' (option_map (fun k => nth k ordered 0%nat) hit).
Proof.
  exact (fun M L => bvh_nearest_height method mp bounds nodes ordered surf pi r0 fuel M
    (fun t o n => bvh_height_small method mp bounds t o n L)).
Qed.
Print Assumptions C10_nearest_partial.
Theorem C10_nearest_height_partial method mp bounds nodes ordered surf pi r0 fuel :
  bvh_make method mp bounds = Ok (Some (nodes, ordered)) ->
  (forall t o n, bvh_build method mp bounds = Ok (t, o, n) -> (theight t <= 64)%nat) ->
  pos_zero r0 -> (forall b, In b bounds -> off_x_faces r0 (fst b) (snd b)) -> notnan (rmaxt r0) ->
  within_bounds surf (fun i => nth i bounds (vzero, vzero)) r0 (length bounds) ->
  nearest_contract surf pi r0 -> (length nodes <= fuel)%nat ->
  exists r' hit, bvh_intersect fuel (fun k => pi (nth k ordered 0%nat)) (Some nodes) r0 = Ok (Some (r', hit)) /\
    nearest_hit surf (length bounds) r0 r' (option_map (fun k => nth k ordered 0%nat) hit).
Proof. exact (bvh_nearest_height method mp bounds nodes ordered surf pi r0 fuel). Qed.
Print Assumptions C10_nearest_height_partial.
Theorem C10_any_partial method mp bounds nodes ordered surf pp r0 fuel :
  bvh_make method mp bounds = Ok (Some (nodes, ordered)) ->
  (forall t o n, bvh_build method mp bounds = Ok (t, o, n) -> (theight t <= 64)%nat) ->
  pos_zero r0 -> (forall b, In b bounds -> off_x_faces r0 (fst b) (snd b)) ->
  within_bounds surf (fun i => nth i bounds (vzero, vzero)) r0 (length bounds) ->
  any_contract surf pp r0 -> (length nodes <= fuel)%nat ->
  exists b, bvh_intersect_p fuel (fun k => pp (nth k ordered 0%nat)) (Some nodes) r0 = Ok (Some b) /\
    any_hit surf (length bounds) r0 b.
Proof. exact (bvh_any_height method mp bounds nodes ordered surf pp r0 fuel). Qed.
Print Assumptions C10_any_partial.
Theorem C10_empty pi pp r fuel :
  bvh_make SAH 4 [] = Ok None /\ bvh_intersect fuel pi None r = Ok (Some (r, None)) /\
  bvh_intersect_p fuel pp None r = Ok (Some false).
Proof. exact (conj eq_refl (conj eq_refl eq_refl)). Qed.
Print Assumptions C10_empty.
(** the hypotheses on rays and primitives are met, e.g., by unit-spaced slabs hit at t = i + 1 *)
Definition ex_pi : prim_isect := fun i r =>
  if eleb (rmint r) (Fin (INR i + 1)) && eleb (Fin (INR i + 1)) (rmaxt r) then Some (INR i + 1) else None.
Example C10_ex : let bs := map (fun i => (mkV (INR i + 1) 0 0, mkV (INR i + 1) 1 1)) [0; 1; 2]%nat in
  let surf := fun i t => t = INR i + 1 in
  let r := mkRay (mkV 0 (/2) (/2)) (mkV 1 0 0) (mkV false false false) (Fin 0) PInf 0%Z 0 in
  pos_zero r /\ (forall b, In b bs -> off_x_faces r (fst b) (snd b)) /\ nearest_contract surf ex_pi r /\
  within_bounds surf (fun i => nth i bs (vzero, vzero)) r 3.
Proof.
  cbn zeta. split; [repeat split; auto|]. split; [intros b _ H; cbn in H; lra|]. split.
  - intros i m _. cbn zeta. unfold ex_pi. cbn [rmint rmaxt ray_set_maxt].
    destruct (eleb (Fin 0) (Fin (INR i + 1))) eqn:A; destruct (eleb (Fin (INR i + 1)) m) eqn:B; cbn [andb].
    + split; auto. split; auto. split; auto. intros t' -> _. lra.
    + intros t' -> _ H. unfold ele in H. congruence.
    + intros t' -> H. unfold ele in H. congruence.
    + intros t' -> H. unfold ele in H. congruence.
  - intros i t Hi ->. do 3 (destruct i as [|i]; [unfold between, vle; cbn; lra|]). lia.
Qed.

(** A chain of n >= 66 points makes the 64-entry stack overflow: IndexError. *)
Theorem C10_stack_overflow_refuted n mp pi : (66 <= n)%nat ->
  exists nodes ordered,
    bvh_make MIDDLE mp (map (fun i => (mkV (3 ^ i) 0 0, mkV (3 ^ i) 0 0)) (seq 0 n)) = Ok (Some (nodes, ordered)) /\
    forall fuel, (n <= fuel)%nat -> bvh_intersect fuel pi (Some nodes)
       (mkRay vzero (mkV 1 0 0) (mkV false false false) (Fin 0) PInf 0%Z 0) = Err IndexError.
Proof. exact (chain_overflow n mp pi). Qed.
Print Assumptions C10_stack_overflow_refuted.

(** C11 *)
Theorem C11_box_test_conservative_partial lo hi r t : pos_zero r -> off_x_faces r lo hi ->
  between lo (ray_at r t) hi -> elt (rmint r) (Fin t) -> elt (Fin t) (rmaxt r) ->
  bvh_box_test lo hi r = true.
Proof. exact (bvh_box_test_conservative lo hi r t). Qed.
Print Assumptions C11_box_test_conservative_partial.
Example C11_ex : let r := mkRay (mkV (/2) 0 (-1)) (mkV 0 0 1) (mkV false false false) (Fin 0) PInf 0%Z 0 in
  pos_zero r /\ off_x_faces r vzero (mkV 1 1 1) /\ between vzero (ray_at r 1) (mkV 1 1 1).
Proof. repeat split; cbn; try lra; auto. Qed.
Theorem C11_on_face_refuted : exists lo hi r t, between lo (ray_at r t) hi /\ elt (rmint r) (Fin t) /\
  elt (Fin t) (rmaxt r) /\ pos_zero r /\ bvh_box_test lo hi r = false.
Proof. exact face_missed. Qed.
Print Assumptions C11_on_face_refuted.
Theorem C11_negative_zero_refuted : exists lo hi r t, between lo (ray_at r t) hi /\ elt (rmint r) (Fin t) /\
  elt (Fin t) (rmaxt r) /\ (forall t, vx lo < vx (ray_at r t) < vx hi) /\ bvh_box_test lo hi r = false.
Proof. exact negzero_missed. Qed.
Print Assumptions C11_negative_zero_refuted.
