(** Property theorems C207-C210 (scenes of triangle meshes, spheres and disks).  Vocabulary: S_Scene.v, S_BVH.v,
    S_Shapes.v. *)
From Coq Require Import Reals Lra Lia List ZArith Bool.
From Verif Require Import Base M_Geometry S_Geometry M_Transform S_Transform M_Shapes S_Shapes M_BVH S_BVH M_Reflection M_Light M_Primitive S_Scene P_Scene P_Scene2.
Import ListNotations.
Open Scope R_scope.

(** C207: a scene built from the constructors' raw arguments can be built, and the query returns the nearest surface
    point over all objects together with a record describing it. *)
Theorem C207_nearest_partial (mp : nat) (items : list item) (ns np : Z) (r0 : ray) :
  (mp <= 4)%nat -> Forall (fun it => geom_ok (it_geom it)) items ->
  Forall (fun it => avoids_centre r0 (it_geom it)) items ->
  pos_zero r0 -> notnan (rmint r0) -> notnan (rmaxt r0) ->
  let prims := full_refine_items items ns np in
  (forall p b, In p prims -> shape_bound (gp_shape p) = Ok b -> off_x_faces r0 (fst b) (snd b)) ->
  ((length prims <= 65)%nat \/ forall bounds t o n, prim_bounds prims = Ok bounds ->
     bvh_build SAH mp bounds = Ok (t, o, n) -> (theight t <= 64)%nat) ->
  exists sc, scene_make mp prims = Ok sc /\
    forall i0 fuel, (scene_size sc <= fuel)%nat -> exists found r' i',
      scene_intersect fuel sc r0 i0 = Ok (Some (found, r', i')) /\ scene_nearest items r0 i0 found r' i'.
Proof. intros. now apply scene_nearest_sized. Qed.
Print Assumptions C207_nearest_partial.
Theorem C207_any_partial (mp : nat) (items : list item) (ns np : Z) (r0 : ray) :
  (mp <= 4)%nat -> Forall (fun it => geom_ok (it_geom it)) items ->
  Forall (fun it => avoids_centre r0 (it_geom it)) items ->
  pos_zero r0 -> notnan (rmint r0) -> notnan (rmaxt r0) ->
  let prims := full_refine_items items ns np in
  (forall p b, In p prims -> shape_bound (gp_shape p) = Ok b -> off_x_faces r0 (fst b) (snd b)) ->
  ((length prims <= 65)%nat \/ forall bounds t o n, prim_bounds prims = Ok bounds ->
     bvh_build SAH mp bounds = Ok (t, o, n) -> (theight t <= 64)%nat) ->
  exists sc, scene_make mp prims = Ok sc /\
    forall fuel, (scene_size sc <= fuel)%nat -> exists b, scene_intersect_p fuel sc r0 = Ok (Some b) /\ scene_any items r0 b.
Proof. intros. now apply scene_any_sized. Qed.
Print Assumptions C207_any_partial.
Example C207_ex : Forall (fun it => geom_ok (it_geom it)) ex_items /\
  Forall (fun it => avoids_centre ex_ray (it_geom it)) ex_items /\ pos_zero ex_ray /\
  (length (full_refine_items ex_items 3 3) = 2)%nat /\
  (forall p b, In p (full_refine_items ex_items 3 3) -> shape_bound (gp_shape p) = Ok b -> off_x_faces ex_ray (fst b) (snd b)) /\
  touches (it_geom (nth 0 ex_items mirror_item)) ex_ray 5.
Proof. exact ex_items_ok. Qed.
(** A sphere mirrored in x (which maps it to itself) is missed by a ray through its centre. *)
Theorem C207_mirrored_refuted : exists b it r t sc,
  base_ok b /\ it_geom it = GSphere b 1 (-1) 1 360 /\ pos_zero r /\ rmint r = Fin 0 /\ rmaxt r = PInf /\
  touches (it_geom it) r t /\ 0 < t /\
  scene_make 4 (full_refine_items [it] 2 2) = Ok sc /\
  forall fuel i0, (1 <= fuel)%nat -> scene_intersect fuel sc r i0 = Ok (Some (false, r, i0)).
Proof.
  destruct mirror_missed as (sc & H1 & H2). exists mirror_base, mirror_item, up_ray, 4, sc.
  split; [exact mirror_base_ok|]. split; [reflexivity|]. split; [repeat split; cbn; lra|].
  split; [reflexivity|]. split; [reflexivity|]. split; [exact mirror_touch|]. split; [lra|]. auto.
Qed.
Print Assumptions C207_mirrored_refuted.

(** C208: for every scene (any primitives, any node array) and every ray, if the nearest-hit query returns, then the
    shadow query returns the same answer; a miss leaves the ray and the record as they were. *)
Theorem C208_shadow_consistent (fuel : nat) (sc : option (list lnode * list gprim)) (r : ray) (i : isect) (found : bool)
    (r' : ray) (i' : isect) :
  scene_intersect fuel sc r i = Ok (Some (found, r', i')) ->
  scene_intersect_p fuel sc r = Ok (Some found) /\ (found = false -> r' = r /\ i' = i).
Proof. exact (scene_agrees fuel sc r i found r' i'). Qed.
Print Assumptions C208_shadow_consistent.
Example C208_ex : exists fuel sc r i, scene_intersect fuel sc r i = Ok (Some (false, r, i)) /\ sc <> None.
Proof.
  destruct mirror_missed as (sc & H1 & H2). exists 1%nat, sc, up_ray, isect_new. split; [apply H2; lia|].
  intros ->. revert H1. cbn [full_refine_items full_refine_item mirror_item it_geom app].
  erewrite single_scene by reflexivity. discriminate.
Qed.

(** C209: the record written by a hit *)
Theorem C209_record (p : gprim) (r : ray) (i : isect) :
  match shape_intersect (gp_shape p) r with
  | Err e => gp_intersect p r i = Err e
  | Ok None => gp_intersect p r i = Ok (false, r, i)
  | Ok (Some h) => exists i', gp_intersect p r i = Ok (true, ray_set_maxt r (Fin (h_t h)), i') /\
      is_dg i' = Some (h_dg h) /\ is_prim i' = Some p /\ is_prim_id i' = gp_id p /\ is_shape_id i' = gp_shape_id p /\
      is_o2w i' = Some (b_o2w (shape_base (gp_shape p))) /\ is_w2o i' = Some (b_w2o (shape_base (gp_shape p))) /\
      is_eps i' = h_eps h /\
      forall w, isect_le i' w = Ok (match gp_light p with
                                    | Some e => if Rlt_dec 0 (vdot (dg_nn (h_dg h)) w) then e else mkV 0 0 0
                                    | None => mkV 0 0 0 end)
  end.
Proof.
  unfold gp_intersect. destruct (shape_intersect (gp_shape p) r) as [[h|]|e]; cbn [bind]; try reflexivity.
  eexists. split; [reflexivity|]. do 7 (split; [reflexivity|]). intros w. cbn. destruct (gp_light p) as [e|]; [|reflexivity].
  unfold diffuse_l. destruct (Rlt_dec _ _) as [H|H].
  - replace (Rltb _ _) with true by (symmetry; now apply Rltb_true). reflexivity.
  - replace (Rltb _ _) with false by (symmetry; apply Rltb_false; lra). reflexivity.
Qed.
Print Assumptions C209_record.

(** C210: a shape can be placed in the scene, but never an instance of another primitive. *)
Theorem C210_geometric_partial (s : shape) (sid id : Z) (mat : nat) (light : option vec) :
  exists p, geometric_new s sid id mat light = Ok p /\ gp_shape p = s /\ gp_light p = light /\ gp_material p = mat.
Proof. eexists. split; [reflexivity|]. auto. Qed.
Print Assumptions C210_geometric_partial.
Theorem C210_instance_refuted (W : Type) (p : gprim) (w2p : W) : transformed_new p w2p = Err TypeError.
Proof. reflexivity. Qed.
Print Assumptions C210_instance_refuted.
