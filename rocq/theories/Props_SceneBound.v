(** Property theorems C218-C220 (the Scene constructor).  Vocabulary: S_Geometry.v, S_Scene.v, S_BVH.v. *)
From Coq Require Import Reals Lra Lia List ZArith Bool.
From Verif Require Import Base M_Geometry S_Geometry P_Geometry M_Transform S_Transform M_Shapes S_Shapes M_BVH S_BVH P_BVHTrav P_BVHWit P_Quadrics M_Reflection M_Light M_Primitive S_Scene P_Scene P_Scene2 M_Scene P_SceneBound P_ShapesMore P_Transform2.
Import ListNotations.
Open Scope R_scope.

(** C218: the scene's bound is the least box enclosing the bounds of all primitives and of the volume, and it
    contains every surface point of every object and every point of the volume's bound. *)
Theorem C218_bound_least (mp : nat) (prims : list gprim) (sc : option (list lnode * list gprim)) (vb : option box) :
  scene_make mp prims = Ok sc -> (forall v, vb = Some v -> box_ok v) ->
  exists b sc', scene_init sc vb = Ok (b, sc') /\ box_ok b /\
    forall c, box_ok c -> (box_le b c <->
      (forall p pb, In p prims -> shape_bound (gp_shape p) = Ok pb -> box_le (fbox (fst pb) (snd pb)) c) /\
      (forall v, vb = Some v -> box_le v c)).
Proof. exact (scene_bound_least mp prims sc vb). Qed.
Print Assumptions C218_bound_least.
Theorem C218_bound_contains (mp : nat) (items : list item) (ns np : Z) (sc : option (list lnode * list gprim))
    (vb : option box) (b : box) (sc' : option (list lnode * list gprim)) :
  Forall (fun it => geom_ok (it_geom it)) items -> (forall v, vb = Some v -> box_ok v) ->
  scene_make mp (full_refine_items items ns np) = Ok sc -> scene_init sc vb = Ok (b, sc') ->
  (forall it r t, In it items -> touches (it_geom it) r t -> in_box b (ray_at r t)) /\
  (forall v p, vb = Some v -> in_box v p -> in_box b p).
Proof. exact (scene_bound_contains mp items ns np sc vb b sc'). Qed.
Print Assumptions C218_bound_contains.
Definition ex_fog : box := fbox (mkV (-9) (-9) (-9)) (mkV 9 9 9).
Example C218_ex : Forall (fun it => geom_ok (it_geom it)) ex_items /\ (forall v, Some ex_fog = Some v -> box_ok v) /\
  (exists sc b sc', scene_make 4 (full_refine_items ex_items 3 3) = Ok sc /\ scene_init sc (Some ex_fog) = Ok (b, sc')) /\
  touches (it_geom (nth 0 ex_items mirror_item)) ex_ray 5 /\ in_box ex_fog (mkV 8 8 8).
Proof.
  destruct ex_items_ok as (E1 & E2 & E3 & E4 & E5 & E6). split; [exact E1|]. split; [intros v [= <-]; apply fbox_ok|].
  split; [|split; [exact E6|]].
  - destruct (scene_init_nearest 4 ex_items 3 3 ex_ray (mkV (-9) (-9) (-9)) (mkV 9 9 9) ltac:(lia) E1 E2 E3
      ltac:(discriminate) ltac:(discriminate) E5 ltac:(left; rewrite E4; lia)) as (sc & b & sc' & st & H1 & H2 & _).
    exists sc, b, sc'. auto.
  - unfold in_box, ex_fog, fbox, vmap; cbn. repeat split; apply ele_Fin; lra.
Qed.

(** C219: queries against a scene with a volume still return the nearest surface (the constructor enlarges the root
    node's box in place). *)
Theorem C219_nearest_partial (mp : nat) (items : list item) (ns np : Z) (r0 : ray) (vlo vhi : vec) :
  (mp <= 4)%nat -> Forall (fun it => geom_ok (it_geom it)) items ->
  Forall (fun it => avoids_centre r0 (it_geom it)) items ->
  pos_zero r0 -> notnan (rmint r0) -> notnan (rmaxt r0) ->
  let prims := full_refine_items items ns np in
  (forall p b, In p prims -> shape_bound (gp_shape p) = Ok b -> off_x_faces r0 (fst b) (snd b)) ->
  ((length prims <= 65)%nat \/ forall bounds t o n, prim_bounds prims = Ok bounds ->
     bvh_build SAH mp bounds = Ok (t, o, n) -> (theight t <= 64)%nat) ->
  exists sc b sc' steps, scene_make mp prims = Ok sc /\ scene_init sc (Some (fbox vlo vhi)) = Ok (b, sc') /\
    forall i0 fuel, (steps <= fuel)%nat -> exists found r' i',
      scene_intersect fuel sc' r0 i0 = Ok (Some (found, r', i')) /\ scene_nearest items r0 i0 found r' i'.
Proof. intros. now apply scene_init_nearest. Qed.
Print Assumptions C219_nearest_partial.
Theorem C219_any_partial (mp : nat) (items : list item) (ns np : Z) (r0 : ray) (vlo vhi : vec) :
  (mp <= 4)%nat -> Forall (fun it => geom_ok (it_geom it)) items ->
  Forall (fun it => avoids_centre r0 (it_geom it)) items ->
  pos_zero r0 -> notnan (rmint r0) -> notnan (rmaxt r0) ->
  let prims := full_refine_items items ns np in
  (forall p b, In p prims -> shape_bound (gp_shape p) = Ok b -> off_x_faces r0 (fst b) (snd b)) ->
  ((length prims <= 65)%nat \/ forall bounds t o n, prim_bounds prims = Ok bounds ->
     bvh_build SAH mp bounds = Ok (t, o, n) -> (theight t <= 64)%nat) ->
  exists sc b sc' steps, scene_make mp prims = Ok sc /\ scene_init sc (Some (fbox vlo vhi)) = Ok (b, sc') /\
    forall fuel, (steps <= fuel)%nat -> exists b, scene_intersect_p fuel sc' r0 = Ok (Some b) /\ scene_any items r0 b.
Proof. intros. now apply scene_init_any. Qed.
Print Assumptions C219_any_partial.
Example C219_ex : Forall (fun it => geom_ok (it_geom it)) ex_items /\
  Forall (fun it => avoids_centre ex_ray (it_geom it)) ex_items /\ pos_zero ex_ray /\
  (length (full_refine_items ex_items 3 3) = 2)%nat /\
  (forall p b, In p (full_refine_items ex_items 3 3) -> shape_bound (gp_shape p) = Ok b -> off_x_faces ex_ray (fst b) (snd b)) /\
  touches (it_geom (nth 0 ex_items mirror_item)) ex_ray 5.
Proof.
  destruct ex_items_ok as (E1 & E2 & E3 & E4 & E5 & E6). repeat (split; [assumption|]). exact E6.
Qed.

(** Under weaker conditions the claim fails: a unit sphere mirrored in x (C207_mirrored_refuted) is missed by a ray
    through its centre, and found once a medium is added. *)
Theorem C219_medium_changes_hits_refuted : exists it r sc b sc', base_ok mirror_base /\
  it_geom it = GSphere mirror_base 1 (-1) 1 360 /\ pos_zero r /\ rmint r = Fin 0 /\ rmaxt r = PInf /\
  scene_make 4 (full_refine_items [it] 2 2) = Ok sc /\ scene_init sc (Some ex_fog) = Ok (b, sc') /\
  forall fuel, (1 <= fuel)%nat -> scene_intersect_p fuel sc r = Ok (Some false) /\ scene_intersect_p fuel sc' r = Ok (Some true).
Proof.
  destruct mirror_missed as (sc & H1 & H2).
  assert (B : exists q, full_refine_items [mirror_item] 2 2 = [q] /\ gp_shape q = SSph (sphere_make mirror_base 1 (-1) 1 360) /\
     shape_bound (gp_shape q) = Ok (mkV 1 (-1) (-1), mkV (-1) 1 1)).
  { eexists. split; [reflexivity|]. split; [reflexivity|]. cbn [gp_shape shape_bound]. f_equal.
    unfold shape_world_bound, t_bbox, sphere_object_bound, sphere_make; cbn [fst snd sp_base sp_r sp_zmin sp_zmax tm].
    rewrite mirror_o. unfold mirror_base, t_vector, t_scale. cbn [b_o2w tm].
    unfold pmin, pmax. rdec. rewrite !clip_id by lra.
    unfold vadd, vmap2, dot4, vscale, vmap; cbn. f_equal; apply V3_eq; cbn; lra. }
  destruct B as (q & Eq & Es & Eb). pose proof (single_scene q _ _ Eb) as S. rewrite Eq in H1. rewrite S in H1. injection H1 as <-.
  eexists mirror_item, up_ray, _, _, _. split; [exact mirror_base_ok|]. split; [reflexivity|]. split; [repeat split; cbn; lra|].
  split; [reflexivity|]. split; [reflexivity|]. split; [rewrite Eq; exact S|]. split; [reflexivity|].
  intros fuel Hf. split.
  - exact (proj1 (scene_agrees _ _ _ _ _ _ _ (H2 fuel isect_new Hf))).
  - destruct fuel as [|fuel]; [lia|]. cbn [scene_intersect_p sc_traverse_p nth_error set_root l_bounds l_offset l_nprim l_axis].
    unfold ex_fog. rewrite union_fbox.
    replace (box_test _ up_ray) with true.
    2:{ symmetry. rewrite box_test_fbox. apply bvh_box_test_conservative with 5; try reflexivity.
        - repeat split; cbn; lra.
        - intros _. cbn. unfold Rmin, Rmax. repeat destruct Rle_dec; split; lra.
        - unfold between, vle, ray_at, up_ray, vadd, vscale, vmap2, vmap; cbn. unfold Rmin, Rmax. repeat split; repeat destruct Rle_dec; lra.
        - cbn. apply Rltb_true. lra. }
    change (0 <? 1)%nat with true. cbn iota. cbn [seq sc_leaf_p prim_at nth_error bind].
    unfold gp_intersect_p. rewrite Es. cbn [shape_intersect_p bind].
    assert (HT := mirror_touch). cbn [it_geom mirror_item touches] in HT. destruct HT as [T1 T2].
    pose proof (sphere_intersect_spec (sphere_make mirror_base 1 (-1) 1 360) up_ray (sphere_make_ok mirror_base 1 (-1) 1 360 ltac:(lra)) mirror_base_ok ltac:(discriminate) ltac:(discriminate)) as F.
    cbv zeta in F. rewrite sphere_p_find. unfold sphere_intersect in F.
    destruct (sphere_find _ up_ray) as [[t w]|]; [reflexivity|]. exfalso.
    apply (F T1 4); [|exact T2]. split; cbn; [apply Rleb_true; lra|reflexivity].
Qed.
Print Assumptions C219_medium_changes_hits_refuted.

(** C220: building a scene does not modify the aggregate it is given.  True without a volume; with one, the root box
    of the caller's aggregate is overwritten, so a second scene over the same aggregate reports the first one's fog. *)
Theorem C220_no_volume_partial (sc : option (list lnode * list gprim)) (b : box) (sc' : option (list lnode * list gprim)) :
  scene_init sc None = Ok (b, sc') -> sc' = sc.
Proof. unfold scene_init. destruct (bvh_world_bound _); cbn [bind]; [|discriminate]. now intros [= <- <-]. Qed.
Print Assumptions C220_no_volume_partial.
Example C220_ex : exists sc b, scene_init sc None = Ok (b, sc) /\ sc <> None.
Proof. exists (Some ([mkL ex_fog 0 1 0], [])), ex_fog. split; [reflexivity|discriminate]. Qed.
Theorem C220_shared_aggregate_refuted : exists mp prims sc b0 b1 sc1 b2 sc2 p,
  scene_make mp prims = Ok sc /\ scene_init sc None = Ok (b0, sc) /\
  scene_init sc (Some ex_fog) = Ok (b1, sc1) /\ scene_init sc1 None = Ok (b2, sc2) /\
  in_box b2 p /\ ~ in_box b0 p.
Proof.
  set (ball := mkItem (GSphere (id_base false) 1 (-1) 1 360) 2 2 1 None).
  assert (B : exists q, full_refine_items [ball] 3 3 = [q] /\ shape_bound (gp_shape q) = Ok (mkV (-1) (-1) (-1), mkV 1 1 1)).
  { eexists. split; [reflexivity|]. cbn [gp_shape shape_bound]. f_equal.
    unfold shape_world_bound, t_bbox, sphere_object_bound, sphere_make; cbn [fst snd sp_base sp_r sp_zmin sp_zmax].
    unfold id_base, b_o2w. rewrite t_point_I, !t_vector_I. unfold pmin, pmax. rdec. rewrite !clip_id by lra.
    unfold vadd, vmap2, vscale, vmap, vsub; cbn. f_equal; apply V3_eq; cbn; lra. }
  destruct B as (q & Eq & Eb). pose proof (single_scene q _ _ Eb) as S.
  exists 4%nat, [q]. eexists _, _, _, _, _, _, (mkV 8 8 8).
  split; [exact S|]. split; [reflexivity|]. split; [reflexivity|]. split; [reflexivity|]. split.
  - unfold ex_fog. cbn [l_bounds]. rewrite union_fbox. unfold in_box, fbox, vmap, vmap2; cbn.
    unfold Rmin, Rmax. repeat split; apply ele_Fin; repeat destruct Rle_dec; lra.
  - cbn [l_bounds]. intros (_ & IB & _). cbn in IB. apply ele_Fin in IB. lra.
Qed.
Print Assumptions C220_shared_aggregate_refuted.
