(** Concrete scenes for C207 ...: a mirrored sphere the queries miss, and a scene meeting the hypotheses. *)
From Coq Require Import Reals Lra Lia List ZArith Bool Permutation.
From Verif Require Import Base M_Geometry S_Geometry P_Geometry M_Transform S_Transform P_Transform P_Transform2
  M_Shapes S_Shapes P_Quadrics P_Triangle P_Mesh P_ShapesMore P_ShapesMore2 M_BVH S_BVH P_BVH P_BVHTrav P_BVHWit M_Primitive S_Scene P_Scene.
Import ListNotations.
Open Scope R_scope.

Lemma single_scene p lo hi : shape_bound (gp_shape p) = Ok (lo, hi) ->
  scene_make 4 [p] = Ok (Some ([mkL (fbox lo hi) 0 1 0], [p])).
Proof.
  intros E. unfold scene_make. cbn [prim_bounds]. rewrite E. cbn [bind].
  unfold bvh_make. assert (B : bvh_build SAH 4 [(lo, hi)] = Ok (Leaf (fbox lo hi) 0 1, [0%nat], 1%nat)).
  { unfold bvh_build. cbn. reflexivity. }
  rewrite B. cbn [bind]. reflexivity.
Qed.

Lemma phi_full : phi_max_of 360 = 2 * PI.
Proof.
  unfold phi_max_of. rewrite clip_id by lra. unfold deg2rad. field.
Qed.
(** A unit sphere mirrored in x: the placement does not move it, but its world bound is inverted. *)
Definition mirror_base : base := mkBase (t_scale (-1) 1 1) (t_inverse (t_scale (-1) 1 1)) false.
Definition mirror_item : item := mkItem (GSphere mirror_base 1 (-1) 1 360) 1 1 0 None.
Definition up_ray : ray := mkRay (mkV 0 (-5) 0) (mkV 0 1 0) (mkV false false false) (Fin 0) PInf 0%Z 0.
Lemma mirror_base_ok : base_ok mirror_base.
Proof. split; [apply b_scale; lra|reflexivity]. Qed.
Lemma mirror_w p : t_point (b_w2o mirror_base) p = mkV (- vx p) (vy p) (vz p).
Proof.
  rewrite t_point_affine by (apply (base_affine _ mirror_base_ok)).
  unfold apt, mirror_base, t_scale, t_inverse, dot4; cbn. apply V3_eq; cbn; lra.
Qed.
Lemma mirror_o p : t_point (b_o2w mirror_base) p = mkV (- vx p) (vy p) (vz p).
Proof.
  rewrite t_point_affine by (apply (base_affine _ mirror_base_ok)).
  unfold apt, mirror_base, t_scale, t_inverse, dot4; cbn. apply V3_eq; cbn; lra.
Qed.
Lemma mirror_touch : touches (it_geom mirror_item) up_ray 4.
Proof.
  cbn [it_geom mirror_item touches]. rewrite !mirror_w. split.
  - unfold discriminant, vdot, t_vector, mirror_base, t_scale, t_inverse, up_ray, EPS, dot4; cbn. lra.
  - unfold on_sphere, sphere_make; cbn [sp_zmin sp_zmax sp_phimax]. rewrite phi_full.
    unfold ray_at, up_ray, vadd, vscale, vmap2, vmap; cbn [vx vy vz ro rd]. split; [lra|]. split; [|apply angle_full].
    unfold pmin, pmax, clip. rdec. unfold Rmin, Rmax; repeat destruct Rle_dec; lra.
Qed.
Theorem mirror_missed : exists sc, scene_make 4 (full_refine_items [mirror_item] 2 2) = Ok sc /\
  forall fuel i0, (1 <= fuel)%nat -> scene_intersect fuel sc up_ray i0 = Ok (Some (false, up_ray, i0)).
Proof.
  cbn [full_refine_items full_refine_item mirror_item it_geom app].
  eexists. split.
  - eapply (single_scene _ (mkV 1 (-1) (-1)) (mkV (-1) 1 1)). cbn [gp_shape shape_bound]. f_equal.
    unfold shape_world_bound, t_bbox, sphere_object_bound, sphere_make; cbn [fst snd sp_base sp_r sp_zmin sp_zmax tm].
    rewrite mirror_o. unfold mirror_base, t_vector, t_scale. cbn [b_o2w tm].
    unfold pmin, pmax. rdec. rewrite !clip_id by lra.
    unfold vadd, vmap2, dot4, vscale, vmap; cbn. f_equal; apply V3_eq; cbn; lra.
  - intros fuel i0 Hf. destruct fuel as [|fuel]; [lia|]. cbn [scene_intersect sc_traverse nth_error l_bounds].
    replace (box_test _ up_ray) with false; [reflexivity|]. symmetry.
    unfold box_test, bvh_box_test, slab_lo, slab_hi, inv_comp, up_ray, fbox; cbn. rdec. unfold edivz. rdec. unfold esgn_inf. rdec. reflexivity.
Qed.

(** A triangle in the plane z = 0 and a unit sphere above it; a ray from above. *)
Definition ex_items : list item :=
  [mkItem (GMesh (id_base false) [0; 1; 2]%Z [mkV (-3) (-3) 0; mkV 3 (-3) 0; mkV 0 5 0] None None None) 1 1 0 None;
   mkItem (GSphere (id_base false) 1 (-1) 1 360) 2 2 1 (Some (mkV 5 5 5))].
Definition ex_ray : ray := mkRay (mkV (1/2) 0 5) (mkV (1/10) (1/10) (-1)) (mkV false false false) (Fin 0) PInf 0%Z 0.
Lemma ex_items_ok : Forall (fun it => geom_ok (it_geom it)) ex_items /\
  Forall (fun it => avoids_centre ex_ray (it_geom it)) ex_items /\ pos_zero ex_ray /\
  (length (full_refine_items ex_items 3 3) = 2)%nat /\
  (forall p b, In p (full_refine_items ex_items 3 3) -> shape_bound (gp_shape p) = Ok b -> off_x_faces ex_ray (fst b) (snd b)) /\
  touches (it_geom (nth 0 ex_items mirror_item)) ex_ray 5.
Proof.
  split; [|split; [|split; [|split; [|split]]]].
  - constructor; [|constructor; [|constructor]]; cbn [it_geom geom_ok].
    + split; [reflexivity|]. split; [unfold faces_ok; repeat (constructor; [cbn; lia|]); constructor|]. intros l [=].
    + split; [apply id_base_ok|]. split; [|lra]. intros r [-> | [-> | ->]]; cbn; lra.
  - repeat constructor.
  - repeat split; cbn; lra.
  - reflexivity.
  - intros p b _ _ H. cbn in H. lra.
  - exists 0%nat. split; [cbn; lia|]. cbv zeta. unfold S_Shapes.corner. cbn [id_base b_o2w]. rewrite !t_point_I.
    replace (Z.to_nat (nth (3 * 0 + 0) [0; 1; 2]%Z 0%Z)) with 0%nat by reflexivity.
    replace (Z.to_nat (nth (3 * 0 + 1) [0; 1; 2]%Z 0%Z)) with 1%nat by reflexivity.
    replace (Z.to_nat (nth (3 * 0 + 2) [0; 1; 2]%Z 0%Z)) with 2%nat by reflexivity. cbn [nth]. split.
    + unfold vdot, tri_normal, vcross, vsub, vmap2; cbn. intros Q. lra.
    + exists (11/96), (43/96), (7/16). repeat (split; [lra|]).
      unfold ray_at, ex_ray, vadd, vscale, vmap2, vmap; cbn. apply V3_eq; cbn; lra.
Qed.
