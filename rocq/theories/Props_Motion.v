(** Property theorems C280-C281: moving objects, rays and scenes.  Vocabulary: S_Motion.v, S_Motion2.v. *)
From Coq Require Import Reals Lra Lia List ZArith Bool.
From Verif Require Import Base M_MonteCarlo M_Aggregate M_Utility M_Spectrum M_Sampler M_Film.
From Verif Require Import M_Geometry S_Geometry P_Geometry M_Transform S_Transform P_Transform P_Transform2 M_Shapes S_Shapes P_ShapesMore M_BVH S_BVH
  M_Reflection S_Reflection M_Light M_Primitive S_Scene P_Scene2 M_Material S_Material M_Integrator S_Integrator S_Integrator2 P_Integrator3 M_World S_World P_World P_World2
  S_Motion P_Motion S_Motion2 P_Motion2 Props_World Props_Shapes.
Import ListNotations.
Open Scope R_scope.

(** C280: moving a shape and the ray by the same transform A moves the hit: the same parameter, tolerance and surface
    parameters, the point, tangents and normal moved by A; the shadow query gives the same answer. *)
Theorem C280_sphere (A : transform) (b : base) (rad z0 z1 pm : R) (r : ray) : built A -> base_ok b ->
  moved_result (fun g g' => moved_point A g g' /\ moved_tangents A g g' /\ dg_dndu g' = t_normal A (dg_dndu g) /\ dg_dndv g' = t_normal A (dg_dndv g))
    (Ok (sphere_intersect (sphere_make b rad z0 z1 pm) r)) (Ok (sphere_intersect (sphere_make (moved_base A b) rad z0 z1 pm) (t_ray A r))) /\
  sphere_intersect_p (sphere_make (moved_base A b) rad z0 z1 pm) (t_ray A r) = sphere_intersect_p (sphere_make b rad z0 z1 pm) r.
Proof. intros HA B. apply built_valid in HA. split; [now apply sphere_moved|now apply sphere_p_moved]. Qed.
Print Assumptions C280_sphere.
Theorem C280_disk (A : transform) (b : base) (h rad ri pm : R) (r : ray) : built A -> base_ok b ->
  moved_result (fun g g' => moved_point A g g' /\ moved_tangents A g g' /\ dg_dndu g' = t_normal A (dg_dndu g) /\ dg_dndv g' = t_normal A (dg_dndv g))
    (disk_intersect (disk_make b h rad ri pm) r) (disk_intersect (disk_make (moved_base A b) h rad ri pm) (t_ray A r)) /\
  disk_intersect_p (disk_make (moved_base A b) h rad ri pm) (t_ray A r) = disk_intersect_p (disk_make b h rad ri pm) r.
Proof. intros HA B. apply built_valid in HA. split; [now apply disk_moved|now apply disk_p_moved]. Qed.
Print Assumptions C280_disk.
(** Triangles of a mesh: also outside the index range (where both raise the same exception).  The tangents move along if
    the (u,v) parameters of the corners are not on one line. *)
Theorem C280_triangle (A : transform) (b : base) (nt nv : nat) (vi : list Z) (P : list vec) (N S : option (list vec)) (uv : option (list R)) (v : Z) (r : ray) :
  built A -> built (b_o2w b) ->
  moved_result (fun g g' => moved_point A g g' /\ (uv_free uv v -> moved_tangents A g g'))
    (tri_intersect (mesh_make b nt nv vi P N S uv None) v r) (tri_intersect (mesh_make (moved_base A b) nt nv vi P N S uv None) v (t_ray A r)) /\
  tri_intersect_p (mesh_make (moved_base A b) nt nv vi P N S uv None) v (t_ray A r) = tri_intersect_p (mesh_make b nt nv vi P N S uv None) v r.
Proof. intros HA B. apply built_valid in HA. apply built_valid in B. split; [now apply tri_moved|now apply tri_p_moved]. Qed.
Print Assumptions C280_triangle.
(** a mirrored, stretched and shifted copy *)
Example C280_ex : built (t_mul (t_translate (mkV 1 2 3)) (t_scale (-1) 2 3)) /\ base_ok (id_base false) /\ uv_free None 0 /\
  uv_free (Some [0; 0; 2; 0; 0; 3]) 0 /\
  exists h, tri_intersect (mesh_make (id_base false) 1 3 [0; 1; 2]%Z [mkV (-3) (-3) 0; mkV 3 (-3) 0; mkV 0 5 0] None None None None) 0 ex_ray = Ok (Some h) /\ h_t h = 5.
Proof.
  split; [apply b_mul; [apply b_translate|apply b_scale; lra]|]. split; [split; [apply b_id|reflexivity]|]. split; [exact Logic.I|].
  split; [split; [lia|cbn; lra]|].
  destruct ex_items_ok as (G & _ & _ & _ & _ & T). apply Forall_inv in G. destruct G as (_ & G & _). destruct T as (f & Hf & T). cbn [length] in Hf.
  assert (f = 0%nat) by lia. subst f. cbv zeta in T. destruct T as [T1 T2].
  refine (Props_Shapes.C36_triangle_complete (id_base false) 1 3 [0; 1; 2]%Z [mkV (-3) (-3) 0; mkV 3 (-3) 0; mkV 0 5 0] None None None 0 ex_ray 5 _ _ _ _ _ T1 _ T2);
    [exact G|cbn; lia|discriminate|discriminate|discriminate|]. split; [apply Rleb_true; lra|reflexivity].
Qed.

(** C281: a scene moved as a whole by a rigid motion shows the same. *)
Theorem C281_rigid (A : transform) (items : list item) (colour : nat -> vec) (lamps : list lamp) (r : ray) (L : vec) :
  rigid A -> (forall it, In it items -> base_ok (geom_base (it_geom it))) ->
  (shown (map (move_item A) items) colour (map (move_lamp A) lamps) (t_ray A r) L <-> shown items colour lamps r L).
Proof. intros [HA D] B. apply built_valid in HA. now apply shown_moved. Qed.
Print Assumptions C281_rigid.
(** What the renderer returns for the moved scene and ray is what the scene at its old place shows along the old ray. *)
Theorem C281_rendered (A : transform) (mp : nat) (items : list item) (ns np : Z) (colour : nat -> vec) (mats : nat -> material)
    diffs (lamps : list lamp) (r : ray) (u : nat -> R) (md : Z) (k : nat) :
  rigid A -> (forall it, In it items -> base_ok (geom_base (it_geom it))) ->
  let items' := map (move_item A) items in let lamps' := map (move_lamp A) lamps in let r' := t_ray A r in
  let prims := full_refine_items items' ns np in
  (mp <= 4)%nat -> Forall (fun it => geom_ok (it_geom it)) items' -> (forall it, In it items -> plain_item it) ->
  (length prims <= 65)%nat -> diffuse_mats mats colour -> clear_ray items' prims r' -> off_poles items r ->
  (forall it t l, In it items -> touches (it_geom it) r t -> In l lamps ->
     lp_pos l <> ray_at r t /\ clear_ray items' prims (t_ray A (sight (ray_at r t) (lp_pos l) (offset_at (it_geom it) t) (rtime r)))) ->
  exists sc, scene_make mp prims = Ok sc /\ forall fuel depth, (scene_size sc <= fuel)%nat -> (0 < depth)%nat ->
    exists L T i k' c,
      whitted (mkW sc mats (map lamp_light lamps') fuel diffs) u md (rtime r) depth (mkRD r' false vzero vzero vzero vzero) k = Some (Ok (L, T, i, k', c)) /\
      shown items colour lamps r L.
Proof.
  intros RG B items' lamps' r' prims H1 H2 H3 H4 H5 H6 H7 H8.
  pose proof RG as [HA D]. pose proof (built_valid _ HA) as VA.
  destruct (C270_lit mp items' ns np colour mats diffs lamps' (mkRD r' false vzero vzero vzero vzero) u md k H1 H2) as (sc & HS & H); try assumption.
  - intros it Hi. apply in_map_iff in Hi. destruct Hi as (i0 & <- & Hi). destruct (H3 _ Hi) as [P1 P2]. split; [exact P1|].
    cbn [move_item it_geom]. destruct (it_geom i0); exact P2.
  - left. exact H4.
  - intros it t Hi T. apply in_map_iff in Hi. destruct Hi as (i0 & <- & Hi). cbn [move_item it_geom rd_ray] in *.
    apply (proj1 (touches_moved A VA (it_geom i0) r t (B _ Hi))) in T. specialize (H7 _ _ Hi T). specialize (B _ Hi). unfold r'. rewrite at_moved by exact VA.
    destruct (it_geom i0); cbn [move_geom geom_base] in *; try exact Logic.I. now rewrite back_point.
  - intros it t l Hi T Hl. apply in_map_iff in Hi. destruct Hi as (i0 & <- & Hi). apply in_map_iff in Hl. destruct Hl as (l0 & <- & Hl).
    cbn [move_item it_geom rd_ray move_lamp lp_pos] in *. apply (proj1 (touches_moved A VA (it_geom i0) r t (B _ Hi))) in T.
    destruct (H8 _ _ _ Hi T Hl) as [Q1 Q2]. unfold r'. rewrite at_moved, offset_moved, sight_moved by assumption. split; [|exact Q2].
    intros E. apply Q1. apply (f_equal (t_point (t_inverse A))) in E. now rewrite !inv_point in E.
  - exists sc. split; [exact HS|]. intros fuel depth F1 F2. destruct (H fuel depth F1 F2) as (L & T & i & k' & c & E & SH).
    exists L, T, i, k', c. split; [exact E|]. cbn [rd_ray] in SH. exact (proj1 (C281_rigid A items colour lamps r L RG B) SH).
Qed.
Print Assumptions C281_rendered.
(** The triangle and lamp of C270_ex, shifted: the hypotheses hold, and the radiance is the same 1/(3 pi). *)
Example C281_ex : let A := t_translate (mkV 10 20 30) in rigid A /\ (forall it, In it w_items -> base_ok (geom_base (it_geom it))) /\
  exists sc, scene_make 4 (full_refine_items (map (move_item A) w_items) 3 3) = Ok sc /\ forall fuel depth, (scene_size sc <= fuel)%nat -> (0 < depth)%nat ->
    exists T i k' c, whitted (mkW sc (fun k => Matte (fun _ => w_colour k) (fun _ => 0) None) (map lamp_light [move_lamp A w_lamp]) fuel
      (fun _ _ _ _ _ => (false, vzero, vzero, vzero, vzero))) (fun _ => 0) 5 0 depth (mkRD (t_ray A ex_ray) false vzero vzero vzero vzero) 0 = Some (Ok (spec (/ (3 * PI)), T, i, k', c)).
Proof.
  intros A. assert (RG : rigid A).
  { split; [apply b_translate|]. intros [] []. unfold A, t_translate, t_vector, vdot, dot4; cbn. ring. }
  assert (TV : forall v, t_vector A v = v) by (intros []; unfold A, t_translate, t_vector, dot4; cbn; apply V3_eq; cbn; ring).
  assert (B : forall it, In it w_items -> base_ok (geom_base (it_geom it))) by (intros it [<-|[]]; split; [apply b_id|reflexivity]).
  split; [exact RG|]. split; [exact B|]. destruct w_ok as (W1 & W2 & W3 & W4 & W5 & W6).
  assert (CL : forall q, vx (rd q) <> 0 -> rmint q <> NaN -> rmaxt q <> NaN -> clear_ray (map (move_item A) w_items) (full_refine_items (map (move_item A) w_items) 3 3) (t_ray A q)).
  { intros q HX N1 N2. split; [|constructor; [exact Logic.I|constructor]]. split; [unfold pos_zero, t_ray; cbn [rd rdz vx vy vz]; auto|].
    split; [exact N1|]. split; [exact N2|]. intros p b _ _ H. exfalso. cbn [t_ray rd] in H. rewrite TV in H. contradiction. }
  destruct (C281_rendered A 4 w_items 3 3 w_colour (fun k => Matte (fun _ => w_colour k) (fun _ => 0) None) (fun _ _ _ _ _ => (false, vzero, vzero, vzero, vzero)) [w_lamp] ex_ray (fun _ => 0) 5 0 RG B (le_n 4)) as (sc & HS & H);
    try assumption.
  - constructor; [|constructor]. cbn [it_geom move_item move_geom geom_ok]. apply Forall_inv in W1. exact W1.
  - apply CL; [cbn; lra|discriminate|discriminate].
  - intros it t l Hi T Hl. destruct (w_sight 1 it t l Hi T Hl) as [Q1 _]. split; [exact Q1|].
    rewrite (w_only it t Hi T), w_at5. destruct Hl as [<-|[]]. apply CL; [|discriminate|discriminate]. cbn [sight rd w_lamp w_lamp_of lp_pos]. rewrite w_dir. cbn. lra.
  - exists sc. split; [exact HS|]. intros fuel depth F1 F2. destruct (H fuel depth F1 F2) as (L & T & i & k' & c & E & SH).
    apply (w_shown 1) in SH. destruct SH as [SH _]. rewrite SH in E by lra. replace (1 / (3 * PI)) with (/ (3 * PI)) in E by (unfold Rdiv; ring).
    exists T, i, k', c. exact E.
Qed.
