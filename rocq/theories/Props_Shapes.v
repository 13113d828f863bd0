(** Property theorems C36-C39, C68-C75 (shapes).  Vocabulary: S_Shapes.v, S_Geometry.v, S_Transform.v. *)
From Coq Require Import Reals Lra Lia List ZArith Bool.
From Verif Require Import Base M_Geometry S_Geometry P_Geometry M_Transform S_Transform P_Transform P_Transform2 M_MonteCarlo M_Film
  M_Shapes S_Shapes P_Quadrics P_Triangle P_Normals P_Mesh P_ShapesMore P_ShapesMore2.
Import ListNotations.
Open Scope R_scope.

(** C36: ray/triangle.  The mesh is what the constructor builds from vertex list [P] and index list
    [vi]; face [f]'s corners are the world positions of the three vertices it names. *)
Theorem C36_triangle_sound (b : base) (nt nv : nat) (vi : list Z) (P : list vec) (N S : option (list vec))
    (uv : option (list R)) (al : option (dgeom -> R)) (f : nat) (r : ray) (h : hit) :
  faces_ok vi (length P) -> (3 * f + 2 < length vi)%nat -> notnan (rmint r) -> notnan (rmaxt r) ->
  tri_intersect (mesh_make b nt nv vi P N S uv al) (3 * Z.of_nat f) r = Ok (Some h) ->
  let inside t := in_triangle (corner (b_o2w b) vi P f 0) (corner (b_o2w b) vi P f 1) (corner (b_o2w b) vi P f 2) (ray_at r t) in
  in_range r (h_t h) /\ inside (h_t h) /\ dg_p (h_dg h) = ray_at r (h_t h) /\ (forall t', inside t' -> t' = h_t h).
Proof. intros HF Hl. exact (tri_hit_sound b nt nv vi P N S uv al f r HF Hl h). Qed.
Print Assumptions C36_triangle_sound.
Theorem C36_triangle_complete (b : base) (nt nv : nat) (vi : list Z) (P : list vec) (N S : option (list vec))
    (uv : option (list R)) (f : nat) (r : ray) (t : R) :
  faces_ok vi (length P) -> (3 * f + 2 < length vi)%nat -> notnan (rmint r) -> notnan (rmaxt r) ->
  let a := corner (b_o2w b) vi P f 0 in let c := corner (b_o2w b) vi P f 1 in let d := corner (b_o2w b) vi P f 2 in
  (forall l, uv = Some l -> (6 * f + 6 <= length l)%nat) ->
  vdot (rd r) (tri_normal a c d) <> 0 -> in_range r t -> in_triangle a c d (ray_at r t) ->
  exists h, tri_intersect (mesh_make b nt nv vi P N S uv None) (3 * Z.of_nat f) r = Ok (Some h) /\ h_t h = t.
Proof.
  intros HF Hl Hm HM a c d Hu. apply (tri_hit_complete b nt nv vi P N S uv None f r HF Hl t eq_refl); auto.
  destruct uv; cbn; auto.
Qed.
Print Assumptions C36_triangle_complete.
Theorem C36_shadow_agrees (b : base) (nt nv : nat) (vi : list Z) (P : list vec) (N S : option (list vec))
    (uv : option (list R)) (al : option (dgeom -> R)) (f : nat) (r : ray) :
  faces_ok vi (length P) -> (3 * f + 2 < length vi)%nat ->
  let m := mesh_make b nt nv vi P N S uv al in
  tri_intersect_p m (3 * Z.of_nat f) r =
  match tri_intersect m (3 * Z.of_nat f) r with Ok None => Ok false | Ok (Some _) => Ok true | Err e => Err e end.
Proof. intros HF Hl. exact (tri_intersect_p_unfold b nt nv vi P N S uv al f r HF Hl). Qed.
Print Assumptions C36_shadow_agrees.
(** the bound of a face is the smallest box around the triangle *)
Theorem C36_triangle_bound (b : base) (nt nv : nat) (vi : list Z) (P : list vec) (N S : option (list vec))
    (uv : option (list R)) (al : option (dgeom -> R)) (f : nat) :
  faces_ok vi (length P) -> (3 * f + 2 < length vi)%nat ->
  let tri := in_triangle (corner (b_o2w b) vi P f 0) (corner (b_o2w b) vi P f 1) (corner (b_o2w b) vi P f 2) in
  exists B, tri_world_bound (mesh_make b nt nv vi P N S uv al) (3 * Z.of_nat f) = Ok B /\ box_ok B /\
   (forall p, tri p -> in_box B p) /\ (forall B', box_ok B' -> (forall p, tri p -> in_box B' p) -> box_le B B').
Proof. exact (tri_bound_spec b nt nv vi P N S uv al f). Qed.
Print Assumptions C36_triangle_bound.
Example C36_ex : let P := [mkV 0 0 0; mkV 1 0 0; mkV 0 1 0] in let r := ray_new (mkV (1/4) (1/4) 1) (mkV 0 0 (-1)) 0 in
  faces_ok [0; 1; 2]%Z (length P) /\ in_range r 1 /\
  vdot (rd r) (tri_normal (mkV 0 0 0) (mkV 1 0 0) (mkV 0 1 0)) <> 0 /\
  in_triangle (mkV 0 0 0) (mkV 1 0 0) (mkV 0 1 0) (ray_at r 1).
Proof.
  cbv zeta. split; [unfold faces_ok; repeat (constructor; [cbn; lia|]); constructor|]. split; [split; [apply Rleb_true; lra|reflexivity]|].
  split; [unfold vdot, tri_normal, vcross, vsub, vmap2; cbn; lra|].
  exists (1/2), (1/4), (1/4). repeat split; try lra. unfold ray_at, vadd, vscale, vmap2, vmap; cbn. apply V3_eq; cbn; lra.
Qed.

(** C37 *)
Theorem C37_sample_partial (b : base) (nt nv : nat) (vi : list Z) (P : list vec) (N S : option (list vec))
    (uv : option (list R)) (al : option (dgeom -> R)) (f : nat) (u1 u2 : R) :
  faces_ok vi (length P) -> (3 * f + 2 < length vi)%nat ->
  nth (3 * f + 1) vi 0%Z = (nth (3 * f) vi 0 + 1)%Z -> 0 <= u1 <= 1 -> 0 <= u2 <= 1 ->
  let a := corner (b_o2w b) vi P f 0 in let c := corner (b_o2w b) vi P f 1 in let d := corner (b_o2w b) vi P f 2 in
  exists p n, tri_sample (mesh_make b nt nv vi P N S uv al) (3 * Z.of_nat f) u1 u2 = Ok (p, n) /\
    in_triangle a c d p /\
    (tri_normal a c d <> vzero -> unit n /\ vdot n (vsub c a) = 0 /\ vdot n (vsub d a) = 0).
Proof. exact (tri_sample_spec b nt nv vi P N S uv al f u1 u2). Qed.
Print Assumptions C37_sample_partial.
Theorem C37_sample_refuted : exists p n, let m := mesh_make (id_base false) 1 4 [0; 2; 3]%Z skip_P None None None None in
  create_mesh (id_base false) [0; 2; 3]%Z skip_P None None None = Ok m /\
  tri_sample m 0 (1/4) (1/2) = Ok (p, n) /\ ~ in_triangle (mkV 0 0 0) (mkV 1 0 0) (mkV 0 1 0) p.
Proof. exact tri_sample_bad. Qed.
Print Assumptions C37_sample_refuted.
Theorem C37_sample_crash_refuted : let P := [mkV 0 0 0; mkV 1 0 0; mkV 0 1 0] in
  let m := mesh_make (id_base false) 1 3 [2; 0; 1]%Z P None None None None in
  create_mesh (id_base false) [2; 0; 1]%Z P None None None = Ok m /\
  forall u1 u2, tri_sample m 0 u1 u2 = Err IndexError.
Proof. exact tri_sample_crash. Qed.
Print Assumptions C37_sample_crash_refuted.
Theorem C202_area (b : base) (nt nv : nat) (vi : list Z) (P : list vec) (N S : option (list vec))
    (uv : option (list R)) (al : option (dgeom -> R)) (f : nat) : faces_ok vi (length P) -> (3 * f + 2 < length vi)%nat ->
  let a := corner (b_o2w b) vi P f 0 in let c := corner (b_o2w b) vi P f 1 in let d := corner (b_o2w b) vi P f 2 in
  exists A, tri_area (mesh_make b nt nv vi P N S uv al) (3 * Z.of_nat f) = Ok A /\ 0 <= A /\
    4 * (A * A) = vdot (vsub c a) (vsub c a) * vdot (vsub d a) (vsub d a) - vdot (vsub c a) (vsub d a) * vdot (vsub c a) (vsub d a).
Proof. exact (tri_area_spec b nt nv vi P N S uv al f). Qed.
Print Assumptions C202_area.
Example C37_ex : let P := [mkV 0 0 0; mkV 1 0 0; mkV 0 1 0] in faces_ok [0; 1; 2]%Z (length P) /\
  nth (3 * 0 + 1) [0; 1; 2]%Z 0%Z = (nth (3 * 0) [0; 1; 2]%Z 0 + 1)%Z.
Proof. split; [unfold faces_ok; repeat (constructor; [cbn; lia|]); constructor|reflexivity]. Qed.

(** C38: ray/sphere *)
Theorem C38_sphere (b : base) (rad z0 z1 pm : R) (r : ray) :
  0 < rad -> base_ok b -> notnan (rmint r) -> notnan (rmaxt r) ->
  let s := sphere_make b rad z0 z1 pm in
  let q t := t_point (b_w2o b) (ray_at r t) in
  let on t := on_sphere rad (sp_zmin s) (sp_zmax s) (sp_phimax s) (q t) in
  let ro' := t_point (b_w2o b) (ro r) in let rd' := t_vector (b_w2o b) (rd r) in
  match sphere_intersect s r with
  | Some h => in_range r (h_t h) /\ on (h_t h) /\ (forall t', in_range r t' -> on t' -> h_t h <= t') /\
      (vx (q (h_t h)) <> 0 \/ vy (q (h_t h)) <> 0 -> dg_p (h_dg h) = ray_at r (h_t h)) /\
      (vx (q (h_t h)) = 0 -> vy (q (h_t h)) = 0 -> dg_p (h_dg h) = t_point (b_o2w b) (mkV (EPS * rad) 0 (vz (q (h_t h)))))
  | None => EPS < discriminant ro' rd' rad -> forall t', in_range r t' -> ~ on t'
  end.
Proof.
  intros Hr Hb Hm HM. exact (sphere_intersect_spec (sphere_make b rad z0 z1 pm) r (sphere_make_ok b rad z0 z1 pm Hr) Hb Hm HM).
Qed.
Print Assumptions C38_sphere.
Theorem C38_shadow_agrees (s : sphere) (r : ray) : sphere_intersect_p s r = match sphere_intersect s r with Some _ => true | None => false end.
Proof. rewrite sphere_p_find. unfold sphere_intersect. destruct (sphere_find s r) as [[t q]|]; reflexivity. Qed.
Print Assumptions C38_shadow_agrees.
(** the absolute discriminant threshold makes small spheres invisible (known limit, not a completeness claim) *)
Theorem C38_small_spheres_invisible (s : sphere) (r : ray) :
  4 * sq_length (rd (t_ray (b_w2o (sp_base s)) r)) * (sp_r s * sp_r s) <= EPS -> sphere_intersect s r = None.
Proof. exact (small_sphere_missed s r). Qed.
Print Assumptions C38_small_spheres_invisible.
(** the stored z range is the requested one cut to the sphere *)
Theorem C38_parameters (b : base) (rad z0 z1 pm z : R) : 0 < rad -> let s := sphere_make b rad z0 z1 pm in
  - rad <= z <= rad -> - rad <= Rmin z0 z1 <= rad -> - rad <= Rmax z0 z1 <= rad ->
  (sp_zmin s <= z <= sp_zmax s <-> Rmin z0 z1 <= z <= Rmax z0 z1) /\ 0 <= sp_phimax s <= 2 * PI.
Proof.
  intros Hr s Hz H1 H2. split; [|apply (sphere_make_ok b rad z0 z1 pm Hr)].
  unfold s, sphere_make; cbn [sp_zmin sp_zmax]. rewrite pmin_Rmin, pmax_Rmax, !clip_id by auto. tauto.
Qed.
Print Assumptions C38_parameters.
Example C38_ex : exists r h, notnan (rmint r) /\ notnan (rmaxt r) /\
  sphere_intersect (sphere_make (id_base false) 1 (-1) 1 360) r = Some h.
Proof. destruct sphere_v_bad as (r & h & A & B & C & _). exists r, h. auto. Qed.

(** C39: shadow tests of disks and cylinders *)
Theorem C39_disk (d : disk) (r : ray) : 0 <= dk_phimax d <= 2 * PI -> base_ok (dk_base d) -> notnan (rmint r) -> notnan (rmaxt r) ->
  let on t := on_disk (dk_h d) (dk_r d) (dk_ri d) (dk_phimax d) (t_point (b_w2o (dk_base d)) (ray_at r t)) in
  (disk_intersect_p d r = true -> exists t, in_range r t /\ on t) /\
  (EPS <= Rabs (vz (t_vector (b_w2o (dk_base d)) (rd r))) -> (exists t, in_range r t /\ on t) -> disk_intersect_p d r = true).
Proof.
  intros Hp Hb Hm HM on. rewrite disk_p_find. pose proof (disk_find_spec d r Hp Hm HM) as F. cbv zeta in F.
  destruct (disk_find d r) as [[t q]|].
  - destruct F as (F1 & F2 & F3 & _). split; [|auto]. intros _. exists t. split; auto.
    rewrite base_ray in F2 by auto. unfold on. now rewrite <- F2.
  - split; [discriminate|]. intros H (t & H1 & H2). exfalso. apply (F H t H1). rewrite base_ray by auto. exact H2.
Qed.
Print Assumptions C39_disk.
Theorem C39_cylinder (c : cylinder) (r : ray) : 0 < cy_r c -> 0 <= cy_phimax c <= 2 * PI -> base_ok (cy_base c) ->
  notnan (rmint r) -> notnan (rmaxt r) ->
  let o := t_point (b_w2o (cy_base c)) (ro r) in let d := t_vector (b_w2o (cy_base c)) (rd r) in
  let a := vx d * vx d + vy d * vy d in let b := vx d * vx o + vy d * vy o in
  let on t := on_cylinder (cy_r c) (cy_zmin c) (cy_zmax c) (cy_phimax c) (t_point (b_w2o (cy_base c)) (ray_at r t)) in
  (cylinder_intersect_p c r = true -> exists t, in_range r t /\ on t) /\
  (0 < b * b - a * (vx o * vx o + vy o * vy o - cy_r c * cy_r c) ->
   (exists t, in_range r t /\ on t) -> cylinder_intersect_p c r = true).
Proof.
  intros HR Hp Hb Hm HM o d a b on. pose proof (cylinder_p_spec c r HR Hp Hm HM) as [F1 F2]. cbv zeta in F1, F2.
  split.
  - intros H. destruct (F1 H) as (t & T1 & T2). exists t. split; auto. unfold on. rewrite <- base_ray; auto.
  - intros HD (t & T1 & T2). apply F2; [exact HD|]. exists t. split; auto. rewrite base_ray; auto.
Qed.
Print Assumptions C39_cylinder.
Theorem C39_angle_range (pm : R) : 0 <= phi_max_of pm <= 2 * PI.
Proof. exact (phi_max_range pm). Qed.
Print Assumptions C39_angle_range.
Example C39_ex : let d := disk_make (id_base false) 0 1 0 360 in let r := ray_new (mkV 0 0 1) (mkV 0 0 (-1)) 0 in
  0 <= dk_phimax d <= 2 * PI /\ base_ok (dk_base d) /\ notnan (rmint r) /\ notnan (rmaxt r) /\ disk_intersect_p d r = true.
Proof.
  cbv zeta. split; [apply phi_max_range|]. split; [apply id_base_ok|]. split; [discriminate|]. split; [discriminate|]. apply disk_bad.
Qed.

(** C68: the full tests of disks and cylinders agree with the shadow tests *)
Theorem C68_disk_full_partial (d : disk) (r : ray) :
  0 <= dk_phimax d <= 2 * PI -> base_ok (dk_base d) -> notnan (rmint r) -> notnan (rmaxt r) ->
  let q t := t_point (b_w2o (dk_base d)) (ray_at r t) in
  let on t := on_disk (dk_h d) (dk_r d) (dk_ri d) (dk_phimax d) (q t) in
  match disk_intersect d r with
  | Ok None => disk_intersect_p d r = false
  | Ok (Some h) => disk_intersect_p d r = true /\ in_range r (h_t h) /\ dg_p (h_dg h) = ray_at r (h_t h) /\ on (h_t h)
  | Err e => disk_intersect_p d r = true /\ e = ValueError /\
      exists t, in_range r t /\ on t /\ vx (q t) * vx (q t) + vy (q t) * vy (q t) <= dk_ri d
  end.
Proof. exact (disk_full_spec d r). Qed.
Print Assumptions C68_disk_full_partial.
Theorem C68_disk_full_refuted : let d := disk_make (id_base false) 0 1 0 360 in let r := ray_new (mkV 0 0 1) (mkV 0 0 (-1)) 0 in
  disk_intersect_p d r = true /\ disk_intersect d r = Err ValueError.
Proof. exact disk_bad. Qed.
Print Assumptions C68_disk_full_refuted.
(** every hit of a cylinder makes the full test raise; and no cylinder can be constructed at all *)
Theorem C68_cylinder_full_refuted :
  (forall c r, (cylinder_intersect c r = Ok None <-> cylinder_intersect_p c r = false) /\
     (cylinder_intersect c r = Err AttributeError <-> cylinder_intersect_p c r = true)) /\
  forall b rad z0 z1 pm, cylinder_make b rad z0 z1 pm = Err TypeError.
Proof. split; [exact cylinder_agree|reflexivity]. Qed.
Print Assumptions C68_cylinder_full_refuted.

(** C69: per-vertex attributes *)
Theorem C69_attributes_partial (b : base) (nt nv : nat) (vi : list Z) (P : list vec) (N S : option (list vec))
    (l : list R) (al : option (dgeom -> R)) (f : nat) : (6 * f + 6 <= length l)%nat ->
  (forall k, (k < 3)%nat -> nth (3 * f + k) vi 0%Z = Z.of_nat (3 * f + k)) ->
  let vertex k := Z.to_nat (nth (3 * f + k) vi 0%Z) in
  tri_uvs (mesh_make b nt nv vi P N S (Some l) al) (3 * Z.of_nat f) = Ok (uv_of l (vertex 0%nat), uv_of l (vertex 1%nat), uv_of l (vertex 2%nat)).
Proof.
  intros H HV vertex. unfold vertex. rewrite !HV, !Nat2Z.id by lia. rewrite Nat.add_0_r.
  exact (tri_uvs_identity b nt nv vi P N S l al f H).
Qed.
Print Assumptions C69_attributes_partial.
Theorem C69_shared_vertices_refuted :
  create_mesh (id_base false) [0; 1; 2; 0; 2; 3]%Z quad_P None None (Some quad_uv) = Ok quad_mesh /\
  tri_intersect quad_mesh 3 (ray_new (mkV (1/4) (3/4) 1) (mkV 0 0 (-1)) 0) = Err IndexError /\
  tri_intersect_p quad_mesh 3 (ray_new (mkV (1/4) (3/4) 1) (mkV 0 0 (-1)) 0) = Err IndexError.
Proof. exact quad_fails. Qed.
Print Assumptions C69_shared_vertices_refuted.
Theorem C69_wrong_values_refuted :
  tri_uvs (mesh_make (id_base false) 1 4 [1; 2; 3]%Z quad_P None None (Some quad_uv) None) 0 = Ok ((0, 0), (1, 0), (1, 1)) /\
  (uv_of quad_uv 1, uv_of quad_uv 2, uv_of quad_uv 3) = ((1, 0), (1, 1), (0, 1)).
Proof. exact uv_wrong. Qed.
Print Assumptions C69_wrong_values_refuted.
(** normals without tangents (or tangents without normals) have no effect on shading *)
Theorem C69_shading_ignored_refuted (b : base) (nt nv : nat) (vi : list Z) (P nl : list vec) (uv : option (list R))
    (al : option (dgeom -> R)) (v : Z) (o2w : transform) (g : dgeom) :
  tri_shading (mesh_make b nt nv vi P (Some nl) None uv al) v o2w g = Ok g /\
  tri_shading (mesh_make b nt nv vi P None (Some nl) uv al) v o2w g = Ok g.
Proof. exact (shading_ignored b nt nv vi P nl uv al v o2w g). Qed.
Print Assumptions C69_shading_ignored_refuted.

(** C70: area sampling of quadrics *)
Theorem C205_cylinder_sample (b : base) (rad z0 z1 pm u1 u2 : R) : 0 <= rad -> 0 <= u1 <= 1 -> 0 <= u2 <= 1 ->
  let c := cylinder_fields b rad z0 z1 pm in
  on_cylinder rad (Rmin z0 z1) (Rmax z0 z1) (phi_max_of pm) (cylinder_sample_obj c u1 u2) /\
  fst (cylinder_sample c u1 u2) = t_point (b_o2w b) (cylinder_sample_obj c u1 u2).
Proof.
  intros Hr H1 H2 c. split; [|reflexivity]. rewrite <- pmin_Rmin, <- pmax_Rmax. unfold c, cylinder_fields.
  apply (cylinder_sample_on (cylinder_fields b rad z0 z1 pm) u1 u2); auto; cbn.
  - pose proof (pmin_le_l z0 z1). pose proof (pmax_ge_l z0 z1). lra.
  - apply phi_max_range.
Qed.
Print Assumptions C205_cylinder_sample.
Theorem C70_full_disk_sample_partial (d : disk) (u1 u2 : R) :
  dk_phimax d = 2 * PI -> 0 <= dk_ri d <= dk_r d -> 0 <= u1 <= 1 -> 0 <= u2 <= 1 ->
  on_disk (dk_h d) (dk_r d) (dk_ri d) (dk_phimax d) (disk_sample_obj d u1 u2).
Proof. exact (disk_sample_full d u1 u2). Qed.
Print Assumptions C70_full_disk_sample_partial.
Theorem C70_partial_disk_sample_refuted : let d := disk_make (id_base false) 0 1 0 90 in
  ~ on_disk (dk_h d) (dk_r d) (dk_ri d) (dk_phimax d) (disk_sample_obj d (1/2) 0).
Proof. exact disk_sample_partial_bad. Qed.
Print Assumptions C70_partial_disk_sample_refuted.
(** the normal returned with a disk sample lies in the disk's plane *)
Theorem C70_disk_normal_refuted : let d := disk_make (id_base false) 0 1 0 360 in
  forall u1 u2, vz (snd (disk_sample d u1 u2)) = 0.
Proof. exact disk_sample_normal_bad. Qed.
Print Assumptions C70_disk_normal_refuted.
Theorem C70_sphere_sample_refuted : let s := sphere_make (id_base false) 1 (-1) 1 360 in
  forall u2, sphere_sample_obj s 0 u2 = mkV 0 0 (-3) /\
    ~ on_sphere (sp_r s) (sp_zmin s) (sp_zmax s) (sp_phimax s) (sphere_sample_obj s 0 u2).
Proof. exact sphere_sample_bad. Qed.
Print Assumptions C70_sphere_sample_refuted.
Example C70_ex : dk_phimax (disk_make (id_base false) 0 1 0 360) = 2 * PI.
Proof. cbn. unfold phi_max_of. rewrite clip_id by lra. unfold deg2rad. field. Qed.

(** C71: surface normals and ray differentials *)
Theorem C71_sphere_normal (s : sphere) (r : ray) (h : hit) :
  0 < sp_r s -> - sp_r s <= sp_zmin s -> sp_zmax s <= sp_r s -> 0 < sp_phimax s <= 2 * PI ->
  base_ok (sp_base s) -> notnan (rmint r) -> notnan (rmaxt r) -> sp_tmin s <> sp_tmax s ->
  sphere_intersect s r = Some h ->
  let q := t_point (b_w2o (sp_base s)) (ray_at r (h_t h)) in vx q <> 0 \/ vy q <> 0 ->
  unit (dg_nn (h_dg h)) /\ forall w, vdot w q = 0 -> vdot (dg_nn (h_dg h)) (t_vector (b_o2w (sp_base s)) w) = 0.
Proof.
  intros H1 H2 H3 H4 Hb Hm HM Ht. apply sphere_normal; auto; [|lra]. repeat split; auto; lra.
Qed.
Print Assumptions C71_sphere_normal.
Theorem C71_triangle_normal (b : base) (nt nv : nat) (vi : list Z) (P : list vec) (N S : option (list vec))
    (uv : option (list R)) (al : option (dgeom -> R)) (f : nat) (r : ray) (h : hit) :
  faces_ok vi (length P) -> (3 * f + 2 < length vi)%nat ->
  tri_intersect (mesh_make b nt nv vi P N S uv al) (3 * Z.of_nat f) r = Ok (Some h) ->
  let a := corner (b_o2w b) vi P f 0 in let c := corner (b_o2w b) vi P f 1 in let d := corner (b_o2w b) vi P f 2 in
  unit (dg_nn (h_dg h)) /\ vdot (dg_nn (h_dg h)) (vsub c a) = 0 /\ vdot (dg_nn (h_dg h)) (vsub d a) = 0.
Proof.
  intros HF Hl HI a c d. rewrite (tri_intersect_unfold b nt nv vi P N S uv al f r HF Hl) in HI. fold a c d in HI.
  destruct (Reqb _ _) eqn:ED; [discriminate|]. apply Reqb_false in ED. rewrite mt_div_normal in ED.
  assert (HN : tri_normal a c d <> vzero).
  { intros Z0. apply ED. rewrite Z0. unfold vdot, vzero; cbn. ring. }
  revert HI. cbv zeta.
  repeat (match goal with |- (if ?x then _ else _) = _ -> _ => destruct x; [discriminate|] end).
  destruct (tri_uvs _ _) as [[[[u0 v0] [u1 v1]] [u2 v2]]|]; [|discriminate]. cbn [bind].
  match goal with |- (if ?x then _ else _) = _ -> _ => destruct x; [discriminate|] end.
  intros HI. match type of HI with Ok (Some ?x) = _ => assert (HX : h = x) by congruence end. rewrite HX. cbn [h_dg]. apply tri_dg_normal. exact HN.
Qed.
Print Assumptions C71_triangle_normal.
(** the tangents reproduce the texture-space difference of the corners *)
Theorem C71_triangle_tangents (m : mesh) (p1 p2 p3 q : vec) (u0 v0 u1 v1 u2 v2 b1 b2 : R) :
  (u0 - u2) * (v1 - v2) - (u1 - u2) * (v0 - v2) <> 0 ->
  let g := tri_dg m p1 p2 p3 q ((u0, v0), (u1, v1), (u2, v2)) b1 b2 in
  vsub p1 p3 = vadd (vscale (u0 - u2) (dg_dpdu g)) (vscale (v0 - v2) (dg_dpdv g)) /\
  vsub p2 p3 = vadd (vscale (u1 - u2) (dg_dpdu g)) (vscale (v1 - v2) (dg_dpdv g)).
Proof. exact (tri_dg_tangents m p1 p2 p3 q u0 v0 u1 v1 u2 v2 b1 b2). Qed.
Print Assumptions C71_triangle_tangents.
(** interpolated shading frames are orthonormal and their normal is the (possibly flipped) interpolated normal *)
Theorem C71_shading_frame (m : mesh) (v : Z) (o2w : transform) (g g' : dgeom) (nl sl : list vec) :
  m_n m = Some nl -> m_s m = Some sl -> tri_shading m v o2w g = Ok g' ->
  exists b0 b1 b2 nb, tri_blend nl v b0 b1 b2 = Ok nb /\
   (t_normal o2w nb <> vzero -> let ns := normalize (t_normal o2w nb) in
    unit (dg_dpdu g') /\ unit (dg_dpdv g') /\ orth (dg_dpdu g') (dg_dpdv g') /\ orth ns (dg_dpdu g') /\ orth ns (dg_dpdv g') /\
    dg_nn g' = (if b_flip (m_base m) then vscale (-1) ns else ns) /\ dg_p g' = dg_p g /\ dg_u g' = dg_u g /\ dg_v g' = dg_v g).
Proof. exact (tri_shading_spec m v o2w g g' nl sl). Qed.
Print Assumptions C71_shading_frame.
(** the offset rays are followed to the tangent plane and expressed in the tangents *)
Theorem C71_differentials (flip : bool) (p du dv a b : vec) (u v : R) (r : raydiff) : vcross du dv <> vzero ->
  let g := dg_make flip p du dv a b u v in let g' := compute_differential g r in
  rd_has r = true -> vdot (dg_nn g) (rd_rxd r) <> 0 -> vdot (dg_nn g) (rd_ryd r) <> 0 ->
  (exists t, vadd p (dg_dpdx g') = vadd (rd_rxo r) (vscale t (rd_rxd r))) /\
  (exists t, vadd p (dg_dpdy g') = vadd (rd_ryo r) (vscale t (rd_ryd r))) /\
  vdot (dg_nn g) (dg_dpdx g') = 0 /\ vdot (dg_nn g) (dg_dpdy g') = 0 /\
  dg_dpdx g' = vadd (vscale (dg_dudx g') du) (vscale (dg_dvdx g') dv) /\
  dg_dpdy g' = vadd (vscale (dg_dudy g') du) (vscale (dg_dvdy g') dv).
Proof. exact (compute_differential_spec flip p du dv a b u v r). Qed.
Print Assumptions C71_differentials.
Theorem C71_no_differentials (g : dgeom) (r : raydiff) : rd_has r = false -> let g' := compute_differential g r in
  dg_dudx g' = 0 /\ dg_dvdx g' = 0 /\ dg_dudy g' = 0 /\ dg_dvdy g' = 0 /\ dg_dpdx g' = vzero /\ dg_dpdy g' = vzero.
Proof. exact (compute_differential_none g r). Qed.
Print Assumptions C71_no_differentials.
Example C71_ex : vcross (mkV 1 0 0) (mkV 0 1 0) <> vzero.
Proof. unfold vcross, vzero; cbn. intros H. injection H. lra. Qed.

(** C72: mesh construction, bound, refinement *)
Theorem C72_construction (b : base) (vi : list Z) (P : list vec) (N S : option (list vec)) (uv : option (list R)) :
  (exists m, create_mesh b vi P N S uv = Ok m) <->
  (length vi mod 3 = 0)%nat /\ P <> [] /\ (forall i, In i vi -> (i < Z.of_nat (length P))%Z) /\
  (forall l, N = Some l -> length l = length P) /\ (forall l, S = Some l -> length l = length P) /\
  (forall l, uv = Some l -> (2 * length P <= length l)%nat).
Proof.
  split.
  - intros [m H]. apply create_mesh_ok in H. destruct H as (_ & H1 & H2 & H3 & H4 & H5 & H6).
    split; [|auto]. rewrite H1, Nat.mul_comm. now apply Nat.mod_mul.
  - intros (H1 & H2 & H3 & H4 & H5 & H6). now apply create_mesh_total.
Qed.
Print Assumptions C72_construction.
Theorem C72_faces (b : base) (vi : list Z) (P : list vec) (N S : option (list vec)) (uv : option (list R)) (m : mesh) :
  create_mesh b vi P N S uv = Ok m ->
  (3 * length (mesh_refine m) = length vi)%nat /\ NoDup (mesh_refine m) /\
  forall v, In v (mesh_refine m) <-> exists f, v = (3 * Z.of_nat f)%Z /\ (3 * f + 2 < length vi)%nat.
Proof.
  intros H. apply create_mesh_ok in H. destruct H as (-> & H1 & _).
  destruct (mesh_refine_spec b (length vi / 3) (length P) vi P N S uv None H1) as (A & B & C).
  split; [rewrite A; lia|]. split; [exact B|]. intros v. rewrite C. split.
  - intros (f & F1 & F2 & F3). eauto.
  - intros (f & F1 & F2). exists f. repeat split; auto. lia.
Qed.
Print Assumptions C72_faces.
Theorem C72_bound (b : base) (vi : list Z) (P : list vec) (N S : option (list vec)) (uv : option (list R)) (m : mesh) :
  create_mesh b vi P N S uv = Ok m ->
  exists B, mesh_world_bound m = Ok B /\ (forall p, In p P -> in_box B (t_point (b_o2w b) p)) /\
    (forall B', box_ok B' -> (forall p, In p P -> in_box B' (t_point (b_o2w b) p)) -> box_le B B').
Proof. intros H. apply create_mesh_ok in H. destruct H as (-> & _). exact (mesh_bound_spec b _ vi P N S uv None). Qed.
Print Assumptions C72_bound.
Theorem C72_flat_points (p : list R) (l : list vec) : flat_points p = Ok l <->
  (length p = 3 * length l)%nat /\ forall i, (i < length l)%nat ->
  nth i l vzero = mkV (nth (3 * i) p 0) (nth (3 * i + 1) p 0) (nth (3 * i + 2) p 0).
Proof. exact (flat_points_spec p l). Qed.
Print Assumptions C72_flat_points.
Example C72_ex : exists m, create_mesh (id_base true) [0; 1; 2; 0; 2; 3]%Z quad_P None None (Some quad_uv) = Ok m.
Proof. eexists. reflexivity. Qed.

(** C73: (u, v) lies in the unit square *)
Theorem C73_u_range_partial :
  (forall b rad z0 z1 pm r h, 0 < rad -> 0 < pm -> sphere_intersect (sphere_make b rad z0 z1 pm) r = Some h -> 0 <= dg_u (h_dg h) <= 1) /\
  (forall b ht rad ri pm r h, 0 < pm -> disk_intersect (disk_make b ht rad ri pm) r = Ok (Some h) -> 0 <= dg_u (h_dg h) <= 1).
Proof.
  assert (PP : forall pm, 0 < pm -> 0 < phi_max_of pm).
  { intros pm H. unfold phi_max_of, deg2rad. assert (0 < clip pm 0 360) by (unfold clip, Rmin, Rmax; repeat destruct Rle_dec; lra).
    pose proof PI_RGT_0. nra. }
  split.
  - intros b rad z0 z1 pm r h Hr Hp. apply sphere_u_range; [now apply sphere_make_ok|]. cbn. auto.
  - intros b ht rad ri pm r h Hp. apply disk_u_range. cbn. pose proof (phi_max_range pm). split; [auto|lra].
Qed.
Print Assumptions C73_u_range_partial.
Theorem C73_v_range_refuted : let s := sphere_make (id_base false) 1 (-1) 1 360 in
  exists r h, notnan (rmint r) /\ notnan (rmaxt r) /\ sphere_intersect s r = Some h /\ 1 < dg_v (h_dg h).
Proof. exact sphere_v_bad. Qed.
Print Assumptions C73_v_range_refuted.

(** C74: index validation.  Large indices are rejected (C72); negative ones are accepted and wrap around *)
Theorem C74_large_index_rejected_partial (b : base) (vi : list Z) (P : list vec) (N S : option (list vec)) (uv : option (list R)) (i : Z) :
  In i vi -> (Z.of_nat (length P) <= i)%Z -> exists e, create_mesh b vi P N S uv = Err e.
Proof.
  intros Hi HL. destruct (create_mesh b vi P N S uv) as [m|e] eqn:HE; [|eauto].
  apply create_mesh_ok in HE. destruct HE as (_ & _ & _ & H & _). specialize (H i Hi). lia.
Qed.
Print Assumptions C74_large_index_rejected_partial.
Theorem C74_negative_index_refuted : let P := [mkV 0 0 0; mkV 1 0 0; mkV 0 1 0; mkV 7 7 7] in
  exists m, create_mesh (id_base false) [-1; 0; 1]%Z P None None None = Ok m /\ tri_vert m 0 0 = Ok (mkV 7 7 7).
Proof. cbv zeta. eexists. split; [reflexivity|]. rewrite id_mesh. reflexivity. Qed.
Print Assumptions C74_negative_index_refuted.

(** C75: object bounds contain the surfaces; identifiers are distinct *)
Theorem C75_object_bounds :
  (forall s p, 0 <= sp_r s -> on_sphere (sp_r s) (sp_zmin s) (sp_zmax s) (sp_phimax s) p -> in_corners (sphere_object_bound s) p) /\
  (forall c p, 0 <= cy_r c -> on_cylinder (cy_r c) (cy_zmin c) (cy_zmax c) (cy_phimax c) p -> in_corners (cylinder_object_bound c) p) /\
  (forall d p, 0 <= dk_r d -> on_disk (dk_h d) (dk_r d) (dk_ri d) (dk_phimax d) p -> in_corners (disk_object_bound d) p).
Proof. exact quadric_bounds. Qed.
Print Assumptions C75_object_bounds.
(** the j-th shape created has the identifier [counter + j]: none is used twice and none is skipped *)
Theorem C75_distinct_ids (k : nat) (c : Z) : NoDup (make_ids shape_new k c) /\
  forall j, (j < k)%nat -> nth_error (make_ids shape_new k c) j = Some (c + Z.of_nat j)%Z.
Proof. split; [now apply ids_distinct|now apply ids_in_order]. Qed.
Print Assumptions C75_distinct_ids.
Example C75_ex : on_sphere 1 (-1) 1 (2 * PI) (mkV 0 0 1).
Proof.
  split; [cbn; lra|]. split; [cbn; lra|]. apply angle_full.
Qed.
