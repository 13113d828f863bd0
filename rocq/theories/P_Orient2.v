(** Witnesses for P_Orient; misses. *)
From Coq Require Import Reals Lra Lia List ZArith Bool Psatz.
From Verif Require Import Base M_Geometry S_Geometry P_Geometry M_Transform S_Transform P_Transform P_Transform2
  M_MonteCarlo M_Film M_Shapes S_Shapes P_Quadrics P_Triangle P_Normals P_Mesh P_ShapesMore P_ShapesMore2 P_Orient.
Import ListNotations.
Open Scope R_scope.

Lemma unit_sphere_fields b : let s := sphere_make b 1 (-1) 1 360 in
  sp_r s = 1 /\ sp_zmin s = -1 /\ sp_zmax s = 1 /\ sp_tmin s = PI /\ sp_tmax s = 0 /\ sp_phimax s = 2 * PI.
Proof.
  cbv zeta. unfold sphere_make; cbn [sp_tmin sp_tmax sp_r sp_zmin sp_zmax sp_phimax].
  replace (pmin (-1) 1) with (-1) by (symmetry; rewrite pmin_Rmin; apply Rmin_left; lra).
  replace (pmax (-1) 1) with 1 by (symmetry; rewrite pmax_Rmax; apply Rmax_right; lra).
  rewrite !(clip_id (-1)) by lra. rewrite !(clip_id 1) by lra.
  replace (-1 / 1) with (-1) by lra. rewrite (clip_id (-1)) by lra. rewrite acos_m1.
  replace (1 / 1) with 1 by lra. rewrite clip_id by lra. rewrite acos_1. 
  repeat split. unfold phi_max_of. rewrite clip_id by lra. unfold deg2rad. lra.
Qed.
Lemma unit_hit ro : exists r h, notnan (rmint r) /\ notnan (rmaxt r) /\ let s := sphere_make (id_base ro) 1 (-1) 1 360 in
  sphere_intersect s r = Some h /\ sp_tmax s < sp_tmin s /\
  let q := t_point (b_w2o (sp_base s)) (ray_at r (h_t h)) in vx q <> 0 \/ vy q <> 0.
Proof.
  set (r := ray_new (mkV 3 0 0) (mkV (-1) 0 0) 0). set (s := sphere_make (id_base ro) 1 (-1) 1 360).
  destruct (unit_sphere_fields (id_base ro)) as (R1 & R2 & R3 & R4 & R5 & R6). fold s in R1, R2, R3, R4, R5, R6.
  pose proof (sphere_intersect_spec s r (sphere_make_ok _ _ _ _ _ Rlt_0_1) (id_base_ok ro)) as F.
  specialize (F ltac:(discriminate) ltac:(discriminate)). cbv zeta in F. change (b_w2o (sp_base s)) with t_identity in F.
  assert (RA : forall t, ray_at r t = mkV (3 - t) 0 0).
  { intros t. unfold ray_at, r, ray_new, vadd, vscale, vmap2, vmap; cbn. f_equal; ring. }
  destruct (sphere_intersect s r) as [h|] eqn:E.
  - exists r, h. split; [discriminate|]. split; [discriminate|]. split; [exact E|]. split; [rewrite R4, R5; exact PI_RGT_0|].
    cbv zeta. change (b_w2o (sp_base s)) with t_identity. rewrite t_point_I, RA. cbn. left.
    destruct F as (_ & (F & _) & _). rewrite t_point_I, RA in F. cbn [vx vy vz] in F. rewrite R1 in F. intros Z0. rewrite Z0 in F. lra.
  - exfalso. apply (F ltac:(unfold sdisc; change (b_w2o (sp_base s)) with t_identity; rewrite R1; unfold t_ray, r, ray_new; cbn [M_Geometry.ro rd]; rewrite t_point_I, t_vector_I; unfold discriminant, vdot, EPS; cbn; lra) 2).
    + split; [apply Rleb_true; lra|reflexivity].
    + rewrite t_point_I, RA. unfold sphere_on, on_sphere. rewrite R1, R2, R3, R6. cbn [vx vy vz]. split; [lra|]. split; [lra|].
      apply disk_angle; [pose proof PI_RGT_0; lra|]. pose proof (hit_phi_range (mkV (3 - 2) 0 0)). lra.
Qed.
Lemma sphere_reversed : exists r h, let s := sphere_make (id_base true) 1 (-1) 1 360 in
  sphere_intersect s r = Some h /\ dg_nn (h_dg h) = vscale (-1) (ray_at r (h_t h)) /\
  dg_dndu (h_dg h) = dg_dpdu (h_dg h) /\ dg_dndu (h_dg h) <> vscale (-1) (dg_dpdu (h_dg h)).
Proof.
  destruct (unit_hit true) as (r & h & Hm & HM & HI & HT & Hn). exists r, h. cbv zeta. split; [exact HI|].
  set (s := sphere_make (id_base true) 1 (-1) 1 360) in *. cbv zeta in Hn.
  destruct (unit_sphere_fields (id_base true)) as (R1 & R2 & R3 & R4 & R5 & R6). fold s in R1, R2, R3, R4, R5, R6.
  pose proof PI_RGT_0 as PP.
  assert (OK : sphere_ok s) by (apply sphere_make_ok; lra).
  assert (RG : forall v w, vdot (t_vector (b_o2w (sp_base s)) v) (t_vector (b_o2w (sp_base s)) w) = vdot v w).
  { intros v w. change (b_o2w (sp_base s)) with t_identity. now rewrite !t_vector_I. }
  destruct (sphere_curvature s r h OK ltac:(rewrite R6; lra) HT (id_base_ok true) RG Hm HM HI Hn) as (A & B & _).
  rewrite R1 in A, B. change (b_ro (sp_base s)) with true in A. change (b_o2w (sp_base s)) with t_identity in A.
  rewrite t_point_I in A. cbn [negb] in A.
  assert (V1 : forall v, vscale 1 v = v) by (intros []; unfold vscale, vmap; cbn; f_equal; ring). rewrite V1 in A, B.
  assert (VZ : forall v, vsub v vzero = v) by (intros []; unfold vsub, vmap2, vzero; cbn; f_equal; ring). rewrite VZ in A.
  split; [exact A|]. split; [exact B|]. rewrite B. intros Z0.
  destruct (sphere_hit_obj s r h OK (id_base_ok true) Hm HM HI Hn) as [G _].
  assert (D : dg_dpdu (h_dg h) = mkV (- sp_phimax s * vy (ray_at r (h_t h))) (sp_phimax s * vx (ray_at r (h_t h))) 0).
  { rewrite G. unfold sphere_dg. destruct (weingarten _ _ _ _ _). cbn [dg_make dg_dpdu]. change (b_o2w (sp_base s)) with t_identity.
    change (b_w2o (sp_base s)) with t_identity. now rewrite t_vector_I, t_point_I. }
  rewrite D, R6 in Z0. change (b_w2o (sp_base s)) with t_identity in Hn. rewrite t_point_I in Hn.
  destruct (ray_at r (h_t h)) as [x y z]. unfold vscale, vmap in Z0; cbn in Z0, Hn. injection Z0 as Z1 Z2. destruct Hn as [N0|N0]; apply N0; apply (Rmult_eq_reg_l (2 * PI)); lra.
Qed.
Lemma tri_pdf_miss b nt nv vi P N S uv f pnt wi A : faces_ok vi (length P) -> (3 * f + 2 < length vi)%nat ->
  (forall l, uv = Some l -> (6 * f + 6 <= length l)%nat) ->
  let a := corner (b_o2w b) vi P f 0 in let c := corner (b_o2w b) vi P f 1 in let d := corner (b_o2w b) vi P f 2 in
  (forall t, EPS <= t -> ~ in_triangle a c d (vadd pnt (vscale t wi))) ->
  shape_pdf_p (tri_intersect (mesh_make b nt nv vi P N S uv None) (3 * Z.of_nat f)) A pnt wi = Ok 0.
Proof.
  intros HF Hl Hu a c d MISS. unfold shape_pdf_p. set (r := ray_new pnt wi EPS).
  destruct (tri_intersect _ _ r) as [[h|]|e] eqn:HI; [|reflexivity|].
  - exfalso. destruct (tri_hit_sound b nt nv vi P N S uv None f r HF Hl h ltac:(discriminate) ltac:(discriminate) HI) as (R0 & IN & _).
    fold a c d in IN. apply (MISS (h_t h)); [|exact IN]. destruct R0 as [R0 _]. now apply Rleb_true in R0.
  - exfalso. rewrite (tri_intersect_unfold b nt nv vi P N S uv None f r HF Hl) in HI. cbv zeta in HI.
    destruct (tri_uvs_ok b nt nv vi P N S uv None f) as (t & TU); [destruct uv; cbn; auto|].
    rewrite TU in HI. cbn [bind] in HI.
    repeat (match type of HI with (if ?x then _ else _) = _ => destruct x; [discriminate|] end). discriminate.
Qed.
Lemma pdf_p_any (isect : ray -> res (option hit)) (area : R) (pnt wi : vec) :
  let r := ray_new pnt wi EPS in
  (isect r = Ok None -> shape_pdf_p isect area pnt wi = Ok 0) /\
  (forall h, isect r = Ok (Some h) -> unit wi -> area <> 0 -> vdot (dg_nn (h_dg h)) wi <> 0 ->
     exists dns, shape_pdf_p isect area pnt wi = Ok dns /\
       dns * (Rabs (vdot (dg_nn (h_dg h)) wi) * area) = h_t h * h_t h) /\
  (forall e, isect r = Err e -> shape_pdf_p isect area pnt wi = Err e).
Proof.
  intros r. unfold shape_pdf_p. fold r. split; [|split].
  - intros ->. reflexivity.
  - intros h -> U A0 N0. cbn [bind]. eexists; split; [reflexivity|].
    assert (LEN : sq_length (vsub pnt (ray_at r (h_t h))) = h_t h * h_t h).
    { unfold unit in U. unfold r, sq_length, ray_at, ray_new, vdot, vsub, vadd, vscale, vmap2, vmap; cbn.
      destruct wi; cbn in *. transitivity (h_t h * h_t h * (vx * vx + vy * vy + vz * vz)); [ring|]. rewrite U. ring. }
    rewrite LEN. assert (AD : abs_dot (dg_nn (h_dg h)) (vneg wi) = Rabs (vdot (dg_nn (h_dg h)) wi)).
    { unfold abs_dot. replace (vdot (dg_nn (h_dg h)) (vneg wi)) with (- vdot (dg_nn (h_dg h)) wi)
        by (destruct (dg_nn (h_dg h)), wi; unfold vdot, vneg, vmap; cbn; ring). apply Rabs_Ropp. }
    rewrite AD. field. split; [exact A0|]. now apply Rabs_no_R0.
  - intros e ->. reflexivity.
Qed.
