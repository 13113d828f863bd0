(** C222-C227: areas, parametrisation, interpolation, cones, sample normals, ray offsets; and theorems added to C36, C63, C71,
    C72, C188 after testing against wrong programs *)
From Coq Require Import Reals Lra Lia List Bool ZArith.
From Coquelicot Require Import Coquelicot.
From Verif Require Import Base M_Geometry M_Transform M_Utility M_MonteCarlo M_Film M_Shapes M_Volume S_Geometry S_Transform S_Shapes
  P_Geometry P_Transform P_Transform2 P_MonteCarlo P_Quadrics P_Normals P_Triangle P_Mesh P_ShapesMore P_Orient P_Orient2 S_Area P_Area P_Cone P_Surface P_ShapesMore2 Props_Tight2.
Import ListNotations.
Open Scope R_scope.

(** ** C222: area() is the area of the surface that the intersection test sees *)
Theorem C222_sphere (s : sphere) : 0 < sp_r s -> - sp_r s <= sp_zmin s -> sp_zmin s <= sp_zmax s -> sp_zmax s <= sp_r s -> 0 <= sp_phimax s ->
  let lo := acos (sp_zmax s / sp_r s) in let hi := acos (sp_zmin s / sp_r s) in
  patch_covers (sph (sp_r s)) 0 (sp_phimax s) lo hi (on_sphere (sp_r s) (sp_zmin s) (sp_zmax s) (sp_phimax s)) /\
  patch_area (sph (sp_r s)) 0 (sp_phimax s) lo hi (sphere_area s).
Proof.
  intros H1 H2 H3 H4 H5 lo hi. split; [now apply sph_covers|].
  assert (RG : forall z, - sp_r s <= z <= sp_r s -> -1 <= z / sp_r s <= 1).
  { intros z Hz. split; apply Rmult_le_reg_r with (sp_r s); auto; unfold Rdiv; rewrite Rmult_assoc, Rinv_l by lra; lra. }
  assert (LE : sp_zmin s / sp_r s <= sp_zmax s / sp_r s) by (apply Rmult_le_compat_r; [left; now apply Rinv_0_lt_compat|lra]).
  pose proof (RG (sp_zmin s) ltac:(lra)) as R1. pose proof (RG (sp_zmax s) ltac:(lra)) as R2.
  unfold sphere_area. replace (sp_phimax s * sp_r s * (sp_zmax s - sp_zmin s)) with (sp_phimax s * (sp_r s * sp_r s * (cos lo - cos hi))).
  2:{ unfold lo, hi. rewrite !cos_acos by lra. field. lra. }
  pose proof (acos_bound (sp_zmax s / sp_r s)). pose proof (acos_bound (sp_zmin s / sp_r s)).
  apply sph_area; [|unfold hi; lra]. unfold lo, hi. split; [lra|].
  apply Rnot_lt_le. intros LT. assert (cos (acos (sp_zmax s / sp_r s)) < cos (acos (sp_zmin s / sp_r s))) by (apply cos_decreasing_1; lra).
  rewrite !cos_acos in * by lra. lra.
Qed.
Theorem C222_cylinder (c : cylinder) : 0 <= cy_r c ->
  patch_covers (cyl (cy_r c)) 0 (cy_phimax c) (cy_zmin c) (cy_zmax c) (on_cylinder (cy_r c) (cy_zmin c) (cy_zmax c) (cy_phimax c)) /\
  patch_area (cyl (cy_r c)) 0 (cy_phimax c) (cy_zmin c) (cy_zmax c) (cylinder_area c).
Proof.
  intros H. split; [now apply cyl_covers|]. unfold cylinder_area.
  replace (cy_phimax c * cy_r c * (cy_zmax c - cy_zmin c)) with (cy_phimax c * (cy_r c * (cy_zmax c - cy_zmin c))) by ring. now apply cyl_area.
Qed.
Theorem C222_disk (d : disk) : 0 <= dk_ri d <= dk_r d ->
  patch_covers (dsk (dk_h d)) 0 (dk_phimax d) (dk_ri d) (dk_r d) (on_disk (dk_h d) (dk_r d) (dk_ri d) (dk_phimax d)) /\
  patch_area (dsk (dk_h d)) 0 (dk_phimax d) (dk_ri d) (dk_r d) (disk_area d).
Proof.
  intros H. split; [apply dsk_covers; lra|]. unfold disk_area.
  replace (dk_phimax d * (1 / 2) * (dk_r d * dk_r d - dk_ri d * dk_ri d)) with (dk_phimax d * ((dk_r d * dk_r d - dk_ri d * dk_ri d) / 2)) by field. now apply dsk_area.
Qed.
Theorem C222_triangle (b : base) (nt nv : nat) (vi : list Z) (P : list vec) (N S : option (list vec)) (uv : option (list R))
    (al : option (dgeom -> R)) (f : nat) : faces_ok vi (length P) -> (3 * f + 2 < length vi)%nat ->
  let a := corner (b_o2w b) vi P f 0 in let c := corner (b_o2w b) vi P f 1 in let d := corner (b_o2w b) vi P f 2 in
  exists A, tri_area (mesh_make b nt nv vi P N S uv al) (3 * Z.of_nat f) = Ok A /\
    patch_covers (trp a c d) 0 1 0 1 (in_triangle a c d) /\ patch_area (trp a c d) 0 1 0 1 A.
Proof.
  intros HF Hl a c d. eexists. split; [|split; [apply trp_covers|apply trp_area]].
  unfold tri_area. destruct (tri_verts_ok b nt nv vi P N S uv al f HF Hl) as (-> & -> & ->). reflexivity.
Qed.
Print Assumptions C222_sphere.
Print Assumptions C222_cylinder.
Print Assumptions C222_disk.
Print Assumptions C222_triangle.
(** the whole unit sphere: 4 pi *)
Example C222_ex : let s := sphere_make (id_base false) 1 (-1) 1 360 in
  0 < sp_r s /\ - sp_r s <= sp_zmin s /\ sp_zmin s <= sp_zmax s /\ sp_zmax s <= sp_r s /\ sphere_area s = 4 * PI.
Proof.
  intros s. unfold s, sphere_area, sphere_make. cbn [sp_r sp_zmin sp_zmax sp_phimax].
  replace (pmin (-1) 1) with (-1) by (unfold pmin; Rcase; lra). replace (pmax (-1) 1) with 1 by (unfold pmax; Rcase; lra).
  rewrite !clip_id by lra. unfold phi_max_of. rewrite clip_id by lra. unfold deg2rad. repeat split; try lra; field.
Qed.

(** ** C223: surface coordinates and tangents *)
(** the tangents at a sphere hit are the derivatives of the parametrisation, and u is its first parameter *)
Theorem C223_sphere_partial (s : sphere) (r : ray) (h : hit) :
  0 < sp_r s -> - sp_r s <= sp_zmin s -> sp_zmax s <= sp_r s -> 0 < sp_phimax s <= 2 * PI -> sp_tmax s < sp_tmin s ->
  base_ok (sp_base s) -> notnan (rmint r) -> notnan (rmaxt r) -> sphere_intersect s r = Some h ->
  let q := t_point (b_w2o (sp_base s)) (ray_at r (h_t h)) in vx q <> 0 \/ vy q <> 0 ->
  let P u v := sph (sp_r s) (u * sp_phimax s) (sp_tmin s + v * (sp_tmax s - sp_tmin s)) in
  exists u v du dv, 0 <= u <= 1 /\ P u v = q /\ vderive (fun t => P t v) u du /\ vderive (fun t => P u t) v dv /\
    dg_dpdu (h_dg h) = t_vector (b_o2w (sp_base s)) du /\ dg_dpdv (h_dg h) = t_vector (b_o2w (sp_base s)) dv /\ dg_u (h_dg h) = u.
Proof.
  intros H1 H2 H3 H4 HT Hb Hm HM HI q Hn P.
  assert (OK : sphere_ok s) by (repeat split; auto; lra).
  destruct (sphere_hit_obj s r h OK Hb Hm HM HI Hn) as [E Q]. fold q in E, Q.
  destruct (sphere_param s q H1 ltac:(lra) HT Q Hn) as (du & dv & A & B & C & D & F & G).
  exists (hit_phi q / sp_phimax s), ((acos (vz q / sp_r s) - sp_tmin s) / (sp_tmax s - sp_tmin s)), du, dv.
  split.
  { pose proof (sphere_intersect_spec s r OK Hb Hm HM) as SI. cbv zeta in SI. rewrite HI in SI. destruct SI as (_ & (_ & _ & AW) & _). fold q in AW.
    apply angle_within_iff in AW; [|lra|exact Hn]. pose proof (hit_phi_range q) as HR.
    split; [apply Rmult_le_pos; [lra|left; apply Rinv_0_lt_compat; lra]|]. apply Rmult_le_reg_r with (sp_phimax s); [lra|].
    unfold Rdiv. rewrite Rmult_assoc, Rinv_l by lra. lra. }
  rewrite E. split; [exact A|]. split; [exact B|]. split; [exact C|]. split; [exact D|]. split; [exact F|exact G].
Qed.
Print Assumptions C223_sphere_partial.
(** the reported v is not the second parameter: at the equator of a full sphere it is pi^2/2 *)
Theorem C223_sphere_v_refuted : let s := sphere_make (id_base false) 1 (-1) 1 360 in
  forall q, vz q = 0 -> dg_v (sphere_dg s q) = PI * PI / 2 /\ 1 < dg_v (sphere_dg s q).
Proof.
  intros s q Hz.
  assert (E : dg_v (sphere_dg s q) = PI * PI / 2).
  { unfold sphere_dg. destruct (weingarten _ _ _ _ _). cbn [dg_make dg_v].
    destruct (unit_sphere_fields (id_base false)) as (R1 & R2 & R3 & R4 & R5 & R6). fold s in R1, R2, R3, R4, R5, R6.
    rewrite R1, R4, R5, Hz. replace (0 / 1) with 0 by lra. rewrite clip_id by lra. rewrite acos_0. 
    field. }
  split; [exact E|]. rewrite E. pose proof PI2_3_2. unfold PI2 in *. nra.
Qed.
Print Assumptions C223_sphere_v_refuted.
Theorem C223_disk_partial (d : disk) (r : ray) (h : hit) : 0 < dk_r d -> dk_ri d = 0 -> dk_phimax d = 2 * PI ->
  base_ok (dk_base d) -> notnan (rmint r) -> notnan (rmaxt r) -> disk_intersect d r = Ok (Some h) ->
  let q := t_point (b_w2o (dk_base d)) (ray_at r (h_t h)) in
  let P u v := dsk (dk_h d) (u * dk_phimax d) ((1 - v) * dk_r d) in
  let u := dg_u (h_dg h) in let v := dg_v (h_dg h) in
  exists du dv, 0 <= u <= 1 /\ 0 <= v <= 1 /\ P u v = q /\ vderive (fun t => P t v) u du /\ vderive (fun t => P u t) v dv /\
    dg_dpdu (h_dg h) = t_vector (b_o2w (dk_base d)) du /\ dg_dpdv (h_dg h) = t_vector (b_o2w (dk_base d)) dv.
Proof.
  intros HR H0 HP Hb Hm HM HI q P. unfold disk_intersect in HI.
  pose proof PI_RGT_0 as PP.
  pose proof (disk_find_spec d r ltac:(lra) Hm HM) as F. cbv zeta in F.
  destruct (disk_find d r) as [[t p]|]; [|discriminate].
  destruct (disk_dg d p) as [g|e] eqn:EG; [|discriminate]. cbn [bind] in HI. injection HI as <-. cbn [h_dg h_t] in *.
  destruct F as (F1 & F4 & F3 & _).
  assert (EQ : p = q) by (unfold q; rewrite <- base_ray by exact Hb; first [exact F4|now symmetry]).
  assert (OD : vz q = dk_h d /\ vx q * vx q + vy q * vy q <= dk_r d * dk_r d).
  { rewrite <- EQ. destruct F3 as (Z1 & (_ & Z2) & _). auto. }
  rewrite EQ in EG. clear F4. destruct OD as [Oz Or].
  destruct (disk_param d q g HR H0 HP Oz EG) as (du & dv & A & B & C & D & E).
  exists du, dv. split; [|split; [|split; [exact A|split; [exact B|split; [exact C|split; [exact D|exact E]]]]]].
  - unfold disk_dg in EG. cbv zeta in EG. destruct (Rleb _ _) eqn:Q; [discriminate|]. injection EG as <-. cbn [dg_make dg_u].
    pose proof (hit_phi_range q). rewrite HP. split; [apply Rmult_le_pos; [lra|left; apply Rinv_0_lt_compat; lra]|].
    apply Rmult_le_reg_r with (2 * PI); [lra|]. unfold Rdiv. rewrite Rmult_assoc, Rinv_l by lra. lra.
  - unfold disk_dg in EG. cbv zeta in EG. destruct (Rleb _ _) eqn:Q; [discriminate|]. Rb. injection EG as <-. cbn [dg_make dg_v].
    rewrite H0, !Rminus_0_r.
    assert (S1 : 0 <= sqrt (vx q * vx q + vy q * vy q)) by apply sqrt_pos.
    assert (S2 : sqrt (vx q * vx q + vy q * vy q) <= dk_r d). { rewrite <- (sqrt_square (dk_r d)) by lra. apply sqrt_le_1; try lra. all: nra. }
    assert (S3 : 0 <= sqrt (vx q * vx q + vy q * vy q) / dk_r d <= 1).
    { split; [apply Rmult_le_pos; [lra|left; apply Rinv_0_lt_compat; lra]|]. apply Rmult_le_reg_r with (dk_r d); [lra|].
      unfold Rdiv. rewrite Rmult_assoc, Rinv_l by lra. lra. }
    lra.
Qed.
Print Assumptions C223_disk_partial.
(** with a hole of radius 1/2 the outer rim is not at v = 0: there v = 1 - sqrt 2 < 0 *)
Theorem C223_disk_hole_refuted : let d := disk_make (id_base false) 0 1 (1/2) 360 in
  exists g, disk_dg d (mkV 1 0 0) = Ok g /\ dg_v g < 0.
Proof.
  intros d. unfold disk_dg, d, disk_make. cbn [dk_ri dk_r dk_phimax dk_base vx vy vz].
  replace (Rleb _ _) with false by (symmetry; apply Rleb_false; lra). eexists. split; [reflexivity|]. cbn [dg_make dg_v].
  assert (S : 1 / 2 < sqrt (1 * 1 + 0 * 0 - 1 / 2)).
  { rewrite <- (sqrt_square (1 / 2)) at 1 by lra. apply sqrt_lt_1; lra. }
  lra.
Qed.
Print Assumptions C223_disk_hole_refuted.
Example C223_ex : exists r h, let s := sphere_make (id_base false) 1 (-1) 1 360 in
  sphere_intersect s r = Some h /\ sp_tmax s < sp_tmin s.
Proof.
  destruct (unit_hit false) as (r & h & _ & _ & H). cbv zeta in H. exists r, h. cbv zeta. split; [apply H|].
  destruct (unit_sphere_fields (id_base false)) as (R1 & R2 & R3 & R4 & R5 & R6). rewrite R4, R5. apply PI_RGT_0.
Qed.

(** ** C224: a triangle hit reports the parameters interpolated between its corners *)
Theorem C224_interpolation (b : base) (nt nv : nat) (vi : list Z) (P : list vec) (N S : option (list vec)) (uv : option (list R))
    (al : option (dgeom -> R)) (f : nat) (r : ray) (h : hit) : faces_ok vi (length P) -> (3 * f + 2 < length vi)%nat ->
  let m := mesh_make b nt nv vi P N S uv al in tri_intersect m (3 * Z.of_nat f) r = Ok (Some h) ->
  let a := corner (b_o2w b) vi P f 0 in let c := corner (b_o2w b) vi P f 1 in let d := corner (b_o2w b) vi P f 2 in
  exists x y z u0 v0 u1 v1 u2 v2, tri_uvs m (3 * Z.of_nat f) = Ok ((u0, v0), (u1, v1), (u2, v2)) /\
    0 <= x /\ 0 <= y /\ 0 <= z /\ x + y + z = 1 /\ ray_at r (h_t h) = vadd (vadd (vscale x a) (vscale y c)) (vscale z d) /\
    dg_u (h_dg h) = x * u0 + y * u1 + z * u2 /\ dg_v (h_dg h) = x * v0 + y * v1 + z * v2.
Proof.
  intros HF Hl m HI a c d. destruct (tri_interp b nt nv vi P N S uv al f r h HF Hl HI) as (x & y & z & u0 & v0 & u1 & v1 & u2 & v2 & H).
  exists x, y, z, u0, v0, u1, v1, u2, v2. tauto.
Qed.
Theorem C224_default_uv (b : base) (nt nv : nat) (vi : list Z) (P : list vec) (N S : option (list vec)) (al : option (dgeom -> R)) (v : Z) :
  tri_uvs (mesh_make b nt nv vi P N S None al) v = Ok ((0, 0), (1, 0), (1, 1)).
Proof. reflexivity. Qed.
Print Assumptions C224_interpolation.
Print Assumptions C224_default_uv.
Example C224_ex : exists h, tri_intersect (mesh_make (id_base false) 1 3 [0; 1; 2]%Z [mkV 0 0 0; mkV 1 0 0; mkV 0 1 0] None None None None) (3 * Z.of_nat 0)
  (ray_new (mkV (1/4) (1/4) 1) (mkV 0 0 (-1)) 0) = Ok (Some h).
Proof.
  destruct (tri_hit_complete (id_base false) 1 3 [0; 1; 2]%Z [mkV 0 0 0; mkV 1 0 0; mkV 0 1 0] None None None None 0
    (ray_new (mkV (1/4) (1/4) 1) (mkV 0 0 (-1)) 0)) with (t := 1) as (h & H & _); eauto.
  - unfold faces_ok. repeat (constructor; [cbn; lia|]); constructor.
  - cbn. lia.
  - discriminate.
  - discriminate.
  - unfold corner. cbn [nth Z.to_nat Nat.add Nat.mul id_base b_o2w Pos.to_nat Pos.iter_op]. change (Pos.to_nat 1) with 1%nat. change (Pos.to_nat 2) with 2%nat. rewrite !t_point_I. unfold ray_new, vdot, tri_normal, vcross, vsub, vmap2; cbn; lra.
  - split; [apply Rleb_true; lra|reflexivity].
  - exists (1/2), (1/4), (1/4). unfold corner. cbn [nth Z.to_nat Nat.add Nat.mul id_base b_o2w Pos.to_nat Pos.iter_op]. change (Pos.to_nat 1) with 1%nat. change (Pos.to_nat 2) with 2%nat. rewrite !t_point_I. repeat split; try lra.
    unfold ray_at, vadd, vscale, vmap2, vmap; cbn. apply V3_eq; cbn; lra.
Qed.

(** ** C225: sampling a sphere from outside *)
(** the cone used is exactly the set of directions that point into the ball *)
Theorem C225_cone_exact (s : sphere) (pnt w : vec) : 0 < sp_r s ->
  let ctr := t_point (b_o2w (sp_base s)) vzero in sp_r s * sp_r s < sq_dist pnt ctr -> unit w ->
  (exists t, 0 <= t /\ sq_dist (vadd pnt (vscale t w)) ctr <= sp_r s * sp_r s) <->
  sphere_ct_max s pnt ctr <= vdot w (normalize (vsub ctr pnt)).
Proof. intros Hr ctr Hd U. now apply cone_exact. Qed.
(** samples: the direction is uniform in the cone; the point is the first hit along it, or, when the ray only grazes the
    sphere and the intersection test misses it, the point of the ray nearest to the centre; the normal points away from the
    centre, or towards it with reversed orientation *)
Theorem C225_sample (s : sphere) (pnt : vec) (u1 u2 : R) :
  0 < sp_r s -> - sp_r s <= sp_zmin s -> sp_zmax s <= sp_r s -> 0 <= sp_phimax s <= 2 * PI -> base_ok (sp_base s) ->
  0 <= u1 <= 1 -> 0 <= u2 <= 1 -> let ctr := t_point (b_o2w (sp_base s)) vzero in
  1 / 100000 <= sq_dist pnt ctr - sp_r s * sp_r s ->
  let ct := sqrt (1 - sp_r s * sp_r s / sq_dist pnt ctr) in
  let '(ps, ns) := sphere_sample_p s pnt u1 u2 in
  exists w t, unit w /\ vdot w (normalize (vsub ctr pnt)) = ct + u1 * (1 - ct) /\ ps = vadd pnt (vscale t w) /\
    match sphere_intersect s (ray_new pnt w EPS) with
    | Some h => t = h_t h /\ on_sphere (sp_r s) (sp_zmin s) (sp_zmax s) (sp_phimax s) (t_point (b_w2o (sp_base s)) ps)
    | None => vdot (vsub ctr ps) w = 0
    end /\
    ns = vscale (if b_ro (sp_base s) then -1 else 1) (normalize (vsub ps ctr)).
Proof.
  intros H1 H2 H3 H4 Hb U1 U2 ctr Hd ct.
  assert (OK : sphere_ok s) by (repeat split; auto; lra).
  pose proof (sample_p_spec s pnt u1 u2 OK Hb U1 U2) as SP. cbv zeta in SP. fold ctr in SP.
  specialize (SP ltac:(unfold EPS; lra)). rewrite Rmax_right in SP; [exact SP|].
  set (D := sq_dist pnt ctr) in *. assert (0 < D) by nra.
  apply Rmult_le_reg_r with D; [lra|]. unfold Rdiv. rewrite Rmult_minus_distr_r, Rmult_assoc, Rinv_l by lra. lra.
Qed.
(** the density is the reciprocal of the cone's solid angle *)
Theorem C225_density (s : sphere) (pnt wi : vec) : 0 < sp_r s ->
  let ctr := t_point (b_o2w (sp_base s)) vzero in 1 / 100000 <= sq_dist pnt ctr - sp_r s * sp_r s ->
  exists dns, sphere_pdf_p s pnt wi = Ok dns /\ dns * zone_area (sphere_ct_max s pnt ctr) 1 = 1.
Proof.
  intros Hr ctr Hd. unfold sphere_pdf_p. fold ctr. replace (Rltb _ EPS) with false by (symmetry; apply Rltb_false; unfold EPS; lra).
  eexists. split; [reflexivity|]. pose proof (cone_range pnt ctr (sp_r s) Hr ltac:(lra)) as CR. pose proof PI_RGT_0.
  unfold sphere_ct_max, uniform_cone_pdf, zone_area. field. split; lra.
Qed.
(** ... also for directions that cannot be sampled *)
Theorem C228_miss_refuted : let s := sphere_make (id_base false) 1 (-1) 1 360 in
  exists dns, sphere_pdf_p s (mkV 0 0 3) (mkV 0 0 1) = Ok dns /\ 0 < dns /\
    ~ (exists t, 0 <= t /\ sq_dist (vadd (mkV 0 0 3) (vscale t (mkV 0 0 1))) (mkV 0 0 0) <= 1 * 1).
Proof.
  intros s. assert (C0 : t_point (b_o2w (sp_base s)) vzero = vzero) by apply t_point_I.
  destruct (C225_density s (mkV 0 0 3) (mkV 0 0 1)) as (dns & A & B); [cbn; lra| |].
  { cbv zeta. rewrite C0. unfold sq_dist, s, sphere_make, vzero; cbn. lra. }
  exists dns. split; [exact A|]. split.
  - cbv zeta in B. rewrite C0 in B. pose proof (cone_range (mkV 0 0 3) vzero (sp_r s)) as CR.
    assert (CR' : 0 < sphere_ct_max s (mkV 0 0 3) vzero < 1). { apply CR; [cbn; lra|]. unfold sq_dist, s, sphere_make, vzero; cbn. lra. }
    unfold zone_area in B. pose proof PI_RGT_0. assert (0 < 2 * PI * (1 - sphere_ct_max s (mkV 0 0 3) vzero)) by nra. nra.
  - intros (t & Ht & Q). unfold sq_dist, vadd, vscale, vmap, vmap2 in Q; cbn in Q. nra.
Qed.
Print Assumptions C225_cone_exact.
Print Assumptions C225_sample.
Print Assumptions C225_density.
Print Assumptions C228_miss_refuted.
(** near or inside the sphere both fall back to area sampling *)
Theorem C225_inside (s : sphere) (pnt wi : vec) (u1 u2 : R) : let ctr := t_point (b_o2w (sp_base s)) vzero in
  sq_dist pnt ctr - sp_r s * sp_r s < 1 / 100000 ->
  sphere_sample_p s pnt u1 u2 = sphere_sample s u1 u2 /\
  sphere_pdf_p s pnt wi = shape_pdf_p (fun r => Ok (sphere_intersect s r)) (sphere_area s) pnt wi.
Proof.
  intros ctr H. unfold sphere_sample_p, sphere_pdf_p. fold ctr.
  replace (Rltb (sq_dist pnt ctr - sp_r s * sp_r s) EPS) with true by (symmetry; apply Rltb_true; unfold EPS; lra).
  destruct (coordinate_system _) as [[? ?] ?]. auto.
Qed.
Print Assumptions C225_inside.
(** ** C228: a direction that misses the sphere has density zero: true near or inside it *)
Theorem C228_inside_partial (s : sphere) (pnt wi : vec) : let ctr := t_point (b_o2w (sp_base s)) vzero in
  sq_dist pnt ctr - sp_r s * sp_r s < 1 / 100000 -> sphere_intersect s (ray_new pnt wi EPS) = None ->
  sphere_pdf_p s pnt wi = Ok 0.
Proof.
  intros ctr H HN. rewrite (proj2 (C225_inside s pnt wi 0 0 H)). unfold shape_pdf_p. cbv zeta. rewrite HN. reflexivity.
Qed.
Print Assumptions C228_inside_partial.

(** ** C226: normals returned with area samples *)
Theorem C226_sphere (s : sphere) (u1 u2 : R) : base_ok (sp_base s) -> sphere_sample_obj s u1 u2 <> vzero ->
  let o2w := b_o2w (sp_base s) in let q := sphere_sample_obj s u1 u2 in let '(p, n) := sphere_sample s u1 u2 in
  p = t_point o2w q /\ unit n /\ (forall w, vdot q w = 0 -> vdot n (t_vector o2w w) = 0) /\
  (if b_ro (sp_base s) then vdot n (vsub p (t_point o2w vzero)) < 0 else 0 < vdot n (vsub p (t_point o2w vzero))).
Proof.
  intros Hb NZ o2w q. unfold sphere_sample. fold q. cbv zeta.
  assert (EQ : mkV (vx q) (vy q) (vz q) = q) by (destruct q; reflexivity). rewrite EQ.
  destruct (sample_normal (sp_base s) q Hb NZ) as (A & B & C). split; [reflexivity|]. split; [exact A|]. split; [exact B|].
  unfold o2w. rewrite point_minus_center by (destruct Hb; now apply built_valid). exact C.
Qed.
Theorem C226_cylinder (c : cylinder) (u1 u2 : R) : base_ok (cy_base c) -> 0 < cy_r c ->
  let o2w := b_o2w (cy_base c) in let q := cylinder_sample_obj c u1 u2 in let '(p, n) := cylinder_sample c u1 u2 in
  p = t_point o2w q /\ unit n /\ vdot n (t_vector o2w (mkV 0 0 1)) = 0 /\ vdot n (t_vector o2w (mkV (- vy q) (vx q) 0)) = 0 /\
  (if b_ro (cy_base c) then vdot n (t_vector o2w (mkV (vx q) (vy q) 0)) < 0 else 0 < vdot n (t_vector o2w (mkV (vx q) (vy q) 0))).
Proof.
  intros Hb Hr o2w q. unfold cylinder_sample. fold q. cbv zeta.
  assert (NZ : mkV (vx q) (vy q) 0 <> vzero).
  { unfold q, cylinder_sample_obj. cbn [vx vy]. intros E. injection E as E1 E2. pose proof (sin2_cos2 (u2 * cy_phimax c)) as Q. unfold Rsqr in Q.
    assert (cos (u2 * cy_phimax c) = 0) by (apply Rmult_integral in E1; destruct E1; lra).
    assert (sin (u2 * cy_phimax c) = 0) by (apply Rmult_integral in E2; destruct E2; lra). nra. }
  destruct (sample_normal (cy_base c) (mkV (vx q) (vy q) 0) Hb NZ) as (A & B & C). split; [reflexivity|]. split; [exact A|].
  split; [apply B; unfold vdot; cbn; ring|]. split; [apply B; unfold vdot; cbn; ring|]. exact C.
Qed.
Print Assumptions C226_sphere.
Print Assumptions C226_cylinder.
Example C226_ex : let s := sphere_make (id_base false) 1 (-1) 1 360 in base_ok (sp_base s) /\ sphere_sample_obj s 0 0 <> vzero.
Proof.
  intros s. split; [apply id_base_ok|]. pose proof (proj1 (P_ShapesMore2.sphere_sample_bad 0)) as K. cbv zeta in K. fold s in K. rewrite K.
  unfold vzero. intros E. injection E as E. lra.
Qed.

(** ** C227: the offset that keeps secondary rays off the surface is proportional to the hit parameter *)
Theorem C227_offsets : (forall s r h, sphere_intersect s r = Some h -> h_eps h = 1 / 100000 * h_t h) /\
  (forall d r h, disk_intersect d r = Ok (Some h) -> h_eps h = 1 / 100000 * h_t h) /\
  (forall b nt nv vi P N S uv al f r h, faces_ok vi (length P) -> (3 * f + 2 < length vi)%nat ->
    tri_intersect (mesh_make b nt nv vi P N S uv al) (3 * Z.of_nat f) r = Ok (Some h) -> h_eps h = 1 / 1000 * h_t h).
Proof.
  split; [|split].
  - intros s r h. unfold sphere_intersect. destruct (sphere_find s r) as [[t p]|]; [|discriminate]. intros [= <-]. cbn. unfold EPS. lra.
  - intros d r h. unfold disk_intersect. destruct (disk_find d r) as [[t p]|]; [|discriminate]. destruct (disk_dg d p); [|discriminate].
    cbn [bind]. intros [= <-]. cbn. unfold EPS. lra.
  - intros b nt nv vi P N S uv al f r h HF Hl HI.
    destruct (tri_interp b nt nv vi P N S uv al f r h HF Hl HI) as (x & y & z & u0 & v0 & u1 & v1 & u2 & v2 & H). tauto.
Qed.
Print Assumptions C227_offsets.

(** ** C71: interpolated shading normals and their derivatives *)
Theorem C71_shading_weights (m : mesh) (v : Z) (o2w : transform) (g g' : dgeom) (nl sl : list vec) :
  m_n m = Some nl -> m_s m = Some sl -> tri_shading m v o2w g = Ok g' ->
  exists u0 v0 u1 v1 u2 v2 x y z n0 n1 n2 nb, tri_uvs m v = Ok ((u0, v0), (u1, v1), (u2, v2)) /\
   (* the weights locate the hit in parameter space; a degenerate parametrisation gives the mean *)
   x + y + z = 1 /\ ((u1 - u0) * (v2 - v0) - (u2 - u0) * (v1 - v0) <> 0 ->
     x * u0 + y * u1 + z * u2 = dg_u g /\ x * v0 + y * v1 + z * v2 = dg_v g) /\
   ((u1 - u0) * (v2 - v0) - (u2 - u0) * (v1 - v0) = 0 -> x = 1 / 3 /\ y = 1 / 3 /\ z = 1 / 3) /\
   get1 nl v = Ok n0 /\ get1 nl (v + 1) = Ok n1 /\ get1 nl (v + 2) = Ok n2 /\
   nb = vadd (vadd (vscale x n0) (vscale y n1)) (vscale z n2) /\
   (t_normal o2w nb <> vzero ->
    dg_nn g' = let ns := normalize (t_normal o2w nb) in if b_flip (m_base m) then vscale (-1) ns else ns).
Proof. exact (shading_weights m v o2w g g' nl sl). Qed.
Theorem C71_shading_derivatives (m : mesh) (v : Z) (o2w : transform) (g g' : dgeom) (nl sl : list vec) :
  m_n m = Some nl -> m_s m = Some sl -> tri_shading m v o2w g = Ok g' ->
  exists u0 v0 u1 v1 u2 v2 i0 i1 i2 n0 n1 n2 du dv, tri_uvs m v = Ok ((u0, v0), (u1, v1), (u2, v2)) /\
    get1 (m_vi m) v = Ok i0 /\ get1 (m_vi m) (v + 1) = Ok i1 /\ get1 (m_vi m) (v + 2) = Ok i2 /\
    get1 nl i0 = Ok n0 /\ get1 nl i1 = Ok n1 /\ get1 nl i2 = Ok n2 /\
    dg_dndu g' = t_normal (b_o2w (m_base m)) du /\ dg_dndv g' = t_normal (b_o2w (m_base m)) dv /\
    ((u0 - u2) * (v1 - v2) - (u1 - u2) * (v0 - v2) <> 0 ->
       vsub n0 n2 = vadd (vscale (u0 - u2) du) (vscale (v0 - v2) dv) /\ vsub n1 n2 = vadd (vscale (u1 - u2) du) (vscale (v1 - v2) dv)).
Proof. exact (shading_derivs m v o2w g g' nl sl). Qed.
Print Assumptions C71_shading_weights.
Print Assumptions C71_shading_derivatives.

(** ** C36, C72: bounds in object space *)
Theorem C36_object_bound (b : base) (nt nv : nat) (vi : list Z) (P : list vec) (N S : option (list vec))
    (uv : option (list R)) (al : option (dgeom -> R)) (f : nat) : base_ok b ->
  faces_ok vi (length P) -> (3 * f + 2 < length vi)%nat ->
  let vert k := nth (Z.to_nat (nth (3 * f + k) vi 0%Z)) P vzero in
  let tri := in_triangle (vert 0%nat) (vert 1%nat) (vert 2%nat) in
  exists B, tri_object_bound (mesh_make b nt nv vi P N S uv al) (3 * Z.of_nat f) = Ok B /\ box_ok B /\
   (forall p, tri p -> in_box B p) /\ (forall B', box_ok B' -> (forall p, tri p -> in_box B' p) -> box_le B B').
Proof.
  intros Hb HF Hl vert tri. rewrite tri_object_eq by exact Hb.
  destruct (tri_bound_spec (id_base (b_ro b)) nt nv vi P N S uv al f HF Hl) as (B & E & O & Q & L).
  unfold corner in Q, L. cbn [id_base b_o2w] in Q, L. rewrite !t_point_I in Q, L. exists B. auto.
Qed.
Theorem C72_object_bound (b : base) (vi : list Z) (P : list vec) (N S : option (list vec)) (uv : option (list R)) (m : mesh) :
  base_ok b -> create_mesh b vi P N S uv = Ok m ->
  exists B, mesh_object_bound m = Ok B /\ (forall p, In p P -> in_box B p) /\
    (forall B', box_ok B' -> (forall p, In p P -> in_box B' p) -> box_le B B').
Proof.
  intros Hb H. apply create_mesh_ok in H. destruct H as (-> & _). rewrite mesh_object_eq by exact Hb.
  destruct (mesh_bound_spec (id_base (b_ro b)) (length vi / 3) vi P N S uv None) as (B & E & Q & L). exists B. split; [exact E|]. split.
  - intros p Hp. specialize (Q p Hp). cbn [id_base b_o2w] in Q. now rewrite t_point_I in Q.
  - intros B' OB HB. apply L; [exact OB|]. intros p Hp. cbn [id_base b_o2w]. rewrite t_point_I. auto.
Qed.
Print Assumptions C36_object_bound.
Print Assumptions C72_object_bound.

(** ** C188: the Weingarten equations, for every pair of tangents and second derivatives *)
Theorem C188_weingarten (du dv uu uv vv : vec) : vcross du dv <> vzero ->
  let N := normalize (vcross du dv) in let '(nu, nv) := weingarten du dv uu uv vv in
  vdot nu du = - vdot N uu /\ vdot nu dv = - vdot N uv /\ vdot nv du = - vdot N uv /\ vdot nv dv = - vdot N vv /\
  vdot nu N = 0 /\ vdot nv N = 0.
Proof. exact (weingarten_spec du dv uu uv vv). Qed.
Print Assumptions C188_weingarten.

(** ** C63: cone, cosine and Henyey-Greenstein densities *)
Theorem C63_cone_density (ct a b : R) (x y z : vec) : -1 <= ct < 1 -> ct <= a <= b -> b <= 1 -> frame x y z ->
  exists lo, (forall u1 u2, 0 <= u1 <= 1 -> 0 <= u2 <= 1 ->
      (a <= vdot (uniform_sample_cone u1 u2 ct x y z) z <= b <-> lo <= u1 <= lo + uniform_cone_pdf ct * zone_area a b)) /\
    0 <= lo /\ lo + uniform_cone_pdf ct * zone_area a b <= 1.
Proof.
  intros C A B F. pose proof PI_RGT_0. exists ((a - ct) / (1 - ct)). unfold uniform_cone_pdf, zone_area.
  replace (1 / (2 * PI * (1 - ct)) * (2 * PI * (b - a))) with ((b - a) / (1 - ct)) by (field; lra).
  replace ((a - ct) / (1 - ct) + (b - a) / (1 - ct)) with ((b - ct) / (1 - ct)) by (field; lra).
  assert (K : forall p q, p / (1 - ct) <= q <-> p <= q * (1 - ct)).
  { intros p q. split; intros HH.
    - apply Rmult_le_compat_r with (r := 1 - ct) in HH; [|lra]. unfold Rdiv in HH. rewrite Rmult_assoc, Rinv_l in HH by lra. lra.
    - apply Rmult_le_reg_r with (1 - ct); [lra|]. unfold Rdiv. rewrite Rmult_assoc, Rinv_l by lra. lra. }
  assert (K' : forall p q, q <= p / (1 - ct) <-> q * (1 - ct) <= p).
  { intros p q. split; intros HH.
    - apply Rmult_le_compat_r with (r := 1 - ct) in HH; [|lra]. unfold Rdiv in HH. rewrite Rmult_assoc, Rinv_l in HH by lra. lra.
    - apply Rmult_le_reg_r with (1 - ct); [lra|]. unfold Rdiv. rewrite Rmult_assoc, Rinv_l by lra. lra. }
  split; [|rewrite K', K; lra]. intros u1 u2 U1 U2.
  destruct (laws_main u1 u2 U1 U2) as (_ & _ & _ & _ & _ & L & _). rewrite (L ct x y z ltac:(lra) F), K, K'. lra.
Qed.
(** the cosine density is proportional to the cosine and integrates to 1 over the hemisphere *)
Theorem C63_cosine_density (phi : R) : (forall c k, cosine_hemisphere_pdf (k * c) phi = k * cosine_hemisphere_pdf c phi) /\
  is_RInt (fun theta => 2 * PI * sin theta * cosine_hemisphere_pdf (cos theta) phi) 0 (PI / 2) 1.
Proof.
  pose proof PI_RGT_0. split; [intros; unfold cosine_hemisphere_pdf; ring|].
  apply is_RInt_ext with (f := fun x => 2 * sin x * cos x).
  { intros x _. unfold cosine_hemisphere_pdf. match goal with |- @eq _ ?x ?y => change (@eq R x y) end. field. lra. }
  evar_last. { apply (is_RInt_derive (fun x => sin x * sin x) (fun x => 2 * sin x * cos x)).
    - intros x _. auto_derive; [exact I|ring].
    - intros x _. apply (ex_derive_continuous (fun x => 2 * sin x * cos x)). auto_derive. exact I. }
  unfold minus, plus, opp; cbn. rewrite sin_PI2, sin_0. lra.
Qed.
Print Assumptions C63_cone_density.
Print Assumptions C63_cosine_density.
