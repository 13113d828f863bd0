(** Property theorems C187-C189: solid-angle densities of shapes, derivatives and orientation of normals. *)
From Coq Require Import Reals Lra Lia List ZArith Bool.
From Verif Require Import Base M_Geometry S_Geometry P_Geometry M_Transform S_Transform P_Transform P_Transform2 M_MonteCarlo M_Film
  M_Shapes S_Shapes P_Quadrics P_Triangle P_Normals P_Mesh P_ShapesMore P_ShapesMore2 P_Orient P_Orient2.
Import ListNotations.
Open Scope R_scope.

(** C187: the density per solid angle (pdf_p of the base class).  A triangle seen from [pnt] in the unit direction
    [wi] at distance t: density * |cos| * area = t^2; with |cos| * area = |wi . (edge x edge)| / 2. *)
Theorem C187_triangle (b : base) (nt nv : nat) (vi : list Z) (P : list vec) (N S : option (list vec))
    (uv : option (list R)) (f : nat) (pnt wi : vec) (t : R) : faces_ok vi (length P) -> (3 * f + 2 < length vi)%nat ->
  (forall l, uv = Some l -> (6 * f + 6 <= length l)%nat) -> unit wi ->
  let a := corner (b_o2w b) vi P f 0 in let c := corner (b_o2w b) vi P f 1 in let d := corner (b_o2w b) vi P f 2 in
  vdot wi (vcross (vsub c a) (vsub d a)) <> 0 -> EPS <= t -> in_triangle a c d (vadd pnt (vscale t wi)) ->
  exists A dns, tri_area (mesh_make b nt nv vi P N S uv None) (3 * Z.of_nat f) = Ok A /\
    shape_pdf_p (tri_intersect (mesh_make b nt nv vi P N S uv None) (3 * Z.of_nat f)) A pnt wi = Ok dns /\
    dns * Rabs (vdot wi (vcross (vsub c a) (vsub d a))) = 2 * (t * t).
Proof. exact (tri_pdf_hit b nt nv vi P N S uv f pnt wi t). Qed.
Print Assumptions C187_triangle.
(** directions that miss the triangle (beyond the self-intersection tolerance) have density 0 *)
Theorem C187_triangle_miss (b : base) (nt nv : nat) (vi : list Z) (P : list vec) (N S : option (list vec))
    (uv : option (list R)) (f : nat) (pnt wi : vec) (A : R) : faces_ok vi (length P) -> (3 * f + 2 < length vi)%nat ->
  (forall l, uv = Some l -> (6 * f + 6 <= length l)%nat) ->
  let a := corner (b_o2w b) vi P f 0 in let c := corner (b_o2w b) vi P f 1 in let d := corner (b_o2w b) vi P f 2 in
  (forall t, EPS <= t -> ~ in_triangle a c d (vadd pnt (vscale t wi))) ->
  shape_pdf_p (tri_intersect (mesh_make b nt nv vi P N S uv None) (3 * Z.of_nat f)) A pnt wi = Ok 0.
Proof. exact (tri_pdf_miss b nt nv vi P N S uv f pnt wi A). Qed.
Print Assumptions C187_triangle_miss.
(** any shape: from what its intersection test and area report *)
Theorem C187_any_shape (isect : ray -> res (option hit)) (area : R) (pnt wi : vec) :
  let r := ray_new pnt wi EPS in
  (isect r = Ok None -> shape_pdf_p isect area pnt wi = Ok 0) /\
  (forall h, isect r = Ok (Some h) -> unit wi -> area <> 0 -> vdot (dg_nn (h_dg h)) wi <> 0 ->
     exists dns, shape_pdf_p isect area pnt wi = Ok dns /\
       dns * (Rabs (vdot (dg_nn (h_dg h)) wi) * area) = h_t h * h_t h) /\
  (forall e, isect r = Err e -> shape_pdf_p isect area pnt wi = Err e).
Proof. exact (pdf_p_any isect area pnt wi). Qed.
Print Assumptions C187_any_shape.
Example C187_ex : let P := [mkV 0 0 0; mkV 1 0 0; mkV 0 1 0] in
  faces_ok [0; 1; 2]%Z (length P) /\ unit (mkV 0 0 (-1)) /\
  vdot (mkV 0 0 (-1)) (vcross (vsub (mkV 1 0 0) (mkV 0 0 0)) (vsub (mkV 0 1 0) (mkV 0 0 0))) <> 0 /\
  in_triangle (mkV 0 0 0) (mkV 1 0 0) (mkV 0 1 0) (vadd (mkV (1/4) (1/4) 1) (vscale 1 (mkV 0 0 (-1)))).
Proof.
  cbv zeta. split; [unfold faces_ok; repeat (constructor; [cbn; lia|]); constructor|]. split; [unfold unit; cbn; lra|].
  split; [unfold vdot, vcross, vsub, vmap2; cbn; lra|].
  exists (1/2), (1/4), (1/4). repeat split; try lra. unfold vadd, vscale, vmap2, vmap; cbn. apply V3_eq; cbn; lra.
Qed.

(** C188: for placements that keep lengths and angles, the normal of an (unreversed) sphere is (p - c)/r and its
    derivatives are dpdu/r and dpdv/r *)
Theorem C188_sphere_partial (s : sphere) (r : ray) (h : hit) :
  0 < sp_r s -> - sp_r s <= sp_zmin s -> sp_zmax s <= sp_r s -> 0 < sp_phimax s <= 2 * PI -> sp_tmax s < sp_tmin s ->
  base_ok (sp_base s) -> (forall v w, vdot (t_vector (b_o2w (sp_base s)) v) (t_vector (b_o2w (sp_base s)) w) = vdot v w) ->
  notnan (rmint r) -> notnan (rmaxt r) -> sphere_intersect s r = Some h -> b_ro (sp_base s) = false ->
  let q := t_point (b_w2o (sp_base s)) (ray_at r (h_t h)) in vx q <> 0 \/ vy q <> 0 ->
  let c := t_point (b_o2w (sp_base s)) vzero in
  vscale (sp_r s) (dg_nn (h_dg h)) = vsub (ray_at r (h_t h)) c /\
  vscale (sp_r s) (dg_dndu (h_dg h)) = dg_dpdu (h_dg h) /\ vscale (sp_r s) (dg_dndv (h_dg h)) = dg_dpdv (h_dg h).
Proof.
  intros H1 H2 H3 H4 HT Hb RIG Hm HM HI RO q Hn c.
  destruct (sphere_curvature s r h) as (A & B & C); auto; [repeat split; auto; lra|lra|]. rewrite RO in A. split; [|now split].
  rewrite A. fold c. destruct (vsub _ c). unfold vscale, vmap; cbn. f_equal; ring.
Qed.
Print Assumptions C188_sphere_partial.
(** with reversed orientation the normal is reversed but its derivatives are not *)
Theorem C188_reversed_refuted : exists r h, let s := sphere_make (id_base true) 1 (-1) 1 360 in
  sphere_intersect s r = Some h /\ dg_nn (h_dg h) = vscale (-1) (ray_at r (h_t h)) /\
  dg_dndu (h_dg h) = dg_dpdu (h_dg h) /\ dg_dndu (h_dg h) <> vscale (-1) (dg_dpdu (h_dg h)).
Proof. exact sphere_reversed. Qed.
Print Assumptions C188_reversed_refuted.
Example C188_ex : exists r h, notnan (rmint r) /\ notnan (rmaxt r) /\ let s := sphere_make (id_base false) 1 (-1) 1 360 in
  sphere_intersect s r = Some h /\ sp_tmax s < sp_tmin s /\
  let q := t_point (b_w2o (sp_base s)) (ray_at r (h_t h)) in vx q <> 0 \/ vy q <> 0.
Proof. destruct (unit_hit false) as (r & h & A & B & C & D & E). exists r, h. cbv zeta. auto. Qed.

(** C189: normals point away from the centre of a sphere and to the side of +z of a disk, unless the shape's
    orientation is reversed, however the shape is placed (also mirrored) *)
Theorem C189_sphere (s : sphere) (r : ray) (h : hit) :
  0 < sp_r s -> - sp_r s <= sp_zmin s -> sp_zmax s <= sp_r s -> 0 < sp_phimax s <= 2 * PI -> sp_tmax s < sp_tmin s ->
  base_ok (sp_base s) -> notnan (rmint r) -> notnan (rmaxt r) -> sphere_intersect s r = Some h ->
  let q := t_point (b_w2o (sp_base s)) (ray_at r (h_t h)) in vx q <> 0 \/ vy q <> 0 ->
  let c := t_point (b_o2w (sp_base s)) vzero in
  (b_ro (sp_base s) = false -> 0 < vdot (dg_nn (h_dg h)) (vsub (ray_at r (h_t h)) c)) /\
  (b_ro (sp_base s) = true -> vdot (dg_nn (h_dg h)) (vsub (ray_at r (h_t h)) c) < 0).
Proof.
  intros H1 H2 H3 H4 HT Hb Hm HM HI q Hn c. apply sphere_oriented; auto; [repeat split; auto; lra|lra].
Qed.
Print Assumptions C189_sphere.
Theorem C189_disk (d : disk) (r : ray) (h : hit) : 0 < dk_phimax d <= 2 * PI -> 0 <= dk_ri d < dk_r d -> base_ok (dk_base d) ->
  notnan (rmint r) -> notnan (rmaxt r) -> disk_intersect d r = Ok (Some h) ->
  let up := t_vector (b_o2w (dk_base d)) (mkV 0 0 1) in
  unit (dg_nn (h_dg h)) /\
  (forall x y, vdot (dg_nn (h_dg h)) (t_vector (b_o2w (dk_base d)) (mkV x y 0)) = 0) /\
  (b_ro (dk_base d) = false -> 0 < vdot (dg_nn (h_dg h)) up) /\ (b_ro (dk_base d) = true -> vdot (dg_nn (h_dg h)) up < 0).
Proof. exact (disk_oriented d r h). Qed.
Print Assumptions C189_disk.
