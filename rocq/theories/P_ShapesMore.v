(** Further proofs about shapes: sampling, attributes, shading frames, full tests, parametrisation. *)
From Coq Require Import Reals Lra Lia List ZArith Bool Psatz.
From Verif Require Import Base M_Geometry S_Geometry P_Geometry M_Transform S_Transform P_Transform P_Transform2
  M_MonteCarlo P_MonteCarlo M_Film M_Shapes S_Shapes P_Quadrics P_Triangle P_Normals P_Mesh P_BVHWit.
Import ListNotations.
Open Scope R_scope.

Lemma t_point_I p : t_point t_identity p = p.
Proof. unfold t_point, t_identity, I4, dot4; cbn. destruct p as [x y z]; cbn.
  destruct (ne_unity _); apply V3_eq; cbn; try field; try lra. Qed.
Lemma id_base_ok ro : base_ok (id_base ro).
Proof. split; [constructor|reflexivity]. Qed.

Lemma id_mesh ro nt nv vi P N S uv al : mesh_make (id_base ro) nt nv vi P N S uv al = mkMesh (id_base ro) nt nv vi P N S uv al.
Proof.
  unfold mesh_make. f_equal. cbn [id_base b_o2w]. induction P as [|p P IH]; cbn [map]; [reflexivity|]. now rewrite t_point_I, IH.
Qed.
Lemma sqrt_quarter : sqrt (1/4) = 1/2.
Proof. replace (1/4) with ((1/2) * (1/2)) by lra. apply sqrt_square. lra. Qed.

(** *** Triangle sampling *)
Lemma tri_sample_spec b nt nv vi P N S uv al f u1 u2 : faces_ok vi (length P) -> (3 * f + 2 < length vi)%nat ->
  nth (3 * f + 1) vi 0%Z = (nth (3 * f) vi 0 + 1)%Z -> 0 <= u1 <= 1 -> 0 <= u2 <= 1 ->
  let a := corner (b_o2w b) vi P f 0 in let c := corner (b_o2w b) vi P f 1 in let d := corner (b_o2w b) vi P f 2 in
  exists p n, tri_sample (mesh_make b nt nv vi P N S uv al) (3 * Z.of_nat f) u1 u2 = Ok (p, n) /\
    in_triangle a c d p /\
    (tri_normal a c d <> vzero -> unit n /\ vdot n (vsub c a) = 0 /\ vdot n (vsub d a) = 0).
Proof.
  intros HF Hl HC H1 H2 a c d.
  destruct (tri_verts_ok b nt nv vi P N S uv al f HF Hl) as (E0 & E1' & E2').
  pose proof (triangle_bary u1 u2 H1 H2) as TB.
  unfold tri_sample. destruct (uniform_sample_triangle u1 u2) as [b1 b2].
  rewrite E0, E1', E2'. cbn [bind].
  pose proof E0 as E0'. pose proof E1' as E1''. unfold tri_vert in E0', E1''. rewrite Z.add_0_r in E0'.
  unfold mesh_make in *. cbn [m_vi m_p m_base] in *.
  rewrite (get1_nth _ _ 0%Z) in E0' by lia. rewrite (get1_nth _ _ 0%Z) in E1'' by lia.
  rewrite (get1_nth vi _ 0%Z) by lia. cbn [bind] in *.
  replace (Z.to_nat (3 * Z.of_nat f)) with (3 * f)%nat in * by lia.
  replace (Z.to_nat (3 * Z.of_nat f + 1)) with (3 * f + 1)%nat in * by lia.
  rewrite HC in E1''. rewrite E0', E1''. cbn [bind]. fold a c d.
  eexists; eexists; split; [reflexivity|]. split.
  - exists b1, b2, (1 - b1 - b2). cbn in TB. repeat split; try lra.
  - intros HN. pose proof (normalize_unit _ HN) as U.
    assert (D1 : vdot (normalize (tri_normal a c d)) (vsub c a) = 0).
    { apply normalize_dot0. unfold tri_normal. clearbody a c d. destruct a, c, d; unfold vdot, vcross, vsub, vmap2; cbn; ring. }
    assert (D2 : vdot (normalize (tri_normal a c d)) (vsub d a) = 0).
    { apply normalize_dot0. unfold tri_normal. clearbody a c d. destruct a, c, d; unfold vdot, vcross, vsub, vmap2; cbn; ring. }
    unfold tri_normal in *. set (n := normalize _) in *. clearbody n a c d.
    destruct (b_ro b); [|auto]. unfold unit, vdot, vscale, vmap in *. destruct n; cbn in *. repeat split; nra.
Qed.
(** The face (0, 2, 3) of four vertices: the second corner used is vertex 1. *)
Definition skip_P : list vec := [mkV 0 0 0; mkV 0 0 8; mkV 1 0 0; mkV 0 1 0].
Lemma tri_sample_bad : exists p n,
  create_mesh (id_base false) [0; 2; 3]%Z skip_P None None None = Ok (mesh_make (id_base false) 1 4 [0; 2; 3]%Z skip_P None None None None) /\
  tri_sample (mesh_make (id_base false) 1 4 [0; 2; 3]%Z skip_P None None None None) 0 (1/4) (1/2) = Ok (p, n) /\
  ~ in_triangle (mkV 0 0 0) (mkV 1 0 0) (mkV 0 1 0) p.
Proof.
  eexists; eexists. split; [reflexivity|]. rewrite id_mesh. split; [reflexivity|].
  intros (x & y & z & X & Y & W & Q & H). apply (f_equal vz) in H. revert H. unfold vadd, vscale, vmap2, vmap; cbn.
  rewrite sqrt_quarter. lra.
Qed.
Lemma tri_sample_crash :
  create_mesh (id_base false) [2; 0; 1]%Z [mkV 0 0 0; mkV 1 0 0; mkV 0 1 0] None None None =
    Ok (mesh_make (id_base false) 1 3 [2; 0; 1]%Z [mkV 0 0 0; mkV 1 0 0; mkV 0 1 0] None None None None) /\
  forall u1 u2, tri_sample (mesh_make (id_base false) 1 3 [2; 0; 1]%Z [mkV 0 0 0; mkV 1 0 0; mkV 0 1 0] None None None None) 0 u1 u2 = Err IndexError.
Proof. split; [reflexivity|]. intros. reflexivity. Qed.
Lemma tri_area_spec b nt nv vi P N S uv al f : faces_ok vi (length P) -> (3 * f + 2 < length vi)%nat ->
  let a := corner (b_o2w b) vi P f 0 in let c := corner (b_o2w b) vi P f 1 in let d := corner (b_o2w b) vi P f 2 in
  exists A, tri_area (mesh_make b nt nv vi P N S uv al) (3 * Z.of_nat f) = Ok A /\ 0 <= A /\
    (4 * (A * A) = vdot (vsub c a) (vsub c a) * vdot (vsub d a) (vsub d a) - vdot (vsub c a) (vsub d a) * vdot (vsub c a) (vsub d a)).
Proof.
  intros HF Hl a c d. destruct (tri_verts_ok b nt nv vi P N S uv al f HF Hl) as (E0 & E1' & E2').
  unfold tri_area. rewrite E0, E1', E2'. cbn [bind]. fold a c d. eexists; split; [reflexivity|].
  pose proof (vlength_sq (vcross (vsub c a) (vsub d a))) as SS.
  pose proof (sqrt_pos (sq_length (vcross (vsub c a) (vsub d a)))) as SP.
  change (sqrt _) with (vlength (vcross (vsub c a) (vsub d a))) in SP.
  split; [lra|].
  transitivity (sq_length (vcross (vsub c a) (vsub d a))); [rewrite <- SS; field|].
  clearbody a c d. unfold sq_length, vdot, vcross, vsub, vmap2. destruct a, c, d; cbn. ring.
Qed.

(** *** Attributes *)
Lemma tri_uvs_identity b nt nv vi P N S l al f : (6 * f + 6 <= length l)%nat ->
  tri_uvs (mesh_make b nt nv vi P N S (Some l) al) (3 * Z.of_nat f) = Ok (uv_of l (3 * f), uv_of l (3 * f + 1), uv_of l (3 * f + 2)).
Proof.
  intros H. unfold tri_uvs, mesh_make; cbn [m_uv].
  repeat (rewrite (get1_nth _ _ 0) by lia; cbn [bind]). unfold uv_of.
  replace (Z.to_nat (2 * (3 * Z.of_nat f))) with (2 * (3 * f))%nat by lia.
  replace (Z.to_nat (2 * (3 * Z.of_nat f) + 1)) with (2 * (3 * f) + 1)%nat by lia.
  replace (Z.to_nat (2 * (3 * Z.of_nat f + 1))) with (2 * (3 * f + 1))%nat by lia.
  replace (Z.to_nat (2 * (3 * Z.of_nat f + 1) + 1)) with (2 * (3 * f + 1) + 1)%nat by lia.
  replace (Z.to_nat (2 * (3 * Z.of_nat f + 2))) with (2 * (3 * f + 2))%nat by lia.
  replace (Z.to_nat (2 * (3 * Z.of_nat f + 2) + 1)) with (2 * (3 * f + 2) + 1)%nat by lia.
  reflexivity.
Qed.
(** A quad of two triangles sharing an edge, one (u, v) pair per vertex. *)
Definition quad_P : list vec := [mkV 0 0 0; mkV 1 0 0; mkV 1 1 0; mkV 0 1 0].
Definition quad_uv : list R := [0; 0; 1; 0; 1; 1; 0; 1].
Definition quad_mesh : mesh := mesh_make (id_base false) 2 4 [0; 1; 2; 0; 2; 3]%Z quad_P None None (Some quad_uv) None.
Lemma quad_fails :
  create_mesh (id_base false) [0; 1; 2; 0; 2; 3]%Z quad_P None None (Some quad_uv) = Ok quad_mesh /\
  tri_intersect quad_mesh 3 (ray_new (mkV (1/4) (3/4) 1) (mkV 0 0 (-1)) 0) = Err IndexError /\
  tri_intersect_p quad_mesh 3 (ray_new (mkV (1/4) (3/4) 1) (mkV 0 0 (-1)) 0) = Err IndexError.
Proof.
  split; [reflexivity|]. unfold quad_mesh. rewrite id_mesh. set (m := mkMesh _ _ _ _ _ _ _ _ _).
  unfold tri_intersect, tri_intersect_p.
  replace (tri_vert m 3 0) with (Ok (mkV 0 0 0)) by reflexivity.
  replace (tri_vert m 3 1) with (Ok (mkV 1 1 0)) by reflexivity.
  replace (tri_vert m 3 2) with (Ok (mkV 0 1 0)) by reflexivity.
  replace (tri_uvs m 3) with (@Err ((R * R) * (R * R) * (R * R)) IndexError) by reflexivity. cbn [bind].
  unfold ray_new, vsub, vcross, vdot, vmap2, eltb; cbn [vx vy vz rd ro rmint rmaxt].
  split; rdec; reflexivity.
Qed.
(** Same positions, vertices listed so that the face's corners are not 0, 1, 2: wrong values. *)
Lemma uv_wrong : tri_uvs (mesh_make (id_base false) 1 4 [1; 2; 3]%Z quad_P None None (Some quad_uv) None) 0 =
    Ok ((0, 0), (1, 0), (1, 1)) /\
  (uv_of quad_uv 1, uv_of quad_uv 2, uv_of quad_uv 3) = ((1, 0), (1, 1), (0, 1)).
Proof. split; reflexivity. Qed.

(** *** Shading frames *)
Lemma vscale_unit1 v : vscale 1 v = v.
Proof. destruct v; unfold vscale, vmap; cbn. apply V3_eq; cbn; ring. Qed.
Lemma normalize_id v : unit v -> normalize v = v.
Proof.
  intros U. rewrite normalize_scale; [|intros E; rewrite E in U; unfold unit, vzero in U; cbn in U; lra].
  rewrite vlength_unit by auto. rewrite Rinv_1. apply vscale_unit1.
Qed.
Lemma cross_frame n s : unit n -> unit s -> orth n s -> vcross (vcross s n) s = n.
Proof.
  intros U V O. unfold unit, orth in *. destruct n as [a b c], s as [x y z]; cbn in *.
  unfold vcross; cbn. apply V3_eq; cbn.
  - transitivity (a * (x * x + y * y + z * z) - x * (a * x + b * y + c * z)); [ring|rewrite V, O; ring].
  - transitivity (b * (x * x + y * y + z * z) - y * (a * x + b * y + c * z)); [ring|rewrite V, O; ring].
  - transitivity (c * (x * x + y * y + z * z) - z * (a * x + b * y + c * z)); [ring|rewrite V, O; ring].
Qed.
Lemma coordinate_system_right v a b c : unit v -> coordinate_system v = (a, b, c) -> vcross b c = v.
Proof.
  intros U E. pose proof (coordinate_system_parts v a b c U E) as (Ub & Uc & Ob & Oc & Obc).
  assert (EC : c = vcross v b).
  { unfold coordinate_system in E. rewrite (vlength_unit v U) in E. destruct (Reqb 1 0) eqn:C; Rb; [lra|].
    injection E as _ E2 E3. rewrite E2 in E3. now symmetry. }
  rewrite EC. unfold unit, orth in *. destruct v as [p q r], b as [x y z]; cbn in *.
  unfold vcross; cbn. apply V3_eq; cbn.
  - transitivity (p * (x * x + y * y + z * z) - x * (p * x + q * y + r * z)); [ring|rewrite Ub, Ob; ring].
  - transitivity (q * (x * x + y * y + z * z) - y * (p * x + q * y + r * z)); [ring|rewrite Ub, Ob; ring].
  - transitivity (r * (x * x + y * y + z * z) - z * (p * x + q * y + r * z)); [ring|rewrite Ub, Ob; ring].
Qed.
Lemma tri_shading_spec m v o2w g g' nl sl : m_n m = Some nl -> m_s m = Some sl -> tri_shading m v o2w g = Ok g' ->
  exists b0 b1 b2 nb, tri_blend nl v b0 b1 b2 = Ok nb /\
   (t_normal o2w nb <> vzero ->
    let ns := normalize (t_normal o2w nb) in
    unit (dg_dpdu g') /\ unit (dg_dpdv g') /\ orth (dg_dpdu g') (dg_dpdv g') /\
    orth ns (dg_dpdu g') /\ orth ns (dg_dpdv g') /\
    dg_nn g' = (if b_flip (m_base m) then vscale (-1) ns else ns) /\
    dg_p g' = dg_p g /\ dg_u g' = dg_u g /\ dg_v g' = dg_v g).
Proof.
  intros Hn Hs. unfold tri_shading. rewrite Hn, Hs.
  destruct (tri_uvs m v) as [uvs|]; [|discriminate]. cbn [bind].
  destruct (tri_bary uvs (dg_u g) (dg_v g)) as [[b0 b1] b2].
  destruct (tri_blend nl v b0 b1 b2) as [nb|] eqn:EB; [|discriminate]. cbn [bind].
  destruct (tri_blend sl v b0 b1 b2) as [sb|]; [|discriminate]. cbn [bind].
  set (ns := normalize (t_normal o2w nb)). set (s0 := normalize (t_vector o2w sb)).
  set (PAIR := if Rltb 0 (sq_length (vcross s0 ns)) then _ else _).
  intros H. exists b0, b1, b2, nb. split; [exact EB|]. intros HN. cbv zeta. fold ns.
  pose proof (normalize_unit _ HN) as U. fold ns in U.
  assert (PF : unit (fst PAIR) /\ unit (snd PAIR) /\ orth (fst PAIR) (snd PAIR) /\ orth ns (fst PAIR) /\ orth ns (snd PAIR) /\ vcross (fst PAIR) (snd PAIR) = ns).
  { unfold PAIR. destruct (Rltb 0 _) eqn:E; Rb.
    - cbn [fst snd]. set (c := vcross s0 ns) in *.
      assert (Hc : c <> vzero) by (intros E0; rewrite E0 in E; unfold sq_length, vdot, vzero in E; cbn in E; lra).
      assert (O : orth ns (normalize c)).
      { assert (D : vdot c ns = 0) by (unfold c, vdot, vcross; destruct s0, ns; cbn; ring).
        apply normalize_dot0 in D. unfold orth, vdot in *. lra. }
      pose proof (normalize_unit _ Hc) as Uc. set (ts := normalize c) in *. clearbody ts ns.
      assert (O' : orth ts ns) by (unfold orth in *; lra).
      pose proof (cross_unit ts ns Uc U O').
      split; [auto|]. split; [auto|]. split; [|split; [|split; [auto|now apply cross_frame]]];
        unfold orth, vcross; destruct ts, ns; cbn; ring.
    - destruct (coordinate_system ns) as [[z a] c] eqn:EC. cbn [fst snd].
      pose proof (coordinate_system_right _ _ _ _ U EC). apply coordinate_system_parts in EC; auto. tauto. }
  clearbody PAIR. destruct PAIR as [ss ts]. cbn [fst snd] in PF. destruct PF as (P1 & P2 & P3 & P4 & P5 & P6).
  destruct uvs as [[[u0 v0] [u1 v1]] [u2 v2]].
  repeat (match type of H with bind ?e _ = _ => destruct e; [cbn [bind] in H|discriminate] end).
  match type of H with context [Reqb ?a 0] => destruct (Reqb a 0) end;
  (injection H as <-; cbn [dg_dpdu dg_dpdv dg_nn dg_p dg_u dg_v dg_make]; rewrite P6, (normalize_id ns U); repeat split; auto).
Qed.
(** Normals alone (no tangents) are ignored. *)
Lemma shading_ignored b nt nv vi P nl uv al v o2w g :
  tri_shading (mesh_make b nt nv vi P (Some nl) None uv al) v o2w g = Ok g /\
  tri_shading (mesh_make b nt nv vi P None (Some nl) uv al) v o2w g = Ok g.
Proof. split; reflexivity. Qed.
