(** Proofs: hits move with the object. *)
From Coq Require Import Reals Lra Lia List ZArith Bool Psatz.
From Verif Require Import Base M_Geometry S_Geometry P_Geometry M_Transform S_Transform P_Transform P_Transform2
  M_MonteCarlo M_Film M_Shapes S_Shapes P_Quadrics P_Triangle P_Normals P_Mesh P_ShapesMore P_Orient S_Motion.
Import ListNotations.
Open Scope R_scope.

Lemma len_scale k v : vlength (vscale k v) = Rabs k * vlength v.
Proof.
  unfold vlength. replace (sq_length (vscale k v)) with (Rsqr k * sq_length v) by (unfold sq_length, vscale, vmap, Rsqr; cbn; ring).
  rewrite sqrt_mult; [|apply Rle_0_sqr|apply sq_length_nonneg]. now rewrite sqrt_Rsqr_abs.
Qed.
Lemma vscale_vscale a b v : vscale a (vscale b v) = vscale (a * b) v.
Proof. unfold vscale, vmap. apply V3_eq; cbn; ring. Qed.
Lemma vscale_1 v : vscale 1 v = v.
Proof. destruct v. unfold vscale, vmap. apply V3_eq; cbn; ring. Qed.
Lemma normalize_scale k v : 0 < k -> normalize (vscale k v) = normalize v.
Proof.
  intros K. destruct (Req_dec (vlength v) 0) as [L|L].
  - apply vlength_zero in L. subst v. f_equal. unfold vscale, vmap, vzero. apply V3_eq; cbn; ring.
  - unfold normalize. rewrite len_scale, Rabs_pos_eq by lra. unfold Reqb.
    destruct (Req_EM_T (k * vlength v) 0) as [E|E]; [nra|]. destruct (Req_EM_T (vlength v) 0); [contradiction|].
    unfold vscale, vmap. apply V3_eq; cbn; field; split; lra.
Qed.
Lemma normalize_neg v : normalize (vscale (-1) v) = vscale (-1) (normalize v).
Proof.
  unfold normalize. rewrite len_scale. replace (Rabs (-1)) with 1 by (rewrite Rabs_left by lra; lra). rewrite Rmult_1_l.
  destruct (Reqb (vlength v) 0) eqn:E; [reflexivity|]. Rb. unfold vscale, vmap. apply V3_eq; cbn; field; exact E.
Qed.
Lemma tn_scale t k v : t_normal t (vscale k v) = vscale k (t_normal t v).
Proof. destruct v. unfold t_normal, vscale, vmap, dot4; cbn. apply V3_eq; cbn; ring. Qed.
Lemma tv_scale t k v : t_vector t (vscale k v) = vscale k (t_vector t v).
Proof. destruct v. unfold t_vector, vscale, vmap, dot4; cbn. apply V3_eq; cbn; ring. Qed.
Lemma tv_add t u v : t_vector t (vadd u v) = vadd (t_vector t u) (t_vector t v).
Proof. destruct u, v. unfold t_vector, vadd, vmap2, dot4; cbn. apply V3_eq; cbn; ring. Qed.
Lemma tv_sub t u v : t_vector t (vsub u v) = vsub (t_vector t u) (t_vector t v).
Proof. destruct u, v. unfold t_vector, vsub, vmap2, dot4; cbn. apply V3_eq; cbn; ring. Qed.
Lemma tp_sub t p q : affine (tm t) -> vsub (t_point t p) (t_point t q) = t_vector t (vsub p q).
Proof.
  intros A. rewrite !t_point_affine by exact A. destruct t as [[[a b c d] [e f g h] [i j k l] r3] ti]. destruct p, q.
  unfold apt, t_vector, vsub, vmap2, dot4; cbn. apply V3_eq; cbn; ring.
Qed.
Lemma tp_at t o d s : affine (tm t) -> t_point t (vadd o (vscale s d)) = vadd (t_point t o) (vscale s (t_vector t d)).
Proof.
  intros A. rewrite !t_point_affine by exact A. destruct t as [[[a b c e] [x f g h] [i j k l] r3] ti]. destruct o, d.
  unfold apt, t_vector, vadd, vscale, vmap, vmap2, dot4; cbn. apply V3_eq; cbn; ring.
Qed.
(** normals *)
Lemma normalize_via n : exists k, 0 < k /\ normalize n = vscale k n.
Proof.
  unfold normalize. destruct (Reqb (vlength n) 0) eqn:E; Rb.
  - exists 1. split; [lra|]. now rewrite vscale_1.
  - assert (0 < vlength n) by (pose proof (sqrt_pos (sq_length n)); unfold vlength in *; lra).
    exists (/ vlength n). split; [now apply Rinv_0_lt_compat|]. unfold vscale, vmap. apply V3_eq; cbn; unfold Rdiv; ring.
Qed.
Lemma flip_moved A b : tvalid A -> tvalid (b_o2w b) -> b_flip (moved_base A b) = xorb (b_flip b) (swaps_handedness A).
Proof.
  intros VA VB. unfold b_flip, moved_base, swaps_handedness. cbn [b_ro b_o2w t_mul tm].
  rewrite det3_mul by apply VB. pose proof (tvalid_det _ VA). pose proof (tvalid_det _ VB).
  set (x := det3 (tm A)) in *. set (y := det3 (tm (b_o2w b))) in *.
  destruct (b_ro b), (Rltb (x * y) 0) eqn:E1, (Rltb x 0) eqn:E2, (Rltb y 0) eqn:E3; cbn; try reflexivity; Rb; exfalso; nra.
Qed.
Definition face (flip : bool) (c : vec) : vec := if flip then vscale (-1) (normalize c) else normalize c.
Lemma nn_moved A fl c c' k : tvalid A -> 0 < k -> c' = vscale (k * det3 (tm A)) (t_normal A c) ->
  face (xorb fl (swaps_handedness A)) c' = normalize (t_normal A (face fl c)).
Proof.
  intros V K ->. pose proof (tvalid_det _ V) as D. unfold face, swaps_handedness. destruct (normalize_via c) as (j & J & EJ).
  set (d := det3 (tm A)) in *. rewrite EJ.
  assert (P : forall x y w, 0 < x -> 0 < y -> normalize (vscale x w) = normalize (vscale y w)) by (intros; now rewrite !normalize_scale).
  destruct (Rltb d 0) eqn:E; Rb.
  - replace (vscale (k * d) (t_normal A c)) with (vscale (-1) (vscale (k * - d) (t_normal A c))) by (rewrite vscale_vscale; f_equal; ring).
    rewrite normalize_neg, normalize_scale by nra. destruct fl; cbn [xorb]; rewrite !tn_scale.
    + rewrite normalize_neg, (normalize_scale j) by lra. reflexivity.
    + rewrite (normalize_scale j) by lra. rewrite vscale_vscale. replace (-1 * -1) with 1 by ring. apply vscale_1.
  - rewrite normalize_scale by nra. destruct fl; cbn [xorb]; rewrite !tn_scale.
    + now rewrite normalize_neg, (normalize_scale j) by lra.
    + now rewrite (normalize_scale j) by lra.
Qed.
(** shapes placed by tangents in object space *)
Lemma dg_moved A b p du dv a c u v : tvalid A -> tvalid (b_o2w b) ->
  let o2w := b_o2w b in let o2w' := t_mul A o2w in
  let g := dg_make (b_flip b) (t_point o2w p) (t_vector o2w du) (t_vector o2w dv) (t_normal o2w a) (t_normal o2w c) u v in
  let g' := dg_make (b_flip (moved_base A b)) (t_point o2w' p) (t_vector o2w' du) (t_vector o2w' dv) (t_normal o2w' a) (t_normal o2w' c) u v in
  moved_point A g g' /\ moved_tangents A g g' /\ dg_dndu g' = t_normal A (dg_dndu g) /\ dg_dndv g' = t_normal A (dg_dndv g).
Proof.
  intros VA VB o2w o2w' g g'. unfold g, g', moved_point, moved_tangents, dg_make. cbn.
  unfold o2w'. rewrite mul_point, !mul_vector, !mul_normal by (apply VA || apply VB).
  repeat split; try reflexivity. rewrite flip_moved by assumption.
  apply (nn_moved A (b_flip b) _ _ 1 VA ltac:(lra)). rewrite Rmult_1_l. now apply cross_image.
Qed.
Lemma ray_back A b r : tvalid A -> base_ok b -> t_ray (b_w2o (moved_base A b)) (t_ray A r) = t_ray (b_w2o b) r.
Proof.
  intros VA [Bt Bi]. pose proof (built_valid _ Bt) as VB. unfold t_ray, moved_base. cbn [b_w2o ro rd rmint rmaxt rdepth rtime].
  replace (t_inverse (t_mul A (b_o2w b))) with (t_mul (t_inverse (b_o2w b)) (t_inverse A)) by reflexivity.
  pose proof (tvalid_inv _ VA) as VI. pose proof (tvalid_inv _ VB) as VJ.
  rewrite mul_point, mul_vector by (apply VI || apply VJ). rewrite inv_point, inv_vector by assumption. now rewrite Bi.
Qed.

Definition full (A : transform) (g g' : dgeom) : Prop :=
  moved_point A g g' /\ moved_tangents A g g' /\ dg_dndu g' = t_normal A (dg_dndu g) /\ dg_dndv g' = t_normal A (dg_dndv g).
Definition ok {X} (o : X) : res X := Ok o.
Lemma sphere_moved A b rad z0 z1 pm r : tvalid A -> base_ok b ->
  moved_result (full A) (Ok (sphere_intersect (sphere_make b rad z0 z1 pm) r)) (Ok (sphere_intersect (sphere_make (moved_base A b) rad z0 z1 pm) (t_ray A r))).
Proof.
  intros VA B. unfold sphere_intersect.
  assert (E : sphere_find (sphere_make (moved_base A b) rad z0 z1 pm) (t_ray A r) = sphere_find (sphere_make b rad z0 z1 pm) r).
  { unfold sphere_find. cbn [sphere_make sp_base sp_r]. rewrite ray_back by assumption. reflexivity. }
  rewrite E. destruct (sphere_find _ r) as [[t q]|]; cbn [moved_result]; [|exact Logic.I].
  split; [reflexivity|]. split; [reflexivity|]. cbn [h_dg]. unfold sphere_dg. cbn [sphere_make sp_base sp_r sp_phimax sp_tmax sp_tmin].
  destruct (weingarten _ _ _ _ _) as [dn dm]. apply dg_moved; [exact VA|apply built_valid, B].
Qed.
Lemma sphere_p_moved A b rad z0 z1 pm r : tvalid A -> base_ok b ->
  sphere_intersect_p (sphere_make (moved_base A b) rad z0 z1 pm) (t_ray A r) = sphere_intersect_p (sphere_make b rad z0 z1 pm) r.
Proof. intros VA B. unfold sphere_intersect_p. cbn [sphere_make sp_base sp_r]. rewrite ray_back by assumption. reflexivity. Qed.
Lemma disk_moved A b h rad ri pm r : tvalid A -> base_ok b ->
  moved_result (full A) (disk_intersect (disk_make b h rad ri pm) r) (disk_intersect (disk_make (moved_base A b) h rad ri pm) (t_ray A r)).
Proof.
  intros VA B. unfold disk_intersect.
  assert (E : disk_find (disk_make (moved_base A b) h rad ri pm) (t_ray A r) = disk_find (disk_make b h rad ri pm) r).
  { unfold disk_find. cbn [disk_make dk_base dk_h dk_r dk_ri]. rewrite ray_back by assumption. reflexivity. }
  rewrite E. destruct (disk_find _ r) as [[t q]|]; cbn [moved_result]; [|exact Logic.I].
  unfold disk_dg. cbn [disk_make dk_base dk_h dk_r dk_ri dk_phimax]. destruct (Rleb _ ri); cbn [bind moved_result]; [reflexivity|].
  split; [reflexivity|]. split; [reflexivity|]. cbn [h_dg]. apply dg_moved; [exact VA|apply built_valid, B].
Qed.
Lemma disk_p_moved A b h rad ri pm r : tvalid A -> base_ok b ->
  disk_intersect_p (disk_make (moved_base A b) h rad ri pm) (t_ray A r) = disk_intersect_p (disk_make b h rad ri pm) r.
Proof. intros VA B. unfold disk_intersect_p. cbn [disk_make dk_base dk_h dk_r dk_ri]. rewrite ray_back by assumption. reflexivity. Qed.

(** triangles *)
Lemma get1_map {X Y} (f : X -> Y) l i : get1 (map f l) i = (do x <- get1 l i; Ok (f x)).
Proof.
  unfold get1. rewrite map_length. destruct (np_index _ _) as [k|]; cbn [bind]; [|reflexivity].
  rewrite nth_error_map. destruct (nth_error l k); reflexivity.
Qed.
Lemma tri_vert_moved A b nt nv vi P N S uv al v k : tvalid A -> tvalid (b_o2w b) ->
  tri_vert (mesh_make (moved_base A b) nt nv vi P N S uv al) v k = (do p <- tri_vert (mesh_make b nt nv vi P N S uv al) v k; Ok (t_point A p)).
Proof.
  intros VA VB. unfold tri_vert. cbn [mesh_make m_vi m_p]. destruct (get1 vi (v + k)) as [i|]; cbn [bind]; [|reflexivity].
  rewrite !get1_map. destruct (get1 P i) as [p|]; cbn [bind]; [|reflexivity]. cbn [moved_base b_o2w]. now rewrite mul_point by (apply VA || apply VB).
Qed.
Lemma cs_cross n x y z : unit n -> coordinate_system n = (x, y, z) -> vcross y z = n.
Proof.
  intros U E. pose proof (coordinate_system_ortho n U) as H. rewrite E in H. cbv zeta in H. destruct H as (-> & Uy & Uz & O1 & O2 & O3).
  unfold coordinate_system in E. rewrite (vlength_unit n U) in E. destruct (Reqb 1 0) eqn:C; Rb; [lra|].
  set (y0 := if Rltb (Rabs (vy n)) (Rabs (vx n)) then _ else _) in E. clearbody y0. injection E as -> <-.
  destruct n as [n1 n2 n3], y as [y1 y2 y3]. unfold unit, orth, vdot, vcross in *. cbn in *.
  apply V3_eq; cbn.
  - transitivity (n1 * (y1 * y1 + y2 * y2 + y3 * y3) - y1 * (n1 * y1 + n2 * y2 + n3 * y3)); [ring|rewrite Uy, O1; ring].
  - transitivity (n2 * (y1 * y1 + y2 * y2 + y3 * y3) - y2 * (n1 * y1 + n2 * y2 + n3 * y3)); [ring|rewrite Uy, O1; ring].
  - transitivity (n3 * (y1 * y1 + y2 * y2 + y3 * y3) - y3 * (n1 * y1 + n2 * y2 + n3 * y3)); [ring|rewrite Uy, O1; ring].
Qed.
Lemma triple A u v w : tvalid A -> vdot (vcross (t_vector A u) (t_vector A v)) (t_vector A w) = det3 (tm A) * vdot (vcross u v) w.
Proof. intros V. apply det_cross, V. Qed.
Lemma vdot_sym a b : vdot a b = vdot b a. Proof. unfold vdot. ring. Qed.
Lemma tri_dg_moved A b nt nv vi P N S uv al p1 p2 p3 q u0 v0 u1 v1 u2 v2 b1 b2 : tvalid A -> tvalid (b_o2w b) ->
  vcross (vsub p3 p1) (vsub p2 p1) <> vzero ->
  let g := tri_dg (mesh_make b nt nv vi P N S uv al) p1 p2 p3 q ((u0, v0), (u1, v1), (u2, v2)) b1 b2 in
  let g' := tri_dg (mesh_make (moved_base A b) nt nv vi P N S uv al) (t_point A p1) (t_point A p2) (t_point A p3) (t_point A q) ((u0, v0), (u1, v1), (u2, v2)) b1 b2 in
  moved_point A g g' /\ ((u0 - u2) * (v1 - v2) - (u1 - u2) * (v0 - v2) <> 0 -> moved_tangents A g g').
Proof.
  intros VA VB HN g g'. unfold g, g', tri_dg. cbn [mesh_make m_base]. rewrite !tp_sub by apply VA.
  set (det := (u0 - u2) * (v1 - v2) - (u1 - u2) * (v0 - v2)). destruct (Reqb det 0) eqn:ED; Rb.
  - destruct (coordinate_system (normalize (vcross (vsub p3 p1) (vsub p2 p1)))) as [[x y] z] eqn:E1.
    destruct (coordinate_system (normalize (vcross (t_vector A (vsub p3 p1)) (t_vector A (vsub p2 p1))))) as [[x' y'] z'] eqn:E2.
    apply cs_cross in E1; [|now apply normalize_unit]. apply cs_cross in E2; [|apply normalize_unit; now apply cross_image_nonzero].
    split; [|contradiction]. unfold moved_point, dg_make. cbn. repeat split; try reflexivity.
    rewrite E1, E2, flip_moved by assumption.
    destruct (normalize_via (vcross (vsub p3 p1) (vsub p2 p1))) as (k & K & EK).
    destruct (normalize_via (vcross (t_vector A (vsub p3 p1)) (t_vector A (vsub p2 p1)))) as (k' & K' & EK').
    apply (nn_moved A (b_flip b) _ _ (k' / k) VA).
    + unfold Rdiv. apply Rmult_lt_0_compat; [exact K'|now apply Rinv_0_lt_compat].
    + rewrite EK, EK', tn_scale, vscale_vscale, cross_image, vscale_vscale by exact VA. f_equal. field. lra.
  - split.
    + unfold moved_point, dg_make. cbn. repeat split; try reflexivity. rewrite flip_moved by assumption.
      apply (nn_moved A (b_flip b) _ _ 1 VA ltac:(lra)). rewrite Rmult_1_l, <- cross_image by exact VA.
      generalize (vsub p1 p3) (vsub p2 p3). intros w1 w2. now rewrite !tv_scale, tv_add, tv_sub, !tv_scale.
    + intros _. unfold moved_tangents, dg_make. cbn. generalize (vsub p1 p3) (vsub p2 p3). intros w1 w2. now rewrite !tv_scale, tv_add, tv_sub, !tv_scale.
Qed.
Lemma get1_nth (l : list R) i a : (0 <= i)%Z -> get1 l i = Ok a -> nth (Z.to_nat i) l 0 = a.
Proof.
  intros H. unfold get1. destruct (np_index (length l) i) as [k|] eqn:E; cbn [bind]; [|discriminate].
  assert (k = Z.to_nat i) as ->.
  { unfold np_index in E. destruct ((0 <=? i)%Z && _) eqn:C; [now injection E as <-|]. destruct ((- _ <=? i)%Z && (i <? 0)%Z) eqn:C2; [|discriminate]. lia. }
  destruct (nth_error l (Z.to_nat i)) eqn:EN; [|discriminate]. intros [= <-]. now apply nth_error_nth.
Qed.
Lemma uv_free_det b nt nv vi P N S uv v u0 v0 u1 v1 u2 v2 : uv_free uv v ->
  tri_uvs (mesh_make b nt nv vi P N S uv None) v = Ok ((u0, v0), (u1, v1), (u2, v2)) ->
  (u0 - u2) * (v1 - v2) - (u1 - u2) * (v0 - v2) <> 0.
Proof.
  unfold uv_free, tri_uvs. cbn [mesh_make m_uv]. destruct uv as [l|].
  - intros [H D].
    destruct (get1 l (2 * v)) as [a|] eqn:E0; cbn [bind]; [|discriminate]. destruct (get1 l (2 * v + 1)) as [c|] eqn:E1; cbn [bind]; [|discriminate].
    destruct (get1 l (2 * (v + 1))) as [d|] eqn:E2; cbn [bind]; [|discriminate]. destruct (get1 l (2 * (v + 1) + 1)) as [e|] eqn:E3; cbn [bind]; [|discriminate].
    destruct (get1 l (2 * (v + 2))) as [f|] eqn:E4; cbn [bind]; [|discriminate]. destruct (get1 l (2 * (v + 2) + 1)) as [g|] eqn:E5; cbn [bind]; [|discriminate].
    intros [= <- <- <- <- <- <-]. apply get1_nth in E0, E1, E2, E3, E4, E5; try lia.
    replace (Z.to_nat (2 * v)) with (2 * Z.to_nat v + 0)%nat in E0 by lia. replace (Z.to_nat (2 * v + 1)) with (2 * Z.to_nat v + 1)%nat in E1 by lia.
    replace (Z.to_nat (2 * (v + 1))) with (2 * Z.to_nat v + 2)%nat in E2 by lia. replace (Z.to_nat (2 * (v + 1) + 1)) with (2 * Z.to_nat v + 3)%nat in E3 by lia.
    replace (Z.to_nat (2 * (v + 2))) with (2 * Z.to_nat v + 4)%nat in E4 by lia. replace (Z.to_nat (2 * (v + 2) + 1)) with (2 * Z.to_nat v + 5)%nat in E5 by lia.
    cbv zeta in D. now rewrite E0, E1, E2, E3, E4, E5 in D.
  - intros _ [= <- <- <- <- <- <-]. lra.
Qed.
Lemma Reqb_scale k x : k <> 0 -> Reqb (k * x) 0 = Reqb x 0.
Proof. intros K. unfold Reqb. destruct (Req_EM_T (k * x) 0), (Req_EM_T x 0); try reflexivity; exfalso; [apply n; apply Rmult_integral in e; tauto|subst; apply n; ring]. Qed.
Lemma tri_moved A b nt nv vi P N S uv v r : tvalid A -> tvalid (b_o2w b) ->
  moved_result (fun g g' => moved_point A g g' /\ (uv_free uv v -> moved_tangents A g g'))
    (tri_intersect (mesh_make b nt nv vi P N S uv None) v r) (tri_intersect (mesh_make (moved_base A b) nt nv vi P N S uv None) v (t_ray A r)).
Proof.
  intros VA VB. unfold tri_intersect. rewrite !tri_vert_moved by assumption.
  destruct (tri_vert _ v 0) as [p1|]; cbn [bind]; [|reflexivity]. destruct (tri_vert _ v 1) as [p2|]; cbn [bind]; [|reflexivity].
  destruct (tri_vert _ v 2) as [p3|]; cbn [bind]; [|reflexivity]. cbn [t_ray rd ro rmint rmaxt].
  rewrite !tp_sub by apply VA. pose proof (tvalid_det _ VA) as D.
  set (e1 := vsub p2 p1). set (e2 := vsub p3 p1). set (dd := vsub (ro r) p1). set (d := rd r).
  rewrite !(vdot_sym (t_vector A dd)), (vdot_sym (t_vector A d)), (vdot_sym (t_vector A e2)), !triple by exact VA.
  rewrite !(vdot_sym dd), (vdot_sym d), (vdot_sym e2). set (dt := det3 (tm A)) in *.
  rewrite Reqb_scale by exact D. destruct (Reqb (vdot (vcross d e2) e1) 0) eqn:EZ; [exact Logic.I|]. Rb.
  set (dv := vdot (vcross d e2) e1) in *.
  assert (K : forall x, dt * x * (1 / (dt * dv)) = x * (1 / dv)) by (intros x; field; split; assumption).
  rewrite !K. set (b1 := vdot (vcross d e2) dd * (1 / dv)). set (b2 := vdot (vcross dd e1) d * (1 / dv)). set (t := vdot (vcross dd e1) e2 * (1 / dv)).
  destruct (_ || _); [exact Logic.I|]. destruct (_ || _); [exact Logic.I|]. destruct (_ || _); [exact Logic.I|].
  change (tri_uvs (mesh_make (moved_base A b) nt nv vi P N S uv None) v) with (tri_uvs (mesh_make b nt nv vi P N S uv None) v).
  destruct (tri_uvs _ v) as [[[[u0 w0] [u1 w1]] [u2 w2]]|] eqn:EU; cbn [bind]; [|reflexivity].
  cbn [m_alpha mesh_make moved_result]. split; [reflexivity|]. split; [reflexivity|]. cbn [h_dg].
  assert (HN : vcross (vsub p3 p1) (vsub p2 p1) <> vzero).
  { fold e1 e2. intros HZ. apply EZ. unfold dv. transitivity (vdot d (vcross e2 e1)); [destruct d, e1, e2; unfold vdot, vcross; cbn; ring|].
    rewrite HZ. unfold vdot, vzero; cbn; ring. }
  assert (EQ : ray_at (t_ray A r) t = t_point A (ray_at r t)) by (unfold ray_at; cbn [t_ray ro rd]; now rewrite tp_at by apply VA).
  rewrite EQ.
  destruct (tri_dg_moved A b nt nv vi P N S uv None p1 p2 p3 (ray_at r t) u0 w0 u1 w1 u2 w2 b1 b2 VA VB HN) as [H1 H2].
  split; [exact H1|]. intros HU. apply H2. exact (uv_free_det _ _ _ _ _ _ _ _ _ _ _ _ _ _ _ HU EU).
Qed.
Lemma tri_p_moved A b nt nv vi P N S uv v r : tvalid A -> tvalid (b_o2w b) ->
  tri_intersect_p (mesh_make (moved_base A b) nt nv vi P N S uv None) v (t_ray A r) = tri_intersect_p (mesh_make b nt nv vi P N S uv None) v r.
Proof.
  intros VA VB. unfold tri_intersect_p. rewrite !tri_vert_moved by assumption.
  destruct (tri_vert _ v 0) as [p1|]; cbn [bind]; [|reflexivity]. destruct (tri_vert _ v 1) as [p2|]; cbn [bind]; [|reflexivity].
  destruct (tri_vert _ v 2) as [p3|]; cbn [bind]; [|reflexivity]. cbn [t_ray rd ro rmint rmaxt].
  rewrite !tp_sub by apply VA. pose proof (tvalid_det _ VA) as D.
  set (e1 := vsub p2 p1). set (e2 := vsub p3 p1). set (dd := vsub (ro r) p1). set (d := rd r).
  rewrite !(vdot_sym (t_vector A dd)), (vdot_sym (t_vector A d)), (vdot_sym (t_vector A e2)), !triple by exact VA.
  rewrite !(vdot_sym dd), (vdot_sym d), (vdot_sym e2). set (dt := det3 (tm A)) in *.
  rewrite Reqb_scale by exact D. destruct (Reqb (vdot (vcross d e2) e1) 0) eqn:EZ; [reflexivity|]. Rb.
  set (dv := vdot (vcross d e2) e1) in *.
  assert (K : forall x, dt * x * (1 / (dt * dv)) = x * (1 / dv)) by (intros x; field; split; assumption).
  rewrite !K.
  destruct (_ || _); [reflexivity|]. destruct (_ || _); [reflexivity|]. destruct (_ || _); [reflexivity|].
  change (tri_uvs (mesh_make (moved_base A b) nt nv vi P N S uv None) v) with (tri_uvs (mesh_make b nt nv vi P N S uv None) v).
  destruct (tri_uvs _ v) as [[[[u0 w0] [u1 w1]] [u2 w2]]|] eqn:EU; reflexivity.
Qed.
