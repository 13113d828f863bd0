(** Proofs: parametrisation, tangents, interpolation and bounds of the shapes. *)
From Coq Require Import Reals Lra Lia List Bool ZArith.
From Coquelicot Require Import Coquelicot.
From Verif Require Import Base M_Geometry M_Transform M_Utility M_MonteCarlo M_Film M_Shapes S_Geometry S_Transform S_Shapes
  P_Geometry P_Transform P_Transform2 P_Quadrics P_Normals P_Triangle P_Mesh P_ShapesMore P_Orient S_Area P_Area.
Import ListNotations.
Open Scope R_scope.

(** *** Sphere *)
Lemma sphere_param s q : 0 < sp_r s -> 0 < sp_phimax s -> sp_tmax s < sp_tmin s ->
  vdot q q = sp_r s * sp_r s -> (vx q <> 0 \/ vy q <> 0) ->
  let P u v := sph (sp_r s) (u * sp_phimax s) (sp_tmin s + v * (sp_tmax s - sp_tmin s)) in
  let u := hit_phi q / sp_phimax s in let v := (acos (vz q / sp_r s) - sp_tmin s) / (sp_tmax s - sp_tmin s) in
  exists du dv, P u v = q /\ vderive (fun t => P t v) u du /\ vderive (fun t => P u t) v dv /\
    dg_dpdu (sphere_dg s q) = t_vector (b_o2w (sp_base s)) du /\ dg_dpdv (sphere_dg s q) = t_vector (b_o2w (sp_base s)) dv /\
    dg_u (sphere_dg s q) = u.
Proof.
  intros HR HP HT HQ Hn P u v. set (zr := sqrt (vx q * vx q + vy q * vy q)).
  assert (Pq : 0 < vx q * vx q + vy q * vy q).
  { destruct Hn as [Hn|Hn]; pose proof (Rsqr_pos_lt _ Hn) as X; unfold Rsqr in X; nra. }
  assert (Hz : 0 < zr) by (apply sqrt_lt_R0; auto).
  assert (Hzz : zr * zr = vx q * vx q + vy q * vy q) by (apply sqrt_sqrt; lra).
  assert (F2 : vx q * vx q + vy q * vy q + vz q * vz q = sp_r s * sp_r s) by (rewrite <- HQ; reflexivity).
  assert (Hb1 : -1 <= vz q / sp_r s <= 1).
  { split; apply (Rmult_le_reg_r (sp_r s)); auto; unfold Rdiv; rewrite Rmult_assoc, Rinv_l by lra; nra. }
  assert (UU : u * sp_phimax s = hit_phi q) by (unfold u; field; lra).
  assert (VV : sp_tmin s + v * (sp_tmax s - sp_tmin s) = acos (vz q / sp_r s)) by (unfold v; field; lra).
  destruct (hit_phi_cs q) as (C1 & C2). fold zr in C1, C2.
  assert (ST : sp_r s * sin (acos (vz q / sp_r s)) = zr).
  { rewrite sin_acos by lra. symmetry. apply sqrt_sq_eq; [apply Rmult_le_pos; [lra|apply sqrt_pos]|].
    replace (sp_r s * sqrt (1 - (vz q / sp_r s)²) * (sp_r s * sqrt (1 - (vz q / sp_r s)²))) with (sp_r s * sp_r s * (sqrt (1 - (vz q / sp_r s)²) * sqrt (1 - (vz q / sp_r s)²))) by ring.
    rewrite sqrt_sqrt by (unfold Rsqr; nra). unfold Rsqr. replace (vx q * vx q + vy q * vy q) with (sp_r s * sp_r s - vz q * vz q) by lra. field. lra. }
  assert (CT : sp_r s * cos (acos (vz q / sp_r s)) = vz q) by (rewrite cos_acos by lra; field; lra).
  set (pm := sp_phimax s) in *. set (dt := sp_tmax s - sp_tmin s) in *.
  exists (mkV (- pm * vy q) (pm * vx q) 0), (vscale dt (mkV (vz q * cos (hit_phi q)) (vz q * sin (hit_phi q)) (- zr))).
  split; [|split; [|split; [|split; [|split]]]].
  - unfold P, sph. rewrite UU, VV, ST, CT. destruct q. cbn in *. apply V3_eq; cbn; lra.
  - unfold P, sph. rewrite VV. split; [|split]; cbn; auto_derive; try exact I; rewrite ?UU; cbn.
    + rewrite C2. rewrite <- ST. ring.
    + rewrite C1. rewrite <- ST. ring.
    + ring.
  - unfold P, sph, vscale, vmap. rewrite UU. split; [|split]; cbn; auto_derive; try exact I; fold dt; rewrite ?VV.
    + rewrite <- CT at 2. ring.
    + rewrite <- CT at 2. ring.
    + rewrite <- ST. ring.
  - unfold sphere_dg. destruct (weingarten _ _ _ _ _). reflexivity.
  - unfold sphere_dg. destruct (weingarten _ _ _ _ _). cbn [dg_make dg_dpdv]. f_equal.
    rewrite clip_id by lra. fold zr dt.
    unfold vscale, vmap; cbn. f_equal.
    + f_equal. rewrite C1 at 1. field. lra.
    + f_equal. rewrite C2 at 1. field. lra.
    + f_equal. rewrite <- ST. ring.
  - unfold sphere_dg. destruct (weingarten _ _ _ _ _). reflexivity.
Qed.

(** *** Disk: a full disk without a hole *)
Lemma disk_param d q g : 0 < dk_r d -> dk_ri d = 0 -> dk_phimax d = 2 * PI -> vz q = dk_h d -> disk_dg d q = Ok g ->
  let P u v := dsk (dk_h d) (u * dk_phimax d) ((1 - v) * dk_r d) in
  exists du dv, P (dg_u g) (dg_v g) = q /\ vderive (fun t => P t (dg_v g)) (dg_u g) du /\ vderive (fun t => P (dg_u g) t) (dg_v g) dv /\
    dg_dpdu g = t_vector (b_o2w (dk_base d)) du /\ dg_dpdv g = t_vector (b_o2w (dk_base d)) dv.
Proof.
  intros HR H0 HP Hz EG P. unfold disk_dg in EG. cbv zeta in EG. rewrite H0 in EG.
  destruct (Rleb _ _) eqn:E; [discriminate|]. Rb. rewrite !Rminus_0_r in EG.
  set (zr := sqrt (vx q * vx q + vy q * vy q)) in *.
  assert (Hzr : 0 < zr) by (apply sqrt_lt_R0; auto).
  pose proof PI_RGT_0 as PP.
  injection EG as <-. cbn [dg_make dg_u dg_v dg_dpdu dg_dpdv].
  destruct (hit_phi_cs q) as (C1 & C2). fold zr in C1, C2.
  assert (UU : hit_phi q / dk_phimax d * dk_phimax d = hit_phi q) by (field; lra).
  assert (VV : (1 - (1 - zr / dk_r d)) * dk_r d = zr) by (field; lra).
  assert (Z1 : 1 - (1 - zr / dk_r d) <> 0). { replace (1 - (1 - zr / dk_r d)) with (zr / dk_r d) by ring. apply Rgt_not_eq. apply Rdiv_lt_0_compat; lra. }
  exists (mkV (- dk_phimax d * vy q) (dk_phimax d * vx q) 0), (mkV (- dk_r d * cos (hit_phi q)) (- dk_r d * sin (hit_phi q)) 0).
  split; [|split; [|split; [|split]]].
  - unfold P, dsk. rewrite UU, VV. destruct q. cbn in *. apply V3_eq; cbn; lra.
  - unfold P, dsk. rewrite VV. split; [|split]; cbn; auto_derive; try exact I; rewrite ?UU; cbn; try ring.
    + rewrite C2. ring.
    + rewrite C1. ring.
  - unfold P, dsk. rewrite UU. split; [|split]; cbn; auto_derive; try exact I; ring.
  - f_equal. rewrite HP. unfold vscale, vmap; cbn. apply V3_eq; cbn; field; lra.
  - f_equal. unfold vscale, vmap; cbn. apply V3_eq; cbn.
    + rewrite C1 at 1. field. split; lra.
    + rewrite C2 at 1. field. split; lra.
    + ring.
Qed.

(** *** Triangles *)
Lemma tri_interp b nt nv vi P N S uv al f r h : faces_ok vi (length P) -> (3 * f + 2 < length vi)%nat ->
  tri_intersect (mesh_make b nt nv vi P N S uv al) (3 * Z.of_nat f) r = Ok (Some h) ->
  let a := corner (b_o2w b) vi P f 0 in let c := corner (b_o2w b) vi P f 1 in let d := corner (b_o2w b) vi P f 2 in
  exists x y z u0 v0 u1 v1 u2 v2, tri_uvs (mesh_make b nt nv vi P N S uv al) (3 * Z.of_nat f) = Ok ((u0, v0), (u1, v1), (u2, v2)) /\
    0 <= x /\ 0 <= y /\ 0 <= z /\ x + y + z = 1 /\ ray_at r (h_t h) = vadd (vadd (vscale x a) (vscale y c)) (vscale z d) /\
    dg_u (h_dg h) = x * u0 + y * u1 + z * u2 /\ dg_v (h_dg h) = x * v0 + y * v1 + z * v2 /\ h_eps h = 1 / 1000 * h_t h.
Proof.
  intros HF Hl HI a c d. rewrite (tri_intersect_unfold b nt nv vi P N S uv al f r HF Hl) in HI. fold a c d in HI.
  destruct (Reqb _ _) eqn:E0; [discriminate|]. Rb.
  destruct (_ || _) eqn:K1 in HI; [discriminate|]. destruct (_ || _) eqn:K2 in HI; [discriminate|]. cbv zeta in HI.
  destruct (_ || _) eqn:K3 in HI; [discriminate|].
  destruct (tri_uvs _ _) as [[[[u0 v0] [u1 v1]] [u2 v2]]|]; [|discriminate]. cbn [bind] in HI.
  match type of HI with (if ?x then _ else _) = _ => destruct x; [discriminate|] end.
  match type of HI with Ok (Some ?x) = _ => assert (HX : h = x) by congruence end. rewrite HX. cbn [h_t h_dg h_eps].
  apply orb_false_iff in K1, K2. destruct K1 as [A1 A2], K2 as [A3 A4]. Rb.
  pose proof (mt_sound r a c d E0) as MS.
  set (b1 := mt_b1 r a c d) in *. set (b2 := mt_b2 r a c d) in *.
  exists (1 - b1 - b2), b1, b2, u0, v0, u1, v1, u2, v2.
  split; [reflexivity|]. split; [lra|]. split; [lra|]. split; [lra|]. split; [lra|]. split.
  - rewrite MS. clear. destruct a, c, d. unfold vadd, vscale, vsub, vmap, vmap2; cbn. apply V3_eq; cbn; ring.
  - split; [|split; [|lra]].
    + unfold tri_dg. destruct (Reqb _ 0); [destruct (coordinate_system _) as [[? ?] ?]|]; reflexivity.
    + unfold tri_dg. destruct (Reqb _ 0); [destruct (coordinate_system _) as [[? ?] ?]|]; reflexivity.
Qed.
Lemma tri_bary_spec u0 v0 u1 v1 u2 v2 u v x y z : tri_bary ((u0, v0), (u1, v1), (u2, v2)) u v = (x, y, z) ->
  x + y + z = 1 /\ ((u1 - u0) * (v2 - v0) - (u2 - u0) * (v1 - v0) <> 0 ->
     x * u0 + y * u1 + z * u2 = u /\ x * v0 + y * v1 + z * v2 = v) /\
  ((u1 - u0) * (v2 - v0) - (u2 - u0) * (v1 - v0) = 0 -> x = 1 / 3 /\ y = 1 / 3 /\ z = 1 / 3).
Proof.
  unfold tri_bary. destruct (solve2 _ _ _ _ _ _) as [[p q]|] eqn:E.
  - intros [= <- <- <-]. split; [ring|]. split.
    + intros _. apply solve2_spec in E. destruct E as [E1 E2]. split; nra.
    + intros Z0. unfold solve2 in E. replace (Reqb _ 0) with true in E; [discriminate|]. symmetry. apply Reqb_true. lra.
  - intros [= <- <- <-]. split; [lra|]. split; [|lra]. intros N. exfalso. unfold solve2 in E.
    destruct (Reqb _ 0) eqn:Q in E; [|discriminate]. Rb. lra.
Qed.
Lemma shading_weights m v o2w g g' nl sl : m_n m = Some nl -> m_s m = Some sl -> tri_shading m v o2w g = Ok g' ->
  exists u0 v0 u1 v1 u2 v2 x y z n0 n1 n2 nb, tri_uvs m v = Ok ((u0, v0), (u1, v1), (u2, v2)) /\
   x + y + z = 1 /\ ((u1 - u0) * (v2 - v0) - (u2 - u0) * (v1 - v0) <> 0 ->
     x * u0 + y * u1 + z * u2 = dg_u g /\ x * v0 + y * v1 + z * v2 = dg_v g) /\
   ((u1 - u0) * (v2 - v0) - (u2 - u0) * (v1 - v0) = 0 -> x = 1 / 3 /\ y = 1 / 3 /\ z = 1 / 3) /\
   get1 nl v = Ok n0 /\ get1 nl (v + 1) = Ok n1 /\ get1 nl (v + 2) = Ok n2 /\
   nb = vadd (vadd (vscale x n0) (vscale y n1)) (vscale z n2) /\
   (t_normal o2w nb <> vzero ->
    dg_nn g' = let ns := normalize (t_normal o2w nb) in if b_flip (m_base m) then vscale (-1) ns else ns).
Proof.
  intros Hn Hs H0. pose proof (tri_shading_spec m v o2w g g' nl sl Hn Hs H0) as _.
  revert H0. unfold tri_shading. rewrite Hn, Hs.
  destruct (tri_uvs m v) as [[[[u0 v0] [u1 v1]] [u2 v2]]|] eqn:EU; [|discriminate]. cbn [bind].
  destruct (tri_bary _ (dg_u g) (dg_v g)) as [[x y] z] eqn:EB.
  destruct (tri_bary_spec _ _ _ _ _ _ _ _ _ _ _ EB) as (B1 & B2 & B3).
  destruct (tri_blend nl v x y z) as [nb|] eqn:EN; [|discriminate]. cbn [bind].
  pose proof EN as EN'. unfold tri_blend in EN.
  destruct (get1 nl v) as [n0|] eqn:G0; [cbn [bind] in EN|discriminate].
  destruct (get1 nl (v + 1)) as [n1|] eqn:G1; [cbn [bind] in EN|discriminate].
  destruct (get1 nl (v + 2)) as [n2|] eqn:G2; [cbn [bind] in EN|discriminate]. injection EN as EN.
  destruct (tri_blend sl v x y z) as [sb|]; [|discriminate]. cbn [bind].
  set (ns := normalize (t_normal o2w nb)). set (s0 := normalize (t_vector o2w sb)).
  set (PAIR := if Rltb 0 (sq_length (vcross s0 ns)) then _ else _).
  intros H. exists u0, v0, u1, v1, u2, v2, x, y, z, n0, n1, n2, nb.
  split; [reflexivity|]. split; [exact B1|]. split; [exact B2|]. split; [exact B3|]. split; [reflexivity|]. split; [reflexivity|]. split; [reflexivity|].
  split; [now symmetry|]. intros NZ. cbv zeta. fold ns.
  assert (R : vcross (fst PAIR) (snd PAIR) = ns).
  { pose proof (normalize_unit _ NZ) as U. fold ns in U. unfold PAIR. destruct (Rltb 0 _) eqn:E; Rb.
    - cbn [fst snd]. set (c := vcross s0 ns) in *.
      assert (Hc : c <> vzero) by (intros E0; rewrite E0 in E; unfold sq_length, vdot, vzero in E; cbn in E; lra).
      apply cross_frame; [exact U|now apply normalize_unit|].
      assert (D : vdot c ns = 0) by (unfold c, vdot, vcross; destruct s0, ns; cbn; ring).
      apply normalize_dot0 in D. unfold orth, vdot in *. lra.
    - destruct (coordinate_system ns) as [[z0 a] c] eqn:EC. cbn [fst snd]. now apply (coordinate_system_right _ _ _ _ U EC). }
  pose proof (normalize_unit _ NZ) as U. fold ns in U.
  clearbody PAIR. destruct PAIR as [ss ts]. cbn [fst snd] in R.
  repeat (match type of H with bind ?e _ = _ => destruct e; [cbn [bind] in H|discriminate] end).
  match type of H with context [Reqb ?a 0] => destruct (Reqb a 0) end;
  (injection H as <-; cbn [dg_nn dg_make]; rewrite R, (normalize_id ns U); reflexivity).
Qed.
Lemma shading_derivs m v o2w g g' nl sl : m_n m = Some nl -> m_s m = Some sl -> tri_shading m v o2w g = Ok g' ->
  exists u0 v0 u1 v1 u2 v2 i0 i1 i2 n0 n1 n2 du dv, tri_uvs m v = Ok ((u0, v0), (u1, v1), (u2, v2)) /\
    get1 (m_vi m) v = Ok i0 /\ get1 (m_vi m) (v + 1) = Ok i1 /\ get1 (m_vi m) (v + 2) = Ok i2 /\
    get1 nl i0 = Ok n0 /\ get1 nl i1 = Ok n1 /\ get1 nl i2 = Ok n2 /\
    dg_dndu g' = t_normal (b_o2w (m_base m)) du /\ dg_dndv g' = t_normal (b_o2w (m_base m)) dv /\
    ((u0 - u2) * (v1 - v2) - (u1 - u2) * (v0 - v2) <> 0 ->
       vsub n0 n2 = vadd (vscale (u0 - u2) du) (vscale (v0 - v2) dv) /\ vsub n1 n2 = vadd (vscale (u1 - u2) du) (vscale (v1 - v2) dv)).
Proof.
  intros Hn Hs. unfold tri_shading. rewrite Hn, Hs.
  destruct (tri_uvs m v) as [[[[u0 v0] [u1 v1]] [u2 v2]]|] eqn:EU; [|discriminate]. cbn [bind].
  destruct (tri_bary _ (dg_u g) (dg_v g)) as [[x y] z] eqn:EB.
  destruct (tri_blend nl v x y z) as [nb|] eqn:EN; [|discriminate]. cbn [bind].
  destruct (tri_blend sl v x y z) as [sb|]; [|discriminate]. cbn [bind]. cbv zeta.
  match goal with |- context [let '(a, b) := ?e in _] => destruct e as [ss ts] end.
  destruct (get1 (m_vi m) v) as [i0|] eqn:I0; [cbn [bind]|discriminate].
  destruct (get1 (m_vi m) (v + 1)) as [i1|] eqn:I1; [cbn [bind]|discriminate].
  destruct (get1 (m_vi m) (v + 2)) as [i2|] eqn:I2; [cbn [bind]|discriminate].
  destruct (get1 nl i0) as [n0|] eqn:G0; [cbn [bind]|discriminate].
  destruct (get1 nl i1) as [n1|] eqn:G1; [cbn [bind]|discriminate].
  destruct (get1 nl i2) as [n2|] eqn:G2; [cbn [bind]|discriminate].
  destruct (Reqb _ 0) eqn:D; Rb; intros [= <-];
    exists u0, v0, u1, v1, u2, v2, i0, i1, i2, n0, n1, n2; do 2 eexists;
    (do 7 (split; [first [reflexivity|assumption]|])); (split; [reflexivity|]); (split; [reflexivity|]).
  - intros N. contradiction.
  - intros _. destruct n0, n1, n2. split; unfold vsub, vadd, vscale, vmap, vmap2; cbn; apply V3_eq; cbn; field; exact D.
Qed.

(** *** Weingarten equations *)
Lemma weingarten_spec du dv uu uv vv : vcross du dv <> vzero ->
  let N := normalize (vcross du dv) in let '(nu, nv) := weingarten du dv uu uv vv in
  vdot nu du = - vdot N uu /\ vdot nu dv = - vdot N uv /\ vdot nv du = - vdot N uv /\ vdot nv dv = - vdot N vv /\
  vdot nu N = 0 /\ vdot nv N = 0.
Proof.
  intros NZ N. unfold weingarten. fold N.
  assert (D : vdot du du * vdot dv dv - vdot du dv * vdot du dv <> 0).
  { assert (L : vdot du du * vdot dv dv - vdot du dv * vdot du dv = vdot (vcross du dv) (vcross du dv)) by (destruct du, dv; unfold vdot, vcross; cbn; ring).
    rewrite L. intros Z0. apply NZ. destruct (vcross du dv) as [a b c]. unfold vdot in Z0; cbn in Z0. apply V3_eq; cbn; nra. }
  assert (O1 : vdot du N = 0). { rewrite vdot_comm0. apply normalize_dot0. destruct du, dv; unfold vdot, vcross; cbn; ring. }
  assert (O2 : vdot dv N = 0). { rewrite vdot_comm0. apply normalize_dot0. destruct du, dv; unfold vdot, vcross; cbn; ring. }
  assert (LIN : forall a b w, vdot (vadd (vscale a du) (vscale b dv)) w = a * vdot du w + b * vdot dv w).
  { intros. destruct du, dv, w. unfold vdot, vadd, vscale, vmap, vmap2; cbn; ring. }
  rewrite !LIN, O1, O2. rewrite (vdot_comm0 dv du).
  set (A := vdot du du) in *. set (B := vdot du dv) in *. set (C := vdot dv dv) in *.
  repeat split; try (field; exact D); ring.
Qed.

(** *** Bounds in object space *)
Lemma map_get1 {A B} (g : A -> B) (l : list A) i : get1 (map g l) i = match get1 l i with Ok a => Ok (g a) | Err e => Err e end.
Proof.
  unfold get1. rewrite map_length. destruct (np_index (length l) i) as [k|]; [cbn [bind]|reflexivity].
  rewrite nth_error_map. destruct (nth_error l k); reflexivity.
Qed.
Lemma mesh_object_eq b nt nv vi P N S uv al : base_ok b ->
  mesh_object_bound (mesh_make b nt nv vi P N S uv al) = mesh_world_bound (mesh_make (id_base (b_ro b)) nt nv vi P N S uv al).
Proof.
  intros Hb. unfold mesh_object_bound, mesh_world_bound, mesh_make. cbn [m_p m_nverts m_base b_w2o b_o2w id_base].
  generalize (Ok bbox_empty) as acc. induction (seq 0 nv) as [|i l IH]; intros acc; [reflexivity|]. cbn [fold_left]. rewrite IH. f_equal.
  destruct acc as [B|]; [cbn [bind]|reflexivity]. rewrite !map_get1. destruct (get1 P (Z.of_nat i)) as [p|]; [cbn [bind]|reflexivity].
  rewrite t_point_I. do 3 f_equal. destruct Hb as [Hb ->]. rewrite inv_point; [reflexivity|now apply built_valid].
Qed.
Lemma tri_object_eq b nt nv vi P N S uv al f : base_ok b ->
  tri_object_bound (mesh_make b nt nv vi P N S uv al) f = tri_world_bound (mesh_make (id_base (b_ro b)) nt nv vi P N S uv al) f.
Proof.
  intros Hb. unfold tri_object_bound, tri_world_bound, tri_vert, mesh_make. cbn [m_p m_vi m_base b_w2o b_o2w id_base].
  assert (G : forall i, get1 (map (t_point (b_o2w b)) P) i = match get1 P i with Ok a => Ok (t_point (b_o2w b) a) | Err e => Err e end) by (intros; apply map_get1).
  assert (G' : forall i, get1 (map (t_point t_identity) P) i = match get1 P i with Ok a => Ok (t_point t_identity a) | Err e => Err e end) by (intros; apply map_get1).
  assert (RT : forall p, t_point (b_w2o b) (t_point (b_o2w b) p) = t_point t_identity p).
  { intros p. rewrite t_point_I. destruct Hb as [Hb ->]. apply inv_point. now apply built_valid. }
  destruct (get1 vi (f + 0)) as [i0|]; [cbn [bind]|reflexivity]. rewrite G, G'. destruct (get1 P i0) as [a|]; [cbn [bind]|reflexivity].
  destruct (get1 vi (f + 1)) as [i1|]; [cbn [bind]|reflexivity]. rewrite G, G'. destruct (get1 P i1) as [c|]; [cbn [bind]|reflexivity].
  destruct (get1 vi (f + 2)) as [i2|]; [cbn [bind]|reflexivity]. rewrite G, G'. destruct (get1 P i2) as [d|]; [cbn [bind]|reflexivity].
  cbv zeta. now rewrite !RT.
Qed.

(** *** Normals returned with area samples *)
Lemma sample_normal b n0 : base_ok b -> n0 <> vzero ->
  let ns := normalize (t_normal (b_o2w b) n0) in let out := if b_ro b then vscale (-1) ns else ns in
  unit out /\ (forall w, vdot n0 w = 0 -> vdot out (t_vector (b_o2w b) w) = 0) /\
  (if b_ro b then vdot out (t_vector (b_o2w b) n0) < 0 else 0 < vdot out (t_vector (b_o2w b) n0)).
Proof.
  intros Hb NZ ns out. assert (V : tvalid (b_o2w b)) by (destruct Hb; now apply built_valid).
  assert (NZ' : t_normal (b_o2w b) n0 <> vzero).
  { intros Z0. pose proof (normal_perp (b_o2w b) n0 n0 V) as Q. rewrite Z0 in Q. apply NZ. destruct n0 as [x y z]. unfold vdot, vzero in Q; cbn in Q. apply V3_eq; cbn; nra. }
  destruct (normalize_dot_sign (t_normal (b_o2w b) n0) (t_vector (b_o2w b) n0) NZ') as (k & K & Dk).
  rewrite normal_perp in Dk by exact V. fold ns in Dk.
  assert (P0 : 0 < vdot n0 n0).
  { destruct (Rlt_dec 0 (vdot n0 n0)); [assumption|]. exfalso. apply NZ. destruct n0 as [x y z]. unfold vdot in *; cbn in *. apply V3_eq; cbn; nra. }
  assert (U : unit ns) by (now apply normalize_unit).
  assert (O : forall w, vdot n0 w = 0 -> vdot ns (t_vector (b_o2w b) w) = 0).
  { intros w W. apply normalize_dot0. now rewrite normal_perp. }
  assert (NEG : forall w, vdot (vscale (-1) ns) w = - vdot ns w) by (intros w; destruct ns, w; unfold vdot, vscale, vmap; cbn; ring).
  unfold out. destruct (b_ro b).
  - split; [unfold unit in *; destruct ns; cbn in *; lra|]. split; [intros w W; rewrite NEG, (O w W); ring|]. rewrite NEG, Dk. nra.
  - split; [exact U|]. split; [exact O|]. rewrite Dk. nra.
Qed.
