(** Proofs about whole scenes (C270 ...). *)
From Coq Require Import Reals Lra Lia List ZArith Bool Permutation.
From Verif Require Import Base M_MonteCarlo M_Aggregate M_Utility M_Spectrum M_Sampler M_Film.
From Verif Require Import M_Python M_Geometry S_Geometry P_Geometry M_Transform S_Transform P_Transform2 M_Shapes S_Shapes P_Normals P_Triangle P_Mesh P_Quadrics P_Orient
  M_BVH S_BVH P_BVHWit M_Reflection S_Reflection M_Light P_Light M_Primitive S_Scene P_Scene M_Material S_Material P_Material P_Material2
  M_Integrator S_Integrator S_Integrator2 P_Integrator2 M_World S_World.
From Verif Require Props_Integrator2 Props_Light.
Import ListNotations.
Open Scope R_scope.

(** ** What a query of the scene leaves behind *)
Section Record.
Variables (arr : list gprim) (r0 : ray) (i0 : isect).
Definition rec_ok (st : bool * ray * isect) : Prop :=
  let '(b, r, i) := st in (exists m, notnan m /\ r = ray_set_maxt r0 m) /\
  (b = true -> exists p h m, notnan m /\ In p arr /\ shape_intersect (gp_shape p) (ray_set_maxt r0 m) = Ok (Some h) /\
     r = ray_set_maxt r0 (Fin (h_t h)) /\ i = record_hit p h).
Lemma leaf_rec l : forall st st', rec_ok st -> sc_leaf (prim_at arr) l st = Ok st' -> rec_ok st'.
Proof.
  induction l as [|k l IH]; intros [[b r] i] st' HR; cbn [sc_leaf]; [now intros [= <-]|].
  unfold prim_at at 1. destruct (nth_error arr k) as [p|] eqn:EP; cbn [bind]; [|discriminate].
  unfold gp_intersect. destruct (shape_intersect (gp_shape p) r) as [[h|]|] eqn:SI; cbn [bind]; [| |discriminate].
  - apply IH. destruct HR as ((m & Nm & ->) & _). split; [exists (Fin (h_t h)); split; [discriminate|reflexivity]|]. intros _.
    exists p, h, m. split; [exact Nm|]. split; [now apply nth_error_In in EP|]. split; [exact SI|]. split; reflexivity.
  - apply IH. destruct b; exact HR.
Qed.
Lemma trav_rec fuel nodes : forall idx todo st st', rec_ok st ->
  sc_traverse fuel (prim_at arr) nodes idx todo st = Ok (Some st') -> rec_ok st'.
Proof.
  induction fuel as [|fuel IH]; intros idx todo [[b r] i] st' HR; cbn [sc_traverse]; [discriminate|].
  destruct (nth_error nodes idx) as [nd|]; [|discriminate].
  destruct (box_test _ r).
  - destruct (0 <? l_nprim nd)%nat.
    + destruct (sc_leaf _ _ _) as [st1|] eqn:E; cbn [bind]; [|discriminate]. apply leaf_rec in E; [|exact HR].
      destruct todo; [now intros [= <-]|now apply IH].
    + destruct (64 <=? length todo)%nat; [discriminate|]. destruct (Rltb _ 0); now apply IH.
  - destruct todo; [now intros [= <-]|now apply IH].
Qed.
End Record.

Lemma scene_arr mp prims nodes arr p : scene_make mp prims = Ok (Some (nodes, arr)) -> In p arr -> In p prims.
Proof.
  unfold scene_make. destruct (prim_bounds prims) as [bounds|] eqn:EB; cbn [bind]; [|discriminate].
  destruct (bvh_make SAH mp bounds) as [[[nodes' ordered]|]|] eqn:M; cbn [bind]; [| |discriminate]; [|discriminate].
  intros [= <- <-] H. apply in_map_iff in H as (k & <- & Hk).
  destruct (bvh_make_inv _ _ _ _ _ M) as (t & q & _ & _ & _ & _ & _ & _ & PO & _).
  apply (Permutation_in _ PO) in Hk. apply in_seq in Hk. apply nth_In.
  assert (L : forall l bs, prim_bounds l = Ok bs -> length bs = length l).
  { clear. induction l as [|a l IH]; intros bs; cbn [prim_bounds]; [intros [= <-]; reflexivity|].
    destruct (shape_bound _); cbn [bind]; [|discriminate]. destruct (prim_bounds l) eqn:E; cbn [bind]; [|discriminate].
    intros [= <-]. cbn. f_equal. now apply IH. }
  rewrite <- (L _ _ EB). lia.
Qed.

Lemma pairs_in items ns np g p : In (g, p) (all_pairs items ns np) -> exists it ns' np', In it items /\ In (g, p) (pairs_of it ns' np').
Proof.
  revert ns np. induction items as [|it l IH]; intros ns np; cbn [all_pairs]; [intros []|].
  destruct (full_refine_item it ns np) as [[ps ns'] np'] eqn:Ef. intros H. apply in_app_or in H as [H|H].
  - exists it, ns, np. split; [now left|exact H].
  - destruct (IH _ _ H) as (it' & a & b & Hi & Hj). exists it', a, b. split; [now right|exact Hj].
Qed.
(** a scene of acceptable objects can be built *)
Lemma scene_exists mp items ns np : (mp <= 4)%nat -> Forall (fun it => geom_ok (it_geom it)) items ->
  exists sc, scene_make mp (full_refine_items items ns np) = Ok sc.
Proof.
  intros Hmp Hok. destruct (prim_bounds_ok (all_pairs items ns np)) as (bounds & EB & _ & _).
  { intros g p H. destruct (pairs_in _ _ _ _ _ H) as (it & ns' & np' & Hi & Hj). pose proof (pairs_belong _ _ _ _ _ Hj) as (B1 & _ & _ & B4 & _).
    split; [exact B1|]. apply B4. rewrite Forall_forall in Hok. now apply Hok. }
  rewrite all_pairs_snd in EB. unfold scene_make. rewrite EB. cbn [bind].
  assert (Q : exists r, bvh_make SAH mp bounds = Ok r).
  { destruct bounds as [|b0 bl]; [eexists; reflexivity|]. destruct (bvh_make_total mp b0 bl Hmp) as (r & M & _). eauto. }
  destruct Q as (r & ->). cbn [bind]. destruct r as [[nodes ordered]|]; eauto.
Qed.
(** the record of a hit *)
Lemma hit_record mp items ns np sc fuel r0 i0 r' i' :
  scene_make mp (full_refine_items items ns np) = Ok sc -> scene_intersect fuel sc r0 i0 = Ok (Some (true, r', i')) ->
  notnan (rmaxt r0) ->
  exists it ns' np' g p h m, notnan m /\ In it items /\ In (g, p) (pairs_of it ns' np') /\
    shape_intersect (p_shape g) (ray_set_maxt r0 m) = Ok (Some h) /\ r' = ray_set_maxt r0 (Fin (h_t h)) /\ i' = record_hit p h.
Proof.
  intros SM SI NM. unfold scene_intersect in SI. destruct sc as [[nodes arr]|]; [|discriminate].
  assert (R0 : rec_ok arr r0 (false, r0, i0)).
  { split; [exists (rmaxt r0); split; [exact NM|destruct r0; reflexivity]|discriminate]. }
  pose proof (trav_rec _ _ _ _ _ _ _ _ R0 SI) as (_ & H). destruct (H eq_refl) as (p & h & m & Nm & Hp & HI & -> & ->).
  pose proof (scene_arr _ _ _ _ _ SM Hp) as Hq. rewrite <- all_pairs_snd in Hq. apply in_map_iff in Hq as ([g p'] & E & Hin).
  cbn [snd] in E. subst p'.
  destruct (pairs_in _ _ _ _ _ Hin) as (it & ns' & np' & Hi & Hj). pose proof (pairs_belong _ _ _ _ _ Hj) as (B1 & _). rewrite B1 in HI.
  exists it, ns', np', g, p, h, m. repeat (split; [assumption|]). split; reflexivity.
Qed.

Lemma tri_hit_fields ms v r h : tri_intersect ms v r = Ok (Some h) ->
  h_eps h = 0.001 * h_t h /\ dg_p (h_dg h) = ray_at r (h_t h) /\
  exists dpdu dpdv, dg_dpdu (h_dg h) = dpdu /\ dg_dpdv (h_dg h) = dpdv /\
    dg_nn (h_dg h) = vscale (if b_flip (m_base ms) then -1 else 1) (normalize (vcross dpdu dpdv)).
Proof.
  unfold tri_intersect. destruct (tri_vert ms v 0); cbn [bind]; [|discriminate]. destruct (tri_vert ms v 1); cbn [bind]; [|discriminate].
  destruct (tri_vert ms v 2); cbn [bind]; [|discriminate]. cbv zeta.
  repeat (match goal with |- (if ?x then _ else _) = _ -> _ => destruct x; [discriminate|] end).
  destruct (tri_uvs ms v) as [[[[u0 v0] [u1 v1]] [u2 v2]]|]; cbn [bind]; [|discriminate].
  match goal with |- (if ?x then _ else _) = _ -> _ => destruct x; [discriminate|] end.
  intros [= <-]. cbn [h_eps h_t h_dg]. split; [reflexivity|]. unfold tri_dg. cbv zeta.
  match goal with |- context [let '(_, _) := ?x in _] => destruct x as [du dv] end.
  unfold dg_make; cbn [dg_p dg_dpdu dg_dpdv dg_nn]. split; [reflexivity|]. eexists _, _. split; [reflexivity|]. split; [reflexivity|].
  destruct (b_flip (m_base ms)); [reflexivity|]. destruct (normalize (vcross du dv)). unfold vscale, vmap; cbn. f_equal; ring.
Qed.

(** more steps do not change an answer *)
Lemma trav_mono fuel ps nodes : forall idx todo st x, sc_traverse fuel ps nodes idx todo st = Ok (Some x) ->
  forall fuel', (fuel <= fuel')%nat -> sc_traverse fuel' ps nodes idx todo st = Ok (Some x).
Proof.
  induction fuel as [|fuel IH]; intros idx todo [[b r] i] x; cbn [sc_traverse]; [discriminate|].
  intros H [|fuel'] L; [lia|]. cbn [sc_traverse]. apply le_S_n in L.
  destruct (nth_error nodes idx) as [nd|]; [|discriminate].
  destruct (box_test _ r).
  - destruct (0 <? l_nprim nd)%nat.
    + destruct (sc_leaf _ _ _) as [st1|] eqn:E; cbn [bind] in *; [|discriminate].
      destruct todo; [exact H|now apply IH].
    + destruct (64 <=? length todo)%nat; [discriminate|]. destruct (Rltb _ 0); now apply IH.
  - destruct todo; [exact H|now apply IH].
Qed.
Lemma scene_mono fuel sc r i x : scene_intersect fuel sc r i = Ok (Some x) ->
  forall fuel', (fuel <= fuel')%nat -> scene_intersect fuel' sc r i = Ok (Some x).
Proof. unfold scene_intersect. destruct sc as [[nodes arr]|]; intros H f' L; [|exact H]. eapply trav_mono; eauto. Qed.

(** ** Diffuse surfaces *)

Lemma comp_diff_nn g r : dg_nn (compute_differential g r) = dg_nn g /\ dg_p (compute_differential g r) = dg_p g /\
  dg_dpdu (compute_differential g r) = dg_dpdu g /\ dg_dpdv (compute_differential g r) = dg_dpdv g.
Proof.
  unfold compute_differential. destruct (rd_has r); [|auto].
  repeat match goal with |- context [dg_solve ?a ?b] => destruct (dg_solve a b) end. auto.
Qed.
Lemma flip_copy (flip : bool) g s du dv : dg_dpdu s = du -> dg_dpdv s = dv ->
  dg_nn g = vscale (if flip then -1 else 1) (normalize (vcross du dv)) -> dg_nn (dg_copy flip s) = dg_nn g.
Proof.
  intros <- <- ->. unfold dg_copy, dg_make; cbn [dg_nn]. destruct flip; [reflexivity|].
  destruct (normalize _). unfold vscale, vmap; cbn. f_equal; ring.
Qed.
Lemma diffuse_bsdf w colour p h r : diffuse_mats (w_mats w) colour ->
  let flip := b_flip (shape_base (gp_shape p)) in
  (exists du dv, dg_dpdu (h_dg h) = du /\ dg_dpdv (h_dg h) = dv /\
     dg_nn (h_dg h) = vscale (if flip then -1 else 1) (normalize (vcross du dv))) ->
  (forall g, shape_shading (gp_shape p) g = Ok g \/ shape_shading (gp_shape p) g = Ok (dg_copy flip g)) ->
  exists bs, world_bsdf w (record_hit p h) r = Ok bs /\ bs_nn bs = dg_nn (h_dg h) /\
    n_components bs (Z.lor REFLECTION SPECULAR) = 0%nat /\ n_components bs (Z.lor TRANSMISSION SPECULAR) = 0%nat /\
    forall wo wi,
     (same_side (dg_nn (h_dg h)) wo wi -> bsdf_f bs wo wi ALL = Ok (vscale (1 / PI) (positive_part (colour (gp_material p))))) /\
     (~ same_side (dg_nn (h_dg h)) wo wi -> bsdf_f bs wo wi ALL = Ok vzero).
Proof.
  intros DM flip (du & dv & E1 & E2 & EN) HS.
  unfold world_bsdf, record_hit; cbn [is_prim is_dg gp_material gp_shape]. destruct (DM (gp_material p)) as (kd & sg & -> & KD & SG).
  unfold isect_bsdf. set (g := compute_differential (h_dg h) r). destruct (comp_diff_nn (h_dg h) r) as (D1 & D2 & D3 & D4).
  fold g in D1, D2, D3, D4. fold flip.
  assert (SH : exists s, shape_shading (gp_shape p) g = Ok s /\ dg_dpdu s = du /\ dg_dpdv s = dv).
  { destruct (HS g) as [-> | ->]; eexists; (split; [reflexivity|]); split; try congruence;
      unfold dg_copy, dg_make; cbn [dg_dpdu dg_dpdv]; congruence. }
  destruct SH as (s & -> & S1 & S2). cbn [bind].
  destruct (matte_lambert kd sg flip g s (mkV 0 0 1) (mkV 0 0 1) (SG _)) as (bs & GB & _).
  exists bs. split; [exact GB|].
  assert (F : forall wo wi, (same_side (dg_nn g) wo wi -> bsdf_f bs wo wi ALL = Ok (vscale (1 / PI) (positive_part (colour (gp_material p))))) /\
     (~ same_side (dg_nn g) wo wi -> bsdf_f bs wo wi ALL = Ok vzero)).
  { intros wo wi. destruct (matte_lambert kd sg flip g s wo wi (SG _)) as (bs' & GB' & A).
    rewrite GB in GB'. injection GB' as <-. rewrite KD in A. exact A. }
  rewrite D1 in F. split; [|split; [|split; [|exact F]]].
  - cbn [get_bsdf shading bind] in GB. injection GB as <-. unfold push_back, bsdf_make; cbn [bs_nn].
    apply (flip_copy _ (h_dg h) s du dv); [exact S1|exact S2|]. exact EN.
  - cbn [get_bsdf shading bind] in GB. injection GB as <-. unfold push_back, bsdf_make, n_components; cbn [bs_bdfs app].
    destruct (Reqb _ _); reflexivity.
  - cbn [get_bsdf shading bind] in GB. injection GB as <-. unfold push_back, bsdf_make, n_components; cbn [bs_bdfs app].
    destruct (Reqb _ _); reflexivity.
Qed.

(** ** The geometry of a hit *)
Lemma flip_sign (flip : bool) v : (if flip then vscale (-1) v else v) = vscale (if flip then -1 else 1) v.
Proof. destruct flip; [reflexivity|]. destruct v. unfold vscale, vmap; cbn. f_equal; ring. Qed.
Lemma phi_max_pos pm : 0 < pm -> 0 < phi_max_of pm.
Proof.
  intros H. unfold phi_max_of, deg2rad. apply Rmult_lt_0_compat; [|pose proof PI_RGT_0; lra].
  unfold clip, Rmin, Rmax. repeat destruct (Rle_dec _ _); lra.
Qed.
Lemma acos_lt x y : -1 <= x <= 1 -> -1 <= y <= 1 -> x < y -> acos y < acos x.
Proof.
  intros HX HY L. destruct (Rlt_le_dec (acos y) (acos x)) as [Q|Q]; [exact Q|exfalso].
  pose proof (acos_bound x). pose proof (acos_bound y).
  assert (cos (acos y) <= cos (acos x)) by (apply cos_decr_1; lra). rewrite !cos_acos in * by lra. lra.
Qed.
Lemma sphere_angles b rad z0 z1 pm : 0 < rad -> 0 < pm -> z0 <> z1 -> Rmin z0 z1 < rad -> - rad < Rmax z0 z1 ->
  let s := sphere_make b rad z0 z1 pm in 0 < sp_phimax s /\ sp_tmax s < sp_tmin s.
Proof.
  intros HR HP NZ H1 H2 s. split.
  - unfold s, sphere_make; cbn [sp_phimax]. now apply phi_max_pos.
  - unfold s, sphere_make; cbn [sp_tmax sp_tmin].
    assert (EN : pmin z0 z1 = Rmin z0 z1) by (unfold pmin, Rmin; destruct (Rle_dec z0 z1); Rcase; lra).
    assert (EX : pmax z0 z1 = Rmax z0 z1) by (unfold pmax, Rmax; destruct (Rle_dec z0 z1); Rcase; lra).
    rewrite EN, EX.
    assert (ZN : clip (Rmin z0 z1) (- rad) rad < clip (Rmax z0 z1) (- rad) rad).
    { unfold clip. unfold Rmin in *; unfold Rmax in *. repeat destruct (Rle_dec _ _); lra. }
    pose proof (clip_range (Rmin z0 z1) (- rad) rad ltac:(lra)) as C1. pose proof (clip_range (Rmax z0 z1) (- rad) rad ltac:(lra)) as C2.
    set (x := clip (Rmin z0 z1) (- rad) rad) in *. set (y := clip (Rmax z0 z1) (- rad) rad) in *.
    assert (X1 : -1 <= x / rad <= 1) by (split; [apply Rmult_le_reg_r with rad|apply Rmult_le_reg_r with rad]; try lra; unfold Rdiv; rewrite Rmult_assoc, Rinv_l; lra).
    assert (Y1 : -1 <= y / rad <= 1) by (split; [apply Rmult_le_reg_r with rad|apply Rmult_le_reg_r with rad]; try lra; unfold Rdiv; rewrite Rmult_assoc, Rinv_l; lra).
    assert (XY : x / rad < y / rad) by (apply Rmult_lt_compat_r; [apply Rinv_0_lt_compat|]; lra).
    assert (CX : clip (x / rad) (-1) 1 = x / rad) by (unfold clip; rewrite Rmax_left by lra; apply Rmin_left; lra).
    assert (CY : clip (y / rad) (-1) 1 = y / rad) by (unfold clip; rewrite Rmax_left by lra; apply Rmin_left; lra).
    rewrite CX, CY. now apply acos_lt.
Qed.
Lemma hit_facts it ns np g p h m r0 : plain_item it -> geom_ok (it_geom it) -> In (g, p) (pairs_of it ns np) -> notnan m ->
  notnan (rmint r0) -> avoids_centre r0 (it_geom it) ->
  (forall t, touches (it_geom it) r0 t -> match it_geom it with
     GSphere b _ _ _ _ => let q := t_point (b_w2o b) (ray_at r0 t) in vx q <> 0 \/ vy q <> 0 | _ => True end) ->
  shape_intersect (p_shape g) (ray_set_maxt r0 m) = Ok (Some h) ->
  touches (it_geom it) r0 (h_t h) /\ h_eps h = offset_at (it_geom it) (h_t h) /\ dg_p (h_dg h) = ray_at r0 (h_t h) /\
  surface_normal (it_geom it) (ray_at r0 (h_t h)) (dg_nn (h_dg h)) /\
  (exists du dv, dg_dpdu (h_dg h) = du /\ dg_dpdv (h_dg h) = dv /\
     dg_nn (h_dg h) = vscale (if b_flip (shape_base (gp_shape p)) then -1 else 1) (normalize (vcross du dv))) /\
  (forall g0, shape_shading (gp_shape p) g0 = Ok g0 \/ shape_shading (gp_shape p) g0 = Ok (dg_copy (b_flip (shape_base (gp_shape p))) g0)) /\
  gp_material p = it_material it /\ gp_light p = None.
Proof.
  intros (LN & PI0) GO HP Nm Hm AV OP HI. pose proof (pairs_belong _ _ _ _ _ HP) as (B1 & B2 & B3 & B4 & B5 & B6 & _).
  rewrite LN in B3. pose proof (p_contract_ok g r0 (B4 GO) Hm (B5 _ AV) m Nm) as C. cbv zeta in C. rewrite HI in C.
  destruct C as (PT & _ & _ & _ & PP & _).
  assert (TI : touches (it_geom it) r0 (h_t h)).
  { apply B6; [|exact PT]. destruct (it_geom it); [apply GO|reflexivity|reflexivity]. }
  split; [exact TI|]. specialize (OP _ TI). rewrite B1. clear B4 B5 B6.
  unfold pairs_of in HP. destruct (it_geom it) as [b vi P N T uv|b rad z0 z1 pm|b hh rad ri pm] eqn:EG; cbv zeta in HP.
  - apply in_rev in HP. apply in_map_iff in HP as (f & E & Hf). injection E as <- _. cbn [p_shape shape_base] in *.
    cbn [shape_intersect] in HI. destruct (tri_hit_fields _ _ _ _ HI) as (FE & FP & FN). destruct GO as (_ & O2 & _).
    apply in_seq in Hf. assert (Hf' : (3 * f + 2 < length vi)%nat) by (apply div3; lia).
    destruct (tri_normal_of_hit b (length vi / 3) (length P) vi P N T uv None f _ h O2 Hf' HI) as (U & P1 & P2).
    split; [exact FE|]. split; [exact PP|]. split.
    { split; [exact U|]. exists f. split; [exact Hf'|]. cbv zeta. split; [apply PT|]. split; [exact P1|exact P2]. }
    split; [exact FN|]. split; [|split; assumption].
    intros g0. left. unfold shape_shading, tri_shading, mesh_make; cbn [m_n m_s]. destruct PI0 as [-> | ->]; [reflexivity|]. now destruct N.
  - destruct HP as [E|[]]. injection E as <- _. cbn [p_shape shape_base] in *. cbn [shape_intersect] in HI.
    destruct GO as (Hb & _ & HR). destruct PI0 as (Q1 & Q2 & Q3 & Q4).
    destruct (sphere_angles b rad z0 z1 pm HR Q1 Q2 Q3 Q4) as (A1 & A2).
    pose proof (sphere_make_ok b rad z0 z1 pm HR) as SO. set (s := sphere_make b rad z0 z1 pm) in *.
    assert (HI' : sphere_intersect s (ray_set_maxt r0 m) = Some h) by (injection HI as HI; exact HI).
    pose proof (sphere_normal s (ray_set_maxt r0 m) h SO Hb Hm Nm A1 ltac:(lra) HI') as SN. cbv zeta in SN.
    rewrite ray_at_set in SN. specialize (SN OP).
    destruct (sphere_hit_obj s (ray_set_maxt r0 m) h SO Hb Hm Nm HI') as (SD & _); [exact OP|]. rewrite ray_at_set in SD.
    assert (FE : h_eps h = EPS * h_t h).
    { unfold sphere_intersect in HI'. destruct (sphere_find s _) as [[t q]|]; [|discriminate]. injection HI' as <-. reflexivity. }
    split; [rewrite FE; unfold offset_at, EPS; field|].
    assert (G : forall q, exists du dv a c u v, sphere_dg s q = dg_make (b_flip b) (t_point (b_o2w b) q) du dv a c u v).
    { intros q. unfold sphere_dg. cbv zeta. destruct (weingarten _ _ _ _ _) as [dn1 dn2]. do 6 eexists. reflexivity. }
    destruct (G (t_point (b_w2o b) (ray_at r0 (h_t h)))) as (du & dv & a & c & u & v & EG').
    change (b_w2o (sp_base s)) with (b_w2o b) in SD. rewrite EG' in SD.
    split; [rewrite SD; unfold dg_make; cbn [dg_p]; now apply base_round|].
    split; [exact SN|]. split; [|split; [intros g0; now right|split; assumption]].
    exists du, dv. rewrite SD. unfold dg_make; cbn [dg_dpdu dg_dpdv dg_nn]. split; [reflexivity|]. split; [reflexivity|]. apply flip_sign.
  - destruct HP as [E|[]]. injection E as <- _. cbn [p_shape shape_base] in *. cbn [shape_intersect] in HI.
    destruct GO as (Hb & _ & HR). destruct PI0 as (Q1 & Q2).
    destruct (disk_oriented (disk_make b hh rad ri pm) (ray_set_maxt r0 m) h) as (U & W & _);
      [unfold disk_make; cbn [dk_phimax]; split; [now apply phi_max_pos|apply phi_max_range]|exact Q2|exact Hb|exact Hm|exact Nm|exact HI|].
    unfold disk_intersect in HI. destruct (disk_find _ _) as [[t q]|]; [|discriminate].
    destruct (disk_dg _ q) as [dg|] eqn:ED; [|discriminate]. cbn [bind] in HI. injection HI as <-. cbn [h_t h_dg h_eps] in *.
    split; [unfold offset_at, EPS; field|]. split; [exact PP|]. split; [split; [exact U|exact W]|].
    split; [|split; [intros g0; now right|split; assumption]].
    unfold disk_dg in ED. cbv zeta in ED. destruct (Rleb _ _); [discriminate|]. injection ED as <-.
    eexists _, _. unfold dg_make; cbn [dg_dpdu dg_dpdv dg_nn]. split; [reflexivity|]. split; [reflexivity|]. apply flip_sign.
Qed.

(** ** Lamps *)
Lemma dist_pos p q : q <> p -> 0 < dist p q.
Proof. intros H. unfold dist. now apply vlength_vsub_pos. Qed.
Lemma lamp_sample l p eps a time : lp_pos l <> p ->
  exists vis, lt_sample (lamp_light l) p eps a time = Ok (vscale (/ dist p (lp_pos l) ^ 2) (lp_i l), dir p (lp_pos l), 1, vis) /\
    lray_ray vis = sight p (lp_pos l) eps time.
Proof.
  intros H. pose proof (dist_pos p _ H) as D. exists (set_segment p eps (lp_pos l) 0 time).
  unfold lamp_light, point_light; cbn [lt_sample]. unfold point_sample_l; cbn [ls_L ls_wi ls_pdf ls_vis].
  rewrite Props_Light.pos_translate. split.
  - f_equal. f_equal. f_equal. f_equal.
    + unfold sdiv, vscale, vmap, fin_part; cbn [vx vy vz].
      replace (sq_length (vsub (lp_pos l) p)) with (dist p (lp_pos l) ^ 2) by (unfold dist; rewrite <- vlength_sq; ring).
      apply V3_eq; cbn; field; lra.
    + destruct (toward p (lp_pos l) (not_eq_sym H)) as (_ & T). unfold dir.
      unfold normalize. unfold dist in *. destruct (Reqb (vlength (vsub (lp_pos l) p)) 0) eqn:Q; [Rb; lra|].
      unfold sdiv, vscale, vmap. apply V3_eq; cbn; field; lra.
  - unfold lray_ray, sight, set_segment; cbn [l_o l_d l_mint l_maxt l_time].
    rewrite vlength_vsub_sym. fold (dist p (lp_pos l)). f_equal; [|f_equal; ring].
    unfold dir, vscale, vmap. apply V3_eq; cbn; field; lra.
Qed.

Lemma choose_list {A B} (P : nat -> A -> B -> Prop) (l : list A) : (forall j a, nth_error l j = Some a -> exists b, P j a b) ->
  exists xs, length xs = length l /\ forall j a x, nth_error l j = Some a -> nth_error xs j = Some x -> P j a x.
Proof.
  revert P. induction l as [|a l IH]; intros P H.
  - exists []. split; [reflexivity|]. intros [|j] a x; discriminate.
  - destruct (H 0%nat a eq_refl) as (b & Hb). destruct (IH (fun j => P (S j))) as (xs & L & K).
    { intros j a' Q. exact (H (S j) a' Q). }
    exists (b :: xs). split; [cbn; congruence|]. intros [|j] a' x; cbn [nth_error].
    + intros [= <-] [= <-]. exact Hb.
    + apply K.
Qed.
Lemma bright_dec s : {bright s} + {~ bright s}.
Proof.
  unfold bright. destruct (Rle_dec (/ 100000) (vx s)); [now left; left|]. destruct (Rle_dec (/ 100000) (vy s)); [now left; right; left|].
  destruct (Rle_dec (/ 100000) (vz s)); [now left; right; right|]. right. intros [?|[?|?]]; contradiction.
Qed.
Lemma dark_zero : ~ bright vzero.
Proof. unfold bright, vzero; cbn. lra. Qed.
Lemma side_dec n a b : {same_side n a b} + {~ same_side n a b}.
Proof. unfold same_side. destruct (Rlt_dec 0 (vdot a n * vdot b n)); [now left|now right]. Qed.

Lemma lamp_contrib (e : env isect) kd p n wo eps time b l a blocked : lp_pos l <> p ->
  (forall vis, lray_ray vis = sight p (lp_pos l) eps time -> hit_p e vis = blocked) ->
  (forall wi, (same_side n wo wi -> bsdf_f b wo wi ALL = Ok (vscale (1 / PI) (positive_part kd))) /\
     (~ same_side n wo wi -> bsdf_f b wo wi ALL = Ok vzero)) ->
  exists x, whitted_contrib e p n wo eps time b (lamp_light l) a x /\ diffuse_from kd p n wo l blocked x.
Proof.
  intros NE HB HF. destruct (lamp_sample l p eps a time NE) as (vis & LS & SV). specialize (HB vis SV).
  unfold whitted_contrib, diffuse_from. cbv zeta. set (e0 := vscale (/ dist p (lp_pos l) ^ 2) (lp_i l)) in *. set (w := dir p (lp_pos l)) in *.
  replace (vscale (/ PI) (positive_part kd)) with (vscale (1 / PI) (positive_part kd))
    by (f_equal; field; pose proof PI_RGT_0; lra).
  set (f := vscale (1 / PI) (positive_part kd)) in *.
  destruct (bright_dec e0) as [B0|B0].
  2:{ exists vzero. split; [|right; auto]. exists e0, w, 1, vis. split; [exact LS|]. right. auto. }
  destruct (side_dec n wo w) as [SS|SS].
  2:{ exists vzero. split; [|right; auto]. exists e0, w, 1, vis. split; [exact LS|]. left. split; [exact B0|]. split; [lra|].
      exists vzero. split; [now apply (proj2 (HF w))|]. right. split; [left; apply dark_zero|reflexivity]. }
  destruct (bright_dec f) as [B1|B1].
  2:{ exists vzero. split; [|right; auto]. exists e0, w, 1, vis. split; [exact LS|]. left. split; [exact B0|]. split; [lra|].
      exists f. split; [now apply (proj1 (HF w))|]. right. auto. }
  destruct blocked.
  - exists vzero. split; [|right; auto]. exists e0, w, 1, vis. split; [exact LS|]. left. split; [exact B0|]. split; [lra|].
    exists f. split; [now apply (proj1 (HF w))|]. right. auto.
  - exists (vscale (Rabs (vdot w n)) (smul f e0)). split; [|left; auto].
    exists e0, w, 1, vis. split; [exact LS|]. left. split; [exact B0|]. split; [lra|].
    exists f. split; [now apply (proj1 (HF w))|]. left. split; [exact B1|]. split; [exact HB|].
    f_equal. field.
Qed.

(** a surface without specular lobes reflects nothing specularly *)
Lemma no_specular (e : env isect) u rec (tr : bool) r b p n i k : n_components b (Z.lor (if tr then TRANSMISSION else REFLECTION) SPECULAR) = 0%nat ->
  specular e u rec tr r b p n i k = Some (Ok (spec 0, i, S (S (S k)), 0%nat)).
Proof.
  intros H. unfold specular, smp_from_rand. unfold bsdf_sample. rewrite H. cbn [Nat.eqb sm_pdf].
  replace (Rltb 0 0) with false by (symmetry; apply Rltb_false; lra). reflexivity.
Qed.

Section Lit.
Variables (mp : nat) (items : list item) (ns np : Z) (colour : nat -> vec) (lamps : list lamp) (r : raydiff).
Let prims := full_refine_items items ns np.
Hypothesis Hmp : (mp <= 4)%nat.
Hypothesis Hok : Forall (fun it => geom_ok (it_geom it)) items.
Hypothesis Hpm : forall it, In it items -> plain_item it.
Hypothesis Hfit : (length prims <= 65)%nat \/ forall bounds t o n, prim_bounds prims = Ok bounds ->
  bvh_build SAH mp bounds = Ok (t, o, n) -> (theight t <= 64)%nat.
Hypothesis Hray : clear_ray items prims (rd_ray r).
Hypothesis Hpole : off_poles items (rd_ray r).
Hypothesis Hsight : forall it t l, In it items -> touches (it_geom it) (rd_ray r) t -> In l lamps ->
  lp_pos l <> ray_at (rd_ray r) t /\ clear_ray items prims (sight (ray_at (rd_ray r) t) (lp_pos l) (offset_at (it_geom it) t) (rtime (rd_ray r))).

Lemma sight_steps p (ls : list lamp) eps time : (forall l, In l ls -> clear_ray items prims (sight p (lp_pos l) eps time)) ->
  forall sc, scene_make mp prims = Ok sc ->
  forall fuel l, (scene_size sc <= fuel)%nat -> In l ls ->
    exists b, scene_intersect_p fuel sc (sight p (lp_pos l) eps time) = Ok (Some b) /\ scene_any items (sight p (lp_pos l) eps time) b.
Proof.
  intros H sc SM fuel l LF Hl.
  destruct (H l Hl) as ((A1 & A2 & A3 & A4) & AV).
  destruct (scene_any_sized mp items ns np _ Hmp Hok AV A1 A2 A3 A4 Hfit) as (sc' & SM' & K2).
  fold prims in SM'. rewrite SM in SM'. injection SM' as <-. now apply K2.
Qed.

Theorem lit_main u md time k : rtime (rd_ray r) = time -> forall mats diffs, diffuse_mats mats colour ->
  exists sc, scene_make mp prims = Ok sc /\ forall fuel depth, (scene_size sc <= fuel)%nat -> (0 < depth)%nat ->
    exists L T i k' c, whitted (mkW sc mats (map lamp_light lamps) fuel diffs) u md time depth r k = Some (Ok (L, T, i, k', c)) /\
      shown items colour lamps (rd_ray r) L.
Proof.
  intros HT mats diffs DM. set (r0 := rd_ray r) in *. destruct Hray as ((A1 & A2 & A3 & A4) & AV).
  destruct (scene_nearest_sized mp items ns np r0 Hmp Hok AV A1 A2 A3 A4 Hfit) as (sc & SM & K).
  set (s0 := scene_size sc) in *.
  fold prims in SM. exists sc. destruct (K isect_new s0 (le_n _)) as (found & r' & i' & SI & SN).
  assert (EH : forall fuel, (s0 <= fuel)%nat -> scene_intersect fuel sc r0 isect_new = Ok (Some (found, r', i'))).
  { intros fuel L. eapply scene_mono; eauto. }
  destruct found.
  2:{ split; [exact SM|]. intros fuel [|depth] L1 L2; [lia|]. destruct SN as (-> & -> & SN).
      unfold whitted. cbn [renderer_li]. unfold rtm. fold r0. rewrite HT.
      replace (Reqb time time) with true by (symmetry; now apply Reqb_true). cbn [negb].
      unfold env_of at 1; cbn [hit]. unfold world_hit; cbn [w_fuel w_scene]. fold r0. rewrite (EH fuel L1).
      cbn [obind vol env_of]. eexists _, _, _, _, _. split; [reflexivity|]. left. split; [|exact SN].
      unfold sum_le, env_of; cbn [lights w_lights]. clear.
      assert (Z0 : forall l a, a = vzero -> fold_left (fun acc l0 => vadd acc (smul (spec 1) (lt_le l0 (rd_with r r0)))) (map lamp_light l) a = vzero).
      { induction l as [|x l IH]; intros a Ha; cbn [map fold_left]; [exact Ha|]. apply IH. subst a.
        unfold lamp_light, point_light, base_le; cbn [lt_le]. unfold vadd, smul, spec, vzero, vmap2; cbn. apply V3_eq; cbn; ring. }
      apply Z0. reflexivity. }
  destruct SN as (it1 & t & dg & Hi1 & HR & T1 & L1 & L2 & Hmin & _).
  destruct (hit_record mp items ns np sc s0 r0 isect_new r' i' SM SI A3) as
    (it & ns' & np' & g & gp & h & m & Nm & Hi & HP & TI & HR' & ->).
  assert (Et : t = h_t h). { rewrite HR' in HR. apply (f_equal rmaxt) in HR. cbn in HR. congruence. }
  destruct (hit_facts it ns' np' g gp h m r0 (Hpm it Hi)) as (TI' & FE & FP & SNN & FN & FS & EM & EL);
    [rewrite Forall_forall in Hok; now apply Hok|exact HP|exact Nm|exact A2|rewrite Forall_forall in AV; now apply AV|
     intros t' TT; exact (Hpole it t' Hi TT)|exact TI|].
  rewrite <- Et in TI', FE, FP, SNN.
  set (p := ray_at r0 t) in *.
  pose proof (fun H => sight_steps p lamps (offset_at (it_geom it) t) (rtime r0) H sc SM) as K1.
  specialize (K1 (fun l Hl => proj2 (Hsight it t l Hi TI' Hl))). fold s0 in K1.
  split; [exact SM|]. intros fuel [|depth] LF LD; [lia|].
  set (w := mkW sc mats (map lamp_light lamps) fuel diffs).
  set (i := record_hit _ h) in *.
  destruct (diffuse_bsdf w colour gp h (rd_with r r') DM FN FS) as (bs & WB & BN & N1 & N2 & BF).
  fold i in WB. rewrite EM in BF.
  set (n := dg_nn (h_dg h)) in *.
  unfold whitted. cbn [renderer_li]. unfold rtm. fold r0. rewrite HT.
  replace (Reqb time time) with true by (symmetry; now apply Reqb_true). cbn [negb].
  unfold env_of at 1; cbn [hit]. unfold world_hit; cbn [w w_fuel w_scene]. fold r0. rewrite (EH fuel ltac:(lia)).
  unfold surf_li. cbn [env_of v_bsdf b_dgs_nn]. fold w. rewrite WB. cbn [bind].
  assert (EP : isect_p i = p). { unfold isect_p, i, record_hit; cbn [is_dg]. exact FP. }
  rewrite EP, BN.
  assert (RD : rdir (rd_with r r') = rd r0). { unfold rdir, rd_with; cbn [rd_ray]. rewrite HR. reflexivity. }
  assert (RT : rtime (rd_ray (rd_with r r')) = rtime r0). { cbn [rd_with rd_ray]. rewrite HR. reflexivity. }
  rewrite RD.
  destruct (choose_list (fun j l x =>
     whitted_contrib (env_of w) p n (vneg (rd r0)) (offset_at (it_geom it) t) (rtime r0) bs (lamp_light l) (random3 u (k + 3 * j)) x /\
     exists blocked, scene_any items (sight p (lp_pos l) (offset_at (it_geom it) t) (rtime r0)) blocked /\
       diffuse_from (colour (it_material it)) p n (vneg (rd r0)) l blocked x) lamps) as (xs & LX & HX).
  { intros j l Hj. apply nth_error_In in Hj. destruct (K1 fuel l ltac:(lia) Hj) as (blk & SP & SA).
    destruct (lamp_contrib (env_of w) (colour (it_material it)) p n (vneg (rd r0)) (offset_at (it_geom it) t) (rtime r0) bs l (random3 u (k + 3 * j)) blk) as (x & X1 & X2).
    - exact (proj1 (Hsight it t l Hi TI' Hj)).
    - intros vis SV. cbn [env_of hit_p]. unfold world_hit_p. rewrite SV. cbn [w w_fuel w_scene]. now rewrite SP.
    - intros wi. exact (BF _ wi).
    - exists x. split; [exact X1|]. exists blk. auto. }
  assert (WL : whitted_local (env_of w) u i (rd_with r r') p n (vneg (rd r0)) bs k = Ok (vsum xs, (k + 3 * length lamps)%nat)).
  { apply (Props_Integrator2.C131_whitted_sum isect (env_of w) u i (rd_with r r') p n (vneg (rd r0)) bs k _ _ eq_refl).
    exists xs. cbn [env_of lights w w_lights]. rewrite map_length. split; [exact LX|]. split; [reflexivity|]. split; [reflexivity|].
    intros j l x Hj Hx. rewrite nth_error_map in Hj. destruct (nth_error lamps j) as [l0|] eqn:Ej; [|discriminate].
    injection Hj as <-. cbn [v_eps env_of]. unfold i, record_hit; cbn [is_eps]. rewrite RT, FE. apply (HX j l0 x Ej Hx). }
  rewrite WL.
  assert (LE : v_le (env_of w) i (vneg (rd r0)) = spec 0) by (cbn [env_of v_le]; unfold world_le, i, record_hit, isect_le; cbn [is_prim gp_light]; now rewrite EL).
  fold w. rewrite ?LE.
  assert (SH : shown items colour lamps r0 (vsum xs)).
  { right. exists it, t, n, xs. fold p. do 5 (split; [assumption|]). split.
    - exact SNN.
    - split; [exact LX|]. split; [reflexivity|]. intros j l x Hj Hx. exact (proj2 (HX j l x Hj Hx)). }
  assert (S0 : vadd (spec 0) (vsum xs) = vsum xs) by apply vadd_spec0.
  rewrite S0. change (vol (env_of w)) with (@None ((raydiff -> nat -> vec * vec * nat) * (raydiff + lray -> nat -> vec * nat))).
  destruct (_ <? md)%Z.
  - rewrite (no_specular _ _ _ false) by exact N1. cbn [obind]. rewrite (no_specular _ _ _ true) by exact N2. cbn [obind vol].
    assert (V0 : forall v, vadd (vadd v (spec 0)) (spec 0) = v).
    { intros v. unfold vadd, spec, vmap2. apply V3_eq; cbn; ring. }
    rewrite V0. eexists _, _, _, _, _. split; [reflexivity|exact SH].
  - cbn [obind vol]. eexists _, _, _, _, _. split; [reflexivity|exact SH].
Qed.
End Lit.
