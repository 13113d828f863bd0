(** Property theorems C274-C275 (pictures of whole scenes).  Vocabulary: S_Picture.v, S_World.v, S_Film.v, S_Sampler.v. *)
From Coq Require Import Reals Lra Lia List ZArith Bool Permutation.
From Flocq Require Import Core.Raux.
From Verif Require Import Base M_MonteCarlo M_Aggregate M_Utility M_Spectrum M_Sampler S_Sampler M_Film S_Film.
From Verif Require Import M_Geometry S_Geometry P_Geometry P_LobeSampling M_Transform S_Transform P_Transform P_Transform2 M_Shapes S_Shapes P_ShapesMore M_BVH S_BVH
  M_Reflection S_Reflection M_Light M_Primitive S_Scene P_Scene P_Scene2 M_Material S_Material M_Integrator S_Integrator S_Integrator2 M_World S_World P_World
  P_World2 Props_Scene Props_World M_Renderer M_Render P_Render Props_Render S_Picture P_Picture M_World2 M_Camera S_Camera P_Camera.
Import ListNotations.
Open Scope R_scope.

(** C274: a render during which nothing raises produces a picture of what its samples saw: every pixel of the film is
    the filter-weighted mean of the radiances the samples report, where every pixel of the sample window got its
    samples, inside the pixel. *)
Theorem C274_picture (W : Type) (cam : sample -> W -> res (R * raydiff * W)) (hitp : raydiff -> W -> res (bool * W))
    (li : raydiff -> sample -> W -> res (V3 E * W)) (sees : sample -> vec -> Prop)
    (xr yr : Z) (flt : filt) (c0 c1 c2 c3 : R) (x0 x1 y0 y1 xst yst : Z) (jitter : bool) (o c : R)
    (orig : sample) (rn : nat -> rnd) (w : W) (sc : R) (fuel : nat) :
  proper_filter flt ->
  let f := film_make xr yr flt c0 c1 c2 c3 in
  get_sample_extent f = (x0, x1, y0, y1) ->
  let s := stratified_make (IZR x0) (IZR x1) (IZR y0) (IZR y1) xst yst jitter o c in
  let n := (xSamples s * ySamples s)%nat in
  (forall k, rnd_ok s (duplicate orig n) (rn k)) ->
  (* every sample that is sent out sees something, or its ray meets nothing *)
  (forall smp w, sent s orig x0 x1 y0 y1 smp -> exists r w1 h w2, cam smp w = Ok (1, r, w1) /\
     hitp (scale_differential r (1 / sqrt (INR n))) w1 = Ok (h, w2) /\ (h = false -> sees smp vzero) /\
     (h = true -> exists L w3, li (scale_differential r (1 / sqrt (INR n))) smp w2 = Ok (vmap Fin L, w3) /\ vle vzero L /\ sees smp L)) ->
  (Z.to_nat (x1 - x0) * Z.to_nat (y1 - y0) < fuel)%nat ->
  exists img l, render cam hitp li s orig rn w fuel f sc = Some (Ok img) /\
    raster s orig x0 x1 y0 y1 n l /\ List.Forall (fun a => sent s orig x0 x1 y0 y1 (fst a) /\ sees (fst a) (snd a)) l /\ pictures f img l.
Proof.
  intros PF f GE s n RN HS Hfu.
  destruct (extent_window f x0 x1 y0 y1) as (A & B & C & D); [unfold f, film_make; cbn [xcnt]; lia|unfold f, film_make; cbn [ycnt]; lia|apply PF|apply PF|exact GE|].
  now apply (picture_main W cam hitp li sees xr yr flt c0 c1 c2 c3 x0 x1 y0 y1 xst yst jitter o c orig rn w sc fuel).
Qed.
Print Assumptions C274_picture.

(** C275: the picture of a scene of diffuse triangle meshes, spheres and disks lit by point lights, from the constructors' arguments to the
    pixels. *)
Theorem C275_scene_picture (mp : nat) (items : list item) (ns np : Z) (colour : nat -> vec) (mats : nat -> material) diffs (lamps : list lamp)
    (cam : sample -> res raydiff) (u : nat -> R) (md : Z)
    (xr yr : Z) (flt : filt) (c0 c1 c2 c3 : R) (x0 x1 y0 y1 xst yst : Z) (jitter : bool) (o c : R)
    (orig : sample) (rn : nat -> rnd) (k : nat) (sc : R) (fuel : nat) :
  (* the scene *)
  let prims := full_refine_items items ns np in
  (mp <= 4)%nat -> Forall (fun it => geom_ok (it_geom it)) items -> (forall it, In it items -> plain_item it) ->
  ((length prims <= 65)%nat \/ forall bounds t o n, prim_bounds prims = Ok bounds ->
     bvh_build SAH mp bounds = Ok (t, o, n) -> (theight t <= 64)%nat) ->
  diffuse_mats mats colour -> (forall l, In l lamps -> spec_ge0 (lp_i l)) ->
  (* the film and the samples *)
  proper_filter flt ->
  let f := film_make xr yr flt c0 c1 c2 c3 in
  get_sample_extent f = (x0, x1, y0, y1) ->
  let s := stratified_make (IZR x0) (IZR x1) (IZR y0) (IZR y1) xst yst jitter o c in
  let n := (xSamples s * ySamples s)%nat in
  (forall k, rnd_ok s (duplicate orig n) (rn k)) ->
  (* the camera sends every sample along a ray at the sample's time, and neither it nor a sight line to a lamp runs along a face of a bounding box or
     through the centre of a disk; rays do not meet spheres on their axes *)
  (forall smp, sent s orig x0 x1 y0 y1 smp -> exists r, cam smp = Ok r /\ rtime (rd_ray r) = stime smp /\ clear_ray items prims (rd_ray r) /\ off_poles items (rd_ray r) /\
     forall it t l, In it items -> touches (it_geom it) (rd_ray r) t -> In l lamps ->
       lp_pos l <> ray_at (rd_ray r) t /\ clear_ray items prims (sight (ray_at (rd_ray r) t) (lp_pos l) (offset_at (it_geom it) t) (stime smp))) ->
  (Z.to_nat (x1 - x0) * Z.to_nat (y1 - y0) < fuel)%nat ->
  exists scn, scene_make mp prims = Ok scn /\ forall steps depth, (scene_size scn <= steps)%nat -> (0 < depth)%nat ->
    exists img l, world_render (mkW scn mats (map lamp_light lamps) steps diffs) cam u md depth s orig rn k fuel f sc = Some (Ok img) /\
      raster s orig x0 x1 y0 y1 n l /\ pictures f img l /\
      List.Forall (fun a => exists r, cam (fst a) = Ok r /\ shown items colour lamps (rd_ray r) (snd a)) l.
Proof.
  intros prims Hmp Hok Hpm Hfit DM NN PF f GE s n RN HC Hfu.
  assert (SC : exists scn, scene_make mp prims = Ok scn) by now apply scene_exists.
  destruct SC as (scn & SM). exists scn. split; [exact SM|]. intros steps depth LS LD.
  set (w := mkW scn mats (map lamp_light lamps) steps diffs).
  set (sees := fun smp L => exists r, cam smp = Ok r /\ shown items colour lamps (rd_ray r) L).
  destruct (C274_picture nat (world_cam cam) (world_seen w) (world_li w u md depth) sees xr yr flt c0 c1 c2 c3 x0 x1 y0 y1 xst yst jitter o c
    orig rn k sc fuel PF GE RN) as (img & l & R1 & R2 & R3 & R4); [|exact Hfu|].
  { intros smp k0 SS. destruct (HC smp SS) as (r & CR & TM & PR & PO & SI). fold s n.
    set (r1 := scale_differential r (1 / sqrt (INR n))).
    assert (E1 : rd_ray r1 = rd_ray r) by reflexivity.
    pose proof PR as ((A1 & A2 & A3 & A4) & AV).
    destruct (scene_nearest_sized mp items ns np (rd_ray r) Hmp Hok AV A1 A2 A3 A4 Hfit) as (scn' & SM' & K).
    fold prims in SM'. rewrite SM in SM'. injection SM' as <-.
    destruct (K isect_new steps LS) as (found & r' & i' & HI & SN).
    destruct (Props_Scene.C208_shadow_consistent _ _ _ _ _ _ _ HI) as (HP & _).
    destruct (lit_main mp items ns np colour lamps r1 Hmp Hok Hpm Hfit) with (u := u) (md := md) (time := stime smp) (k := k0) (mats := mats) (diffs := diffs)
      as (scn' & SM' & LM); [exact PR|exact PO| |exact TM|exact DM|].
    { intros it t l Hi HT Hl. change (rd_ray r1) with (rd_ray r). rewrite TM. exact (SI it t l Hi HT Hl). }
    fold prims in SM'. rewrite SM in SM'. injection SM' as <-.
    destruct (LM steps depth LS LD) as (L & T & i & k' & cnt & WL & SH). rewrite E1 in SH. fold w in WL.
    exists r, k0, found, k0. unfold world_cam. rewrite CR. cbn [bind]. split; [reflexivity|].
    unfold world_seen. change (xSamples _ * ySamples _)%nat with n. fold r1. rewrite E1. cbn [w w_fuel w_scene]. rewrite HP. split; [reflexivity|]. split.
    - intros ->. exists r. split; [exact CR|]. left. split; [reflexivity|]. destruct SN as (_ & _ & SN). exact SN.
    - intros ->. exists L, k'. unfold world_li. rewrite WL. split; [reflexivity|]. split.
      + destruct (C270_bounded items colour lamps _ L NN SH) as ((a & b & d) & _). unfold vle, vzero; cbn. auto.
      + exists r. auto. }
  exists img, l. split; [exact R1|]. split; [exact R2|]. split; [exact R4|].
  eapply List.Forall_impl; [|exact R3]. cbn. intros a (_ & H). exact H.
Qed.
Print Assumptions C275_scene_picture.

(** A triangle in the plane z = 5 before a perspective camera at the origin, lit by a lamp at the camera; one column of
    two pixels, one sample per pixel: the hypotheses hold, and the ray through the middle of the picture meets the
    triangle at distance 5. *)
Definition v_items : list item :=
  [mkItem (GMesh (id_base false) [0; 1; 2]%Z [mkV (-3) (-3) 5; mkV 3 (-3) 5; mkV 0 5 5] None None None) 1 1 0 None].
Definition v_lamp : lamp := mkLamp vzero (spec 100).
Definition v_still : animated := mkA 0 1 t_identity t_identity false no_decomp no_decomp.
Lemma v_touch it r t : In it v_items -> touches (it_geom it) r t -> vz (ray_at r t) = 5.
Proof.
  intros [<-|[]] (f & Hf & _ & HI). cbn [length] in Hf. assert (f = 0)%nat by lia. subst f. revert HI.
  unfold S_Shapes.corner. cbn [id_base b_o2w]. rewrite !t_point_I.
  change (Z.to_nat (nth (3 * 0 + 0) [0; 1; 2]%Z 0%Z)) with 0%nat.
  change (Z.to_nat (nth (3 * 0 + 1) [0; 1; 2]%Z 0%Z)) with 1%nat.
  change (Z.to_nat (nth (3 * 0 + 2) [0; 1; 2]%Z 0%Z)) with 2%nat. cbn [nth].
  intros (x & y & z & _ & _ & _ & S1 & ->). unfold vadd, vscale, vmap2, vmap; cbn. lra.
Qed.
Lemma v_bound p b : In p (full_refine_items v_items 3 3) -> shape_bound (gp_shape p) = Ok b -> vx (fst b) = -3 /\ vx (snd b) = 3.
Proof.
  intros [<-|[]]. cbn [gp_shape shape_bound].
  match goal with |- context [tri_world_bound ?m ?v] => set (ms := m);
    assert (T1 : tri_vert ms v 0 = Ok (mkV (-3) (-3) 5)); [|assert (T2 : tri_vert ms v 1 = Ok (mkV 3 (-3) 5));
      [|assert (T3 : tri_vert ms v 2 = Ok (mkV 0 5 5))]] end.
  1-3: unfold tri_vert, ms, mesh_make; cbn [m_vi m_p map]; rewrite !t_point_I; reflexivity.
  unfold tri_world_bound. rewrite T1, T2, T3. cbn [bind]. intros [= <-]. cbn. unfold emin, emax; cbn.
  replace (Rltb 3 (-3)) with false by (symmetry; apply Rltb_false; lra). cbn.
  replace (Rltb (-3) 3) with true by (symmetry; apply Rltb_true; lra). cbn.
  replace (Rltb 0 (-3)) with false by (symmetry; apply Rltb_false; lra).
  replace (Rltb 3 0) with false by (symmetry; apply Rltb_false; lra). auto.
Qed.
Lemma v_off r : (vx (rd r) = 0 -> vx (ro r) = 0) -> forall p b, In p (full_refine_items v_items 3 3) -> shape_bound (gp_shape p) = Ok b ->
  off_x_faces r (fst b) (snd b).
Proof. intros H p b Hp HB H0. destruct (v_bound p b Hp HB) as (-> & ->). rewrite (H H0). lra. Qed.
Lemma v_cam c smp : pc_c2w c = v_still -> pc_lens c = 0 -> exists r, persp_raydiff c smp = Ok r /\
  rd_ray r = mkRay vzero (normalize (t_point (pc_r2c c) (mkV (imageX smp) (imageY smp) 0))) (mkV false false false) (Fin 0) PInf 0 (stime smp).
Proof.
  intros C L. unfold persp_raydiff, lens_ray. rewrite L, C. replace (Rltb 0 0) with false by (symmetry; apply Rltb_false; lra).
  unfold a_raydiff; cbn [v_still a_animated negb orb bind a_t1]. eexists. split; [reflexivity|].
  unfold t_raydiff, raydiff_from_rd, t_ray, ray_from_ray; cbn [rd_ray ray0 ro rd rmint rmaxt rdepth rtime]. now rewrite t_point_I, t_vector_I.
Qed.
Example C275_ex : exists c, persp_make v_still (-1) 1 (-1) 1 0 1 0 1 90 1 2 = Ok c /\
  (forall smp, exists r, persp_raydiff c smp = Ok r /\ rtime (rd_ray r) = stime smp /\ clear_ray v_items (full_refine_items v_items 3 3) (rd_ray r) /\ off_poles v_items (rd_ray r) /\
     forall it t l, In it v_items -> touches (it_geom it) (rd_ray r) t -> In l [v_lamp] ->
       lp_pos l <> ray_at (rd_ray r) t /\
       clear_ray v_items (full_refine_items v_items 3 3) (sight (ray_at (rd_ray r) t) (lp_pos l) (offset_at (it_geom it) t) (stime smp))) /\
  (forall smp r, imageX smp = / 2 -> imageY smp = 1 -> persp_raydiff c smp = Ok r -> touches (it_geom (hd mirror_item v_items)) (rd_ray r) 5) /\
  exists scn img l, scene_make 4 (full_refine_items v_items 3 3) = Ok scn /\
    world_render (mkW scn (fun k => Matte (fun _ => w_colour k) (fun _ => 0) None) [lamp_light v_lamp] (scene_size scn)
        (fun _ _ _ _ _ => (false, vzero, vzero, vzero, vzero))) (persp_raydiff c) (fun _ => 0) 5 1
      (stratified_make (IZR 0) (IZR 2) (IZR 0) (IZR 3) 1 1 true 0 1) (mkS 0 0 0 0 0 [] [] [] []) (fun _ => ex_rnd) 0 100
      (film_make 1 2 (box_filter (/2) (/2)) 0 1 0 1) 1 = Some (Ok img) /\
    pictures (film_make 1 2 (box_filter (/2) (/2)) 0 1 0 1) img l /\ length l = 6%nat.
Proof.
  destruct (persp_closed v_still (-1) 1 (-1) 1 0 1 0 1 90 1 2) as (c & PM & C1 & _ & _ & C2 & _ & CP); [lra..|].
  exists c. split; [exact PM|].
  assert (HC : forall smp, exists r, persp_raydiff c smp = Ok r /\ rtime (rd_ray r) = stime smp /\ clear_ray v_items (full_refine_items v_items 3 3) (rd_ray r) /\ off_poles v_items (rd_ray r) /\
     forall it t l, In it v_items -> touches (it_geom it) (rd_ray r) t -> In l [v_lamp] ->
       lp_pos l <> ray_at (rd_ray r) t /\
       clear_ray v_items (full_refine_items v_items 3 3) (sight (ray_at (rd_ray r) t) (lp_pos l) (offset_at (it_geom it) t) (stime smp))).
  { intros smp. destruct (v_cam c smp C1 C2) as (r & E & R). exists r. split; [exact E|]. rewrite R. split; [reflexivity|]. split.
    - split; [|constructor; [exact Logic.I|constructor]].
      split; [repeat split; auto|]. split; [discriminate|]. split; [discriminate|]. apply v_off. reflexivity.
    - split; [intros it t [<-|[]] _; exact Logic.I|]. intros it t l Hi HT [<-|[]]. pose proof (v_touch it _ t Hi HT) as Z5. cbn [v_lamp lp_pos].
      split; [intros Q; rewrite <- Q in Z5; cbn in Z5; lra|]. split; [|constructor; [exact Logic.I|constructor]]. split; [repeat split; auto|]. split; [discriminate|]. split; [discriminate|].
      apply v_off. cbn [sight rd ro]. intros D0. set (p := ray_at _ t) in *.
      unfold dir in D0. assert (DN : dist p vzero <> 0).
      { unfold dist, vlength, sq_length, vsub, vmap2; cbn [vx vy vz vzero]. apply Rgt_not_eq. apply sqrt_lt_R0. rewrite Z5. nra. }
      unfold vscale, vsub, vmap, vmap2 in D0; cbn [vx vzero] in D0. apply Rmult_integral in D0 as [D0|D0]; [|lra].
      exfalso. now apply (Rinv_neq_0_compat _ DN). }
  split; [exact HC|]. split.
  { intros smp r EX EY E. destruct (v_cam c smp C1 C2) as (r' & E' & R). rewrite E in E'. injection E' as <-. rewrite R, EX, EY, CP.
    assert (ND : normalize (vscale (1 / 1000) (mkV (half_tan 90 * screen_x 1 (-1) 1 (/ 2)) (half_tan 90 * screen_y 2 (-1) 1 1) 1)) = mkV 0 0 1).
    { replace (screen_x 1 (-1) 1 (/ 2)) with 0 by (unfold screen_x; field). replace (screen_y 2 (-1) 1 1) with 0 by (unfold screen_y; field).
      rewrite !Rmult_0_r. apply P_LobeSampling.normalize_pos_scale; [lra|]. unfold unit; cbn. lra. }
    rewrite ND. cbn [hd v_items it_geom]. exists 0%nat. split; [cbn; lia|]. unfold S_Shapes.corner. cbn [id_base b_o2w]. rewrite !t_point_I.
    change (Z.to_nat (nth (3 * 0 + 0) [0; 1; 2]%Z 0%Z)) with 0%nat.
    change (Z.to_nat (nth (3 * 0 + 1) [0; 1; 2]%Z 0%Z)) with 1%nat.
    change (Z.to_nat (nth (3 * 0 + 2) [0; 1; 2]%Z 0%Z)) with 2%nat. cbn [nth]. split.
    - unfold tri_normal, vdot, vcross, vsub, vmap2; cbn. lra.
    - exists (5/16), (5/16), (3/8). repeat split; try lra. unfold ray_at, vadd, vscale, vmap2, vmap; cbn. apply V3_eq; cbn; lra. }
  assert (EX : xstart (film_make 1 2 (box_filter (/2) (/2)) 0 1 0 1) = 0%Z) by (cbn; rewrite Rmult_0_r; apply (Zceil_IZR 0)).
  assert (EY : ystart (film_make 1 2 (box_filter (/2) (/2)) 0 1 0 1) = 0%Z) by (cbn; rewrite Rmult_0_r; apply (Zceil_IZR 0)).
  assert (CX : xcnt (film_make 1 2 (box_filter (/2) (/2)) 0 1 0 1) = 1%Z).
  { cbn. rewrite Rmult_0_r, Rmult_1_r, (Zceil_IZR 0), (Zceil_IZR 1). reflexivity. }
  assert (CY : ycnt (film_make 1 2 (box_filter (/2) (/2)) 0 1 0 1) = 2%Z).
  { cbn. rewrite Rmult_0_r, Rmult_1_r, (Zceil_IZR 0), (Zceil_IZR 2). reflexivity. }
  destruct (C275_scene_picture 4 v_items 3 3 w_colour (fun k => Matte (fun _ => w_colour k) (fun _ => 0) None)
    (fun _ _ _ _ _ => (false, vzero, vzero, vzero, vzero)) [v_lamp] (persp_raydiff c) (fun _ => 0) 5
    1 2 (box_filter (/2) (/2)) 0 1 0 1 0 2 0 3 1 1 true 0 1 (mkS 0 0 0 0 0 [] [] [] []) (fun _ => ex_rnd) 0 1 100) as (scn & SM & G).
  - lia.
  - constructor; [|constructor]; cbn [it_geom geom_ok]; split; [reflexivity|]; split; [unfold faces_ok; repeat (constructor; [cbn; lia|]); constructor|intros l [=]].
  - intros it [<-|[]]; split; [reflexivity|now left].
  - left. cbn. lia.
  - intros k; eexists _, _; split; [reflexivity|]; split; [reflexivity|intros; lra].
  - intros l [<-|[]]. unfold spec_ge0, v_lamp, spec; cbn. lra.
  - unfold proper_filter; cbn. repeat split; intros; lra.
  - unfold get_sample_extent. rewrite EX, EY, CX, CY. cbn [ffilt film_make f_xw f_yw box_filter].
    replace (0 + /2 - /2) with (IZR 0) by lra. replace (0 + /2 + 1 + /2) with (IZR 2) by lra. replace (0 + /2 + 2 + /2) with (IZR 3) by lra.
    now rewrite !Zfloor_IZR.
  - intros k. assert (HF : in01 (/2)) by (unfold in01; lra). unfold rnd_ok. cbn -[Pos.to_nat]. change (Pos.to_nat 1) with 1%nat. cbn. split; [auto|].
    split; [apply Permutation_refl|]. split; [apply Permutation_refl|]. split; [auto|].
    intros i j Hi. destruct i; [|lia]. destruct j; split; apply Permutation_refl.
  - intros smp _. apply HC.
  - cbn. lia.
  - destruct (G (scene_size scn) 1%nat (le_n _) (le_n _)) as (img & l & R1 & (R2 & _) & R3 & _).
    exists scn, img, l. split; [exact SM|]. split; [exact R1|]. split; [exact R3|]. exact R2.
Qed.
