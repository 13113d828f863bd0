(** Property theorem C292 (pictures with the direct-lighting integrator).  Vocabulary: S_Picture.v, S_World.v, S_Film.v, S_Sampler.v, S_Superpose.v. *)
From Coq Require Import Reals Lra Lia List ZArith Bool Permutation.
From Flocq Require Import Core.Raux.
From Verif Require Import Base M_MonteCarlo M_Aggregate M_Utility M_Spectrum M_Sampler S_Sampler M_Film S_Film.
From Verif Require Import M_Geometry S_Geometry P_Geometry P_LobeSampling M_Transform S_Transform P_Transform P_Transform2 M_Shapes S_Shapes P_ShapesMore M_BVH S_BVH
  M_Reflection S_Reflection M_Light M_Primitive S_Scene P_Scene P_Scene2 M_Material S_Material M_Integrator S_Integrator S_Integrator2 M_World S_World P_World
  P_World2 Props_Scene Props_World M_Renderer M_Render P_Render Props_Render S_Picture P_Picture M_World2 M_Camera S_Camera P_Camera Props_Picture
  S_Superpose Props_Agree.
Import ListNotations.
Local Open Scope R_scope.

Lemma lengths_nth {A} : forall (l : list (list A)) (ns : list nat), length l = length ns ->
  (forall j, (j < length ns)%nat -> length (nth j l []) = nth j ns 0%nat) -> map (@length A) l = ns.
Proof.
  induction l as [|a l IH]; intros [|n ns] Q H; try discriminate Q; [reflexivity|]. cbn. f_equal.
  - apply (H 0%nat). cbn. lia.
  - apply IH; [now injection Q|]. intros j Hj. apply (H (S j)). cbn. lia.
Qed.
(** what the sampler sends has the requested arrays *)
Lemma sent_filled s orig x0 x1 y0 y1 smp : sent s orig x0 x1 y0 y1 smp -> filled smp (n1D orig) (n2D orig).
Proof.
  intros (px & py & _ & _ & _ & _ & _ & _ & _ & L1 & L2 & H1 & H2). cbn [sample_dup n1D n2D] in *. split; apply lengths_nth; auto.
  - intros j Hj. destruct (H1 j Hj) as (Q & _). exact Q.
  - intros j Hj. destruct (H2 j Hj) as ((Q & _) & _). now rewrite map_length in Q.
Qed.

(** C292: the picture which the direct-lighting integrator (the default one) makes of a scene of diffuse triangle meshes, spheres
    and disks lit by point lights, with any positive number of samples per light. *)
Theorem C292_direct_picture (mp : nat) (items : list item) (nu nv : Z) (colour : nat -> vec) (mats : nat -> material) diffs (lamps : list lamp)
    (cam : sample -> res raydiff) (u : nat -> R) (md : Z) (ns : list nat)
    (xr yr : Z) (flt : filt) (c0 c1 c2 c3 : R) (x0 x1 y0 y1 xst yst : Z) (jitter : bool) (o c : R)
    (orig : sample) lo bo (rn : nat -> rnd) (k : nat) (sc : R) (fuel : nat) :
  (* the scene *)
  let prims := full_refine_items items nu nv in
  (mp <= 4)%nat -> Forall (fun it => geom_ok (it_geom it)) items -> (forall it, In it items -> plain_item it) ->
  ((length prims <= 65)%nat \/ forall bounds t o n, prim_bounds prims = Ok bounds ->
     bvh_build SAH mp bounds = Ok (t, o, n) -> (theight t <= 64)%nat) ->
  diffuse_mats mats colour -> (forall l, In l lamps -> spec_ge0 (lp_i l)) ->
  (* a positive number of samples for each light; random numbers in [0, 1) *)
  length ns = length lamps -> Forall (fun m => 0 < m)%nat ns -> steady_stream u ->
  direct_request ns (mkS 0 0 0 0 0 [] [] [] []) = (orig, lo, bo) ->
  (* the film and the samples *)
  proper_filter flt ->
  let f := film_make xr yr flt c0 c1 c2 c3 in
  get_sample_extent f = (x0, x1, y0, y1) ->
  let s := stratified_make (IZR x0) (IZR x1) (IZR y0) (IZR y1) xst yst jitter o c in
  let n := (xSamples s * ySamples s)%nat in
  (forall k, rnd_ok s (duplicate orig n) (rn k)) ->
  (* the camera sends every sample along a ray at the sample's time, and neither it nor a sight line to a lamp runs along a face of a bounding box or
     through the centre of a disk; rays do not meet spheres on their axes *)
  (forall smp, sent s orig x0 x1 y0 y1 smp -> exists r, cam smp = Ok r /\ rtime (rd_ray r) = stime smp /\ clear_ray items prims (rd_ray r) /\ off_poles items (rd_ray r) /\
     forall it t l, In it items -> touches (it_geom it) (rd_ray r) t -> In l lamps ->
       lp_pos l <> ray_at (rd_ray r) t /\ clear_ray items prims (sight (ray_at (rd_ray r) t) (lp_pos l) (offset_at (it_geom it) t) (stime smp))) ->
  (Z.to_nat (x1 - x0) * Z.to_nat (y1 - y0) < fuel)%nat ->
  exists scn, scene_make mp prims = Ok scn /\ forall steps depth, (scene_size scn <= steps)%nat -> (0 < depth)%nat ->
    exists img l, world_direct_render (mkW scn mats (map lamp_light lamps) steps diffs) cam u md depth ns s rn k fuel f sc = Some (Ok img) /\
      raster s orig x0 x1 y0 y1 n l /\ pictures f img l /\
      List.Forall (fun a => exists r, cam (fst a) = Ok r /\ shown items colour lamps (rd_ray r) (snd a)) l.
Proof.
  intros prims Hmp Hok Hpm Hfit DM NN LN PN US DR PF f GE s n RN HC Hfu.
  assert (SC : exists scn, scene_make mp prims = Ok scn) by now apply scene_exists.
  destruct SC as (scn & SM). exists scn. split; [exact SM|]. intros steps depth LS LD.
  set (w := mkW scn mats (map lamp_light lamps) steps diffs).
  set (sees := fun smp L => exists r, cam smp = Ok r /\ shown items colour lamps (rd_ray r) L).
  destruct (C274_picture nat (world_cam cam) (world_seen w) (world_direct_li w u lo bo md depth) sees xr yr flt c0 c1 c2 c3 x0 x1 y0 y1 xst yst jitter o c
    orig rn k sc fuel PF GE RN) as (img & l & R1 & R2 & R3 & R4); [|exact Hfu|].
  { intros smp k0 SS. destruct (HC smp SS) as (r & CR & TM & PR & PO & SI). fold s n.
    set (r1 := scale_differential r (1 / sqrt (INR n))).
    assert (E1 : rd_ray r1 = rd_ray r) by reflexivity.
    pose proof PR as ((A1 & A2 & A3 & A4) & AV).
    destruct (scene_nearest_sized mp items nu nv (rd_ray r) Hmp Hok AV A1 A2 A3 A4 Hfit) as (scn' & SM' & K).
    fold prims in SM'. rewrite SM in SM'. injection SM' as <-.
    destruct (K isect_new steps LS) as (found & r' & i' & HI & SN).
    destruct (Props_Scene.C208_shadow_consistent _ _ _ _ _ _ _ HI) as (HP & _).
    assert (SI' : forall it t l, In it items -> touches (it_geom it) (rd_ray r1) t -> In l lamps ->
       lp_pos l <> ray_at (rd_ray r1) t /\ clear_ray items prims (sight (ray_at (rd_ray r1) t) (lp_pos l) (offset_at (it_geom it) t) (rtime (rd_ray r1)))).
    { intros it t l Hi HT Hl. change (rd_ray r1) with (rd_ray r). rewrite TM. exact (SI it t l Hi HT Hl). }
    destruct (C288_diffuse mp items nu nv colour mats diffs lamps r1 ns (mkS 0 0 0 0 0 [] [] [] []) orig smp lo bo u md k0 Hmp Hok Hpm Hfit DM PR PO SI' NN US DR
      (sent_filled _ _ _ _ _ _ _ SS) LN PN) as (scn' & SM' & LM).
    fold prims in SM'. rewrite SM in SM'. injection SM' as <-.
    destruct (LM steps depth LS LD) as (L & T & i & k' & cnt & WL & SH). rewrite E1 in SH, WL. rewrite TM in WL. fold w in WL.
    exists r, k0, found, k0. unfold world_cam. rewrite CR. cbn [bind]. split; [reflexivity|].
    unfold world_seen. change (xSamples _ * ySamples _)%nat with n. fold r1. rewrite E1. cbn [w w_fuel w_scene]. rewrite HP. split; [reflexivity|]. split.
    - intros ->. exists r. split; [exact CR|]. left. split; [reflexivity|]. destruct SN as (_ & _ & SN). exact SN.
    - intros ->. exists L, k'. unfold world_direct_li. rewrite WL. split; [reflexivity|]. split.
      + destruct (C270_bounded items colour lamps _ L NN SH) as ((a & b & d) & _). unfold vle, vzero; cbn. auto.
      + exists r. auto. }
  exists img, l. unfold world_direct_render. rewrite DR. split; [exact R1|]. split; [exact R2|]. split; [exact R4|].
  eapply List.Forall_impl; [|exact R3]. cbn. intros a (_ & H). exact H.
Qed.
Print Assumptions C292_direct_picture.

(** The hypotheses hold for the scene and camera of C275_ex with four samples for its lamp. *)
Definition four_rnd : rnd := mkRnd (fun _ => /2) (fun _ => /2) (fun _ => /2) (fun _ => /2) (fun _ => /2) [0]%nat [0]%nat
  (fun _ _ _ => /2) (fun _ j => seq 0 (nth j [4; 4]%nat 0%nat)) (fun _ _ _ => /2) (fun _ _ _ => /2) (fun _ j => seq 0 (nth j [4; 4]%nat 0%nat)).
Example C292_ex : exists c scn img l, persp_make v_still (-1) 1 (-1) 1 0 1 0 1 90 1 2 = Ok c /\ scene_make 4 (full_refine_items v_items 3 3) = Ok scn /\
    world_direct_render (mkW scn (fun k => Matte (fun _ => w_colour k) (fun _ => 0) None) [lamp_light v_lamp] (scene_size scn)
        (fun _ _ _ _ _ => (false, vzero, vzero, vzero, vzero))) (persp_raydiff c) (fun _ => /2) 5 1 [4]%nat
      (stratified_make (IZR 0) (IZR 2) (IZR 0) (IZR 3) 1 1 true 0 1) (fun _ => four_rnd) 0 100
      (film_make 1 2 (box_filter (/2) (/2)) 0 1 0 1) 1 = Some (Ok img) /\
    pictures (film_make 1 2 (box_filter (/2) (/2)) 0 1 0 1) img l /\ length l = 6%nat.
Proof.
  destruct C275_ex as (c & PM & HC & _). exists c.
  assert (EX : xstart (film_make 1 2 (box_filter (/2) (/2)) 0 1 0 1) = 0%Z) by (cbn; rewrite Rmult_0_r; apply (Zceil_IZR 0)).
  assert (EY : ystart (film_make 1 2 (box_filter (/2) (/2)) 0 1 0 1) = 0%Z) by (cbn; rewrite Rmult_0_r; apply (Zceil_IZR 0)).
  assert (CX : xcnt (film_make 1 2 (box_filter (/2) (/2)) 0 1 0 1) = 1%Z).
  { cbn. rewrite Rmult_0_r, Rmult_1_r, (Zceil_IZR 0), (Zceil_IZR 1). reflexivity. }
  assert (CY : ycnt (film_make 1 2 (box_filter (/2) (/2)) 0 1 0 1) = 2%Z).
  { cbn. rewrite Rmult_0_r, Rmult_1_r, (Zceil_IZR 0), (Zceil_IZR 2). reflexivity. }
  destruct (direct_request [4]%nat (mkS 0 0 0 0 0 [] [] [] [])) as [[orig lo] bo] eqn:DR.
  assert (N4 : n1D orig = [4; 4]%nat /\ n2D orig = [4; 4]%nat).
  { clear -DR. set (z := 0) in DR. clearbody z. vm_compute in DR. injection DR as <- _ _. split; reflexivity. }
  destruct (C292_direct_picture 4 v_items 3 3 w_colour (fun k => Matte (fun _ => w_colour k) (fun _ => 0) None)
    (fun _ _ _ _ _ => (false, vzero, vzero, vzero, vzero)) [v_lamp] (persp_raydiff c) (fun _ => /2) 5 [4]%nat
    1 2 (box_filter (/2) (/2)) 0 1 0 1 0 2 0 3 1 1 true 0 1 orig lo bo (fun _ => four_rnd) 0 1 100) as (scn & SM & G).
  - lia.
  - constructor; [|constructor]; cbn [it_geom geom_ok]; split; [reflexivity|]; split; [unfold faces_ok; repeat (constructor; [cbn; lia|]); constructor|intros l [=]].
  - intros it [<-|[]]; split; [reflexivity|now left].
  - left. cbn. lia.
  - intros k; eexists _, _; split; [reflexivity|]; split; [reflexivity|intros; lra].
  - intros l [<-|[]]. unfold spec_ge0, v_lamp, spec; cbn. lra.
  - reflexivity.
  - repeat constructor.
  - intros j. unfold in_unit. lra.
  - exact DR.
  - unfold proper_filter; cbn. repeat split; intros; lra.
  - unfold get_sample_extent. rewrite EX, EY, CX, CY. cbn [ffilt film_make f_xw f_yw box_filter].
    replace (0 + /2 - /2) with (IZR 0) by lra. replace (0 + /2 + 1 + /2) with (IZR 2) by lra. replace (0 + /2 + 2 + /2) with (IZR 3) by lra.
    now rewrite !Zfloor_IZR.
  - intros k. assert (HF : in01 (/2)) by (unfold in01; lra). unfold rnd_ok. cbn -[Pos.to_nat seq]. change (Pos.to_nat 1) with 1%nat. cbn -[seq]. split; [auto|].
    split; [apply Permutation_refl|]. split; [apply Permutation_refl|]. split; [auto|].
    intros i j Hi. destruct i; [|lia]. cbn -[seq]. destruct N4 as (-> & ->). split; apply Permutation_refl.
  - intros smp _. apply HC.
  - cbn. lia.
  - destruct (G (scene_size scn) 1%nat (le_n _) (le_n _)) as (img & l & R1 & (R2 & _) & R3 & _).
    exists scn, img, l. split; [exact PM|]. split; [exact SM|]. split; [exact R1|]. split; [exact R3|]. exact R2.
Qed.
