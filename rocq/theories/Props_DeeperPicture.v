(** Property theorems C305: a higher recursion limit never darkens a picture.  Vocabulary: S_Picture.v, S_Film.v, S_World.v, S_Superpose.v, S_Brighter.v. *)
From Coq Require Import Reals Lra Lia List ZArith Bool Permutation.
From Flocq Require Import Core.Raux.
From Verif Require Import Base M_MonteCarlo M_Aggregate M_Utility M_Spectrum M_Sampler S_Sampler M_Film S_Film P_Sampler P_Film P_Film2 P_Film3 P_Renderer.
From Verif Require Import M_Geometry S_Geometry P_Geometry P_LobeSampling M_Transform S_Transform P_Transform P_Transform2 M_Shapes S_Shapes P_ShapesMore M_BVH S_BVH
  M_Reflection S_Reflection M_Light M_Primitive S_Scene P_Scene P_Scene2 M_Material S_Material M_Integrator S_Integrator S_Integrator2 M_World S_World P_World
  P_World2 Props_Scene Props_World M_Renderer M_Render P_Render Props_Render S_Picture P_Picture M_World2 M_Camera S_Camera P_Camera Props_Picture
  S_Order P_Order Props_Order S_Superpose S_Brighter P_Superpose Props_Superpose P_Reflection2 P_Brighter Props_Brighter Props_SumPicture
  Props_Deeper Props_MoreLightPicture.
Import ListNotations.
Local Open Scope R_scope.

(** A scene of matte, mirror and glass shapes, which may emit light, lit by lamps: with a higher recursion limit (the number of mirrors and panes a ray may meet)
    no pixel of the picture gets darker in any channel (up to three millionths); whatever random numbers the integrator draws in the two runs. *)
Theorem C305_world (mp : nat) (items : list item) (ns np : Z) scn mats steps diffs (lamps : list lamp) (cam : sample -> res raydiff) (u1 u : nat -> R)
    (md1 md2 : Z) (depth : nat) (xr yr : Z) (flt : filt) (c0 c1 c2 c3 : R) (x0 x1 y0 y1 xst yst : Z) (jitter : bool) (o c : R) (orig : sample) (rn : nat -> rnd)
    (k1 k : nat) (sc : R) (fuel : nat) img1 img2 :
  (forall it e, In it items -> it_light it = Some e -> spec_ge0 e) -> scene_make mp (full_refine_items items ns np) = Ok scn ->
  (forall j, simple_material (mats j)) -> (forall l, In l lamps -> spec_ge0 (lp_i l)) ->
  steady_stream u1 -> steady_stream u -> (md1 <= md2)%Z ->
  proper_filter flt ->
  let f := film_make xr yr flt c0 c1 c2 c3 in
  get_sample_extent f = (x0, x1, y0, y1) ->
  let s := stratified_make (IZR x0) (IZR x1) (IZR y0) (IZR y1) xst yst jitter o c in
  (forall i, rnd_ok s (duplicate orig (xSamples s * ySamples s)) (rn i)) ->
  (Z.to_nat (x1 - x0) * Z.to_nat (y1 - y0) < fuel)%nat ->
  let w := mkW scn mats (map lamp_light lamps) steps diffs in
  world_render w cam u1 md1 depth s orig rn k1 fuel f sc = Some (Ok img1) ->
  world_render w cam u md2 depth s orig rn k fuel f sc = Some (Ok img2) ->
  forall x y, in_film f x y ->
    no_darker (pixel_at f img1 x y) (vadd (pixel_at f img2 x y) (spec (3e-6 * vabs1 (pixel_at f img2 x y)))).
Proof.
  intros HN HS HM HA U1 U P PF f GE s RN Hfu w. unfold world_render.
  apply (C304_more nat nat); [exact PF|exact GE|exact RN| |exact Hfu].
  intros a q1 q2 L1 L2 q1' q2' SS. unfold shade, world_cam. destruct (cam a) as [r|]; cbn [bind]; [|discriminate].
  unfold world_seen. cbn [w w_fuel w_scene]. destruct (scene_intersect_p _ _ _) as [[h|]|]; cbn [bind]; try discriminate.
  destruct (h && Rltb 0 1)%bool.
  2:{ intros [= <- _] [= <- _]. exists vzero, vzero. rewrite !sanitise_idem_black. split; [reflexivity|]. split; [reflexivity|].
      unfold spec_ge0, no_darker, vzero; cbn. lra. }
  unfold world_li. set (r1 := scale_differential r _).
  destruct (whitted w u1 md1 (stime a) depth r1 q1) as [[[[[[La Ta] ia] ka] na]|]|] eqn:WA; cbn [bind]; try discriminate. intros [= <- _].
  destruct (whitted w u md2 (stime a) depth r1 q2) as [[[[[[Lc Tc] ic] kc] nc]|]|] eqn:WC; cbn [bind]; try discriminate. intros [= <- _].
  pose proof (C289_world mp items ns np scn mats steps diffs lamps u1 u md1 md2 (stime a) depth r1 q1 q2 _ _ _ _ _ _ _ _ _ _ HN HS HM HA U1 U P WA WC) as ND.
  pose proof (emitting_ge0 mp items ns np scn mats steps diffs lamps u1 md1 (stime a) depth r1 q1 _ _ _ _ _ HN HS HM HA WA) as GA.
  assert (GC : spec_ge0 Lc). { destruct GA as (?&?&?), ND as (?&?&?). unfold spec_ge0. lra. }
  assert (K : forall v, spec_ge0 v -> sanitise (vmap (fun x => emul x (Fin 1)) (vmap Fin v)) = vmap Fin v).
  { intros v V0. replace (vmap (fun x => emul x (Fin 1)) (vmap Fin v)) with (vmap Fin v); [apply sanitise_keeps; exact V0|].
    unfold vmap; cbn. now rewrite !Rmult_1_r. }
  exists La, Lc. rewrite (K La GA), (K Lc GC). auto.
Qed.
Print Assumptions C305_world.

(** The hypotheses hold for the scene, camera and film of C275_ex with recursion limits 0 and 9. *)
Example C305_ex : let s := stratified_make (IZR 0) (IZR 2) (IZR 0) (IZR 3) 1 1 true 0 1 in let f := film_make 1 2 (box_filter (/2) (/2)) 0 1 0 1 in
  exists c scn img1 img2,
  let w := mkW scn (fun k => Matte (fun _ => w_colour k) (fun _ => 0) None) (map lamp_light [v_lamp]) (scene_size scn) (fun _ _ _ _ _ => (false, vzero, vzero, vzero, vzero)) in
  persp_make v_still (-1) 1 (-1) 1 0 1 0 1 90 1 2 = Ok c /\
  world_render w (persp_raydiff c) (fun _ => 0) 0 1 s (mkS 0 0 0 0 0 [] [] [] []) (fun _ => ex_rnd) 0 100 f 1 = Some (Ok img1) /\
  world_render w (persp_raydiff c) (fun _ => 0) 9 1 s (mkS 0 0 0 0 0 [] [] [] []) (fun _ => ex_rnd) 0 100 f 1 = Some (Ok img2) /\
  in_film f 0 1 /\
  no_darker (pixel_at f img1 0 1) (vadd (pixel_at f img2 0 1) (spec (3e-6 * vabs1 (pixel_at f img2 0 1)))).
Proof.
  intros s f. destruct C275_ex as (c & PM & HC & _).
  assert (EX : xstart f = 0%Z) by (unfold f; cbn; rewrite Rmult_0_r; apply (Zceil_IZR 0)).
  assert (EY : ystart f = 0%Z) by (unfold f; cbn; rewrite Rmult_0_r; apply (Zceil_IZR 0)).
  assert (CX : xcnt f = 1%Z).
  { unfold f; cbn. rewrite Rmult_0_r, Rmult_1_r, (Zceil_IZR 0), (Zceil_IZR 1). reflexivity. }
  assert (CY : ycnt f = 2%Z).
  { unfold f; cbn. rewrite Rmult_0_r, Rmult_1_r, (Zceil_IZR 0), (Zceil_IZR 2). reflexivity. }
  assert (PIC : forall md, exists scn, scene_make 4 (full_refine_items v_items 3 3) = Ok scn /\ exists img,
    world_render (mkW scn (fun k => Matte (fun _ => w_colour k) (fun _ => 0) None) (map lamp_light [v_lamp]) (scene_size scn) (fun _ _ _ _ _ => (false, vzero, vzero, vzero, vzero)))
      (persp_raydiff c) (fun _ => 0) md 1 s (mkS 0 0 0 0 0 [] [] [] []) (fun _ => ex_rnd) 0 100 f 1 = Some (Ok img)).
  { intros md. destruct (C275_scene_picture 4 v_items 3 3 w_colour (fun k => Matte (fun _ => w_colour k) (fun _ => 0) None)
    (fun _ _ _ _ _ => (false, vzero, vzero, vzero, vzero)) [v_lamp] (persp_raydiff c) (fun _ => 0) md
    1 2 (box_filter (/2) (/2)) 0 1 0 1 0 2 0 3 1 1 true 0 1 (mkS 0 0 0 0 0 [] [] [] []) (fun _ => ex_rnd) 0 1 100) as (scn & SM & G).
  - lia.
  - constructor; [|constructor]; cbn [it_geom geom_ok]; split; [reflexivity|]; split; [unfold faces_ok; repeat (constructor; [cbn; lia|]); constructor|intros l [=]].
  - intros it [<-|[]]; split; [reflexivity|now left].
  - left. cbn. lia.
  - intros k; eexists _, _; split; [reflexivity|]; split; [reflexivity|intros; lra].
  - intros l [<-|[]]. unfold spec_ge0, v_lamp, spec; cbn. lra.
  - unfold proper_filter; cbn. repeat split; intros; lra.
  - fold f. unfold get_sample_extent. rewrite EX, EY, CX, CY. cbn [f ffilt film_make f_xw f_yw box_filter].
    replace (0 + /2 - /2) with (IZR 0) by lra. replace (0 + /2 + 1 + /2) with (IZR 2) by lra. replace (0 + /2 + 2 + /2) with (IZR 3) by lra.
    now rewrite !Zfloor_IZR.
  - intros k. assert (HF : in01 (/2)) by (unfold in01; lra). unfold rnd_ok. cbn -[Pos.to_nat]. change (Pos.to_nat 1) with 1%nat. cbn. split; [auto|].
    split; [apply Permutation_refl|]. split; [apply Permutation_refl|]. split; [auto|].
    intros i j Hi. destruct i; [|lia]. destruct j; split; apply Permutation_refl.
  - intros smp _. apply HC.
  - cbn. lia.
  - destruct (G (scene_size scn) 1%nat (le_n _) (le_n _)) as (img & l & R1 & _). exists scn. split; [exact SM|]. exists img. exact R1. }
  destruct (PIC 0%Z) as (scn & SM & img1 & R1). destruct (PIC 9%Z) as (scn' & SM' & img2 & R2). rewrite SM in SM'. injection SM' as <-.
  assert (IN : in_film f 0 1) by (unfold in_film; rewrite EX, EY, CX, CY; lia).
  exists c, scn, img1, img2. intros w. split; [exact PM|]. split; [exact R1|]. split; [exact R2|]. split; [exact IN|].
  refine (C305_world 4 v_items 3 3 scn (fun k => Matte (fun _ => w_colour k) (fun _ => 0) None) (scene_size scn) (fun _ _ _ _ _ => (false, vzero, vzero, vzero, vzero))
    [v_lamp] (persp_raydiff c) (fun _ => 0) (fun _ => 0) 0 9 1
    1 2 (box_filter (/2) (/2)) 0 1 0 1 0 2 0 3 1 1 true 0 1 (mkS 0 0 0 0 0 [] [] [] []) (fun _ => ex_rnd) 0 0 1 100 img1 img2 _ SM _ _ _ _ _ _ _ _ _ R1 R2 0%Z 1%Z IN).
  - intros it e [<-|[]]. discriminate.
  - intros j. cbn. intros. lra.
  - intros q [<-|[]]; unfold spec_ge0, v_lamp, spec; cbn; lra.
  - intros j. unfold in_unit. lra.
  - intros j. unfold in_unit. lra.
  - lia.
  - unfold proper_filter; cbn. repeat split; intros; lra.
  - fold f. unfold get_sample_extent. rewrite EX, EY, CX, CY. cbn [f ffilt film_make f_xw f_yw box_filter].
    replace (0 + /2 - /2) with (IZR 0) by lra. replace (0 + /2 + 1 + /2) with (IZR 2) by lra. replace (0 + /2 + 2 + /2) with (IZR 3) by lra.
    now rewrite !Zfloor_IZR.
  - intros k. assert (HF : in01 (/2)) by (unfold in01; lra). unfold rnd_ok. cbn -[Pos.to_nat]. change (Pos.to_nat 1) with 1%nat. cbn. split; [auto|].
    split; [apply Permutation_refl|]. split; [apply Permutation_refl|]. split; [auto|].
    intros i j Hi. destruct i; [|lia]. destruct j; split; apply Permutation_refl.
  - cbn. lia.
Qed.
